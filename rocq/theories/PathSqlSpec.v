(** Vocabulary of C98: the queries with -> paths whose conditions are looked at. *)
From Verif Require Import Base Node Vocab Tree Syntax SqlSpec PathSpec.

(** No comment inside an operator, and each function has one argument, that does not
    begin with a path and has no right operand that does; anything else may be there,
    in any nesting. *)
Fixpoint tame (lower_hi : N -> N) (e : expr) : bool :=
  match e with
  | EVal _ | EName _ | ERef _ | EJson _ => true
  | ECall _ args => match args with [a] => tame lower_hi a && lean true a && match heads a with [] => true | _ => false end | _ => false end
  | EParen e | ENot e => tame lower_hi e
  | EBetween e o _ _ _ => tame lower_hi e && named lower_hi between_ops o
  | EPred e o => tame lower_hi e && named lower_hi pred_ops o
  | EIn e o _ _ => tame lower_hi e && named lower_hi in_ops o
  | ECmp l o r => tame lower_hi l && tame lower_hi r && named lower_hi cmp_ops o
  | ELogic l _ r => tame lower_hi l && tame lower_hi r
  end.
