(** Specification: expressions that differ in the letter case of keywords. *)
From Verif Require Import Base Vocab Node Syntax.

(** [e] with every operator in lower case *)
Fixpoint lower_ops (e : expr) : expr :=
  match e with
  | EVal v => EVal v
  | EName x => EName x
  | ERef xs => ERef xs
  | EJson xs => EJson xs
  | ECall f args => ECall f (map lower_ops args)
  | EParen e => EParen (lower_ops e)
  | EBetween e o b l h => EBetween (lower_ops e) (map ascii_lower o) b l h
  | EPred e o => EPred (lower_ops e) (map ascii_lower o)
  | EIn e o p ls => EIn (lower_ops e) (map ascii_lower o) p ls
  | ECmp l o r => ECmp (lower_ops l) (map ascii_lower o) (lower_ops r)
  | ENot e => ENot (lower_ops e)
  | ELogic l o r => ELogic (lower_ops l) (map ascii_lower o) (lower_ops r)
  end.

(** the operators that are not words of any letter case: between, and the words
    after is *)
Fixpoint fixed_ops (e : expr) : Prop :=
  match e with
  | EVal _ | EName _ | ERef _ | EJson _ => True
  | ECall _ args => (fix all (l : list expr) : Prop := match l with [] => True | a :: l' => fixed_ops a /\ all l' end) args
  | EParen e | EIn e _ _ _ | ENot e => fixed_ops e
  | EBetween e o _ _ _ => op_between o /\ fixed_ops e
  | EPred e o => op_match o /\ fixed_ops e
  | ECmp l _ r | ELogic l _ r => fixed_ops l /\ fixed_ops r
  end.
