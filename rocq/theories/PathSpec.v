(** Vocabulary of C97: what Parse makes of a path [a->b->c].  Each name of a path
    becomes an identifier of its own, so that all but the last are in the way of the
    operator that comes next. *)
From Verif Require Import Base Node Tree Build Syntax.

(** the names in the way: of the path an expression begins with, all but the last *)
Fixpoint heads (e : expr) : list (list N) :=
  match e with
  | EJson xs => removelast xs
  | EVal _ | EName _ | ERef _ | ECall _ _ => []
  | EParen e | EPred e _ | ENot e | EBetween e _ _ _ _ | EIn e _ _ _ => heads e
  | ECmp l _ _ | ELogic l _ _ => heads l
  end.
(** the expression, with a path replaced by its last name; the names before it become
    arguments of their own if it is an argument of a function *)
Fixpoint shown (e : expr) : expr :=
  match e with
  | EJson xs => EName (last xs [])
  | EVal _ | EName _ | ERef _ => e
  | ECall f args => ECall f (concat (map (fun a => map EName (heads a) ++ [shown a]) args))
  | EParen e => EParen (shown e)
  | EBetween e o b lo hi => EBetween (shown e) o b lo hi
  | EPred e o => EPred (shown e) o
  | EIn e o p ls => EIn (shown e) o p ls
  | ECmp l o r => ECmp (shown l) o (shown r)
  | ENot e => ENot (shown e)
  | ELogic l o r => ELogic (shown l) o (shown r)
  end.
(** No right operand begins with a path; the arguments of functions are looked at
    only if [deep]. *)
Fixpoint lean (deep : bool) (e : expr) : bool :=
  match e with
  | EVal _ | EName _ | ERef _ | EJson _ => true
  | ECall _ args => if deep then forallb (lean deep) args else true
  | EParen e | EPred e _ | ENot e | EBetween e _ _ _ _ | EIn e _ _ _ => lean deep e
  | ECmp l _ r | ELogic l _ r => lean deep l && lean deep r && match heads r with [] => true | _ => false end
  end.

(** Somewhere in the tree a comparison or a logical expression has something that is
    no operator for its operator; the arguments of functions are looked at only if
    [deep]. *)
Inductive misbuilt (deep : bool) : node -> Prop :=
| mis_op : forall n o, nType n = NCompare \/ nType n = NLogic -> nOp n = Some o -> nType o <> NOperation -> misbuilt deep n
| mis_left : forall n m, nLeft n = Some m -> misbuilt deep m -> misbuilt deep n
| mis_right : forall n m, nRight n = Some m -> misbuilt deep m -> misbuilt deep n
| mis_inner : forall n m, nExpression n = Some m -> misbuilt deep m -> misbuilt deep n
| mis_arg : forall n m, deep = true -> In (Some m) (nParams n) -> misbuilt deep m -> misbuilt deep n.
