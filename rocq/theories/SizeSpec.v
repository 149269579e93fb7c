(** Specification: the size of a tree. *)
From Verif Require Import Base Node.

(** Number of nodes of a tree; a nil pointer counts nothing. *)
Fixpoint nsize (n : node) : nat :=
  let opt (x : option node) : nat := match x with Some m => nsize m | None => 0 end in
  S (list_sum (map opt (nArray n)) + opt (nExpression n) + opt (nLeft n) + opt (nOp n) + opt (nRight n)
     + list_sum (map opt (nParams n))).

(** Longest chain of nodes from the root downwards: how deep a recursive visit of
    the tree goes. *)
Fixpoint nheight (n : node) : nat :=
  let opt (x : option node) : nat := match x with Some m => nheight m | None => 0 end in
  S (Nat.max (list_max (map opt (nArray n))) (Nat.max (opt (nExpression n)) (Nat.max (opt (nLeft n)) (Nat.max (opt (nOp n))
     (Nat.max (opt (nRight n)) (list_max (map opt (nParams n)))))))).

(** Nesting of between expressions inside the left operand of a between. *)
Fixpoint bdepth (n : node) : nat :=
  let opt (x : option node) : nat := match x with Some m => bdepth m | None => 0 end in
  let rest := Nat.max (list_max (map opt (nArray n))) (Nat.max (opt (nExpression n)) (Nat.max (opt (nOp n))
     (Nat.max (opt (nRight n)) (list_max (map opt (nParams n)))))) in
  match nType n with
  | NBetween => Nat.max (S (opt (nLeft n))) rest
  | _ => Nat.max (opt (nLeft n)) rest
  end.
