(** Vocabulary of C96: a builder of entql that is used for several queries.  A new
    builder's Build is the yardstick. *)
From Verif Require Import Base Node Tree Parse Build EntQL EntQLSpec Builder.

Section Spec.
  Variable lower_hi : N -> N.
  (** what a new builder does with the query, and what it has left then *)
  Definition alone (q : list N) : result := fst (fst (rbuild lower_hi q [])).
  Definition leftover (q : list N) : list eexpr := snd (rbuild lower_hi q []).
  (** A new builder neither runs out of expressions nor, for a query that is not
      empty, returns nil: C96_steady says which queries these are. *)
  Definition steady (q : list N) : Prop := alone q <> Panicked true /\ (alone q = Returned None -> q = []).
  (** the message: only with a predicate, and if two or more expressions are left *)
  Definition message (q : list N) (before : nat) : option nat :=
    match alone q with Returned (Some _) => if Nat.leb 2 before then Some before else None | _ => None end.
End Spec.
