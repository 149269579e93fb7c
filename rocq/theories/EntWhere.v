(** Model of how ent puts the condition of a query beside other conditions, as in
    entmq/entsql.go:127-141: Selector.Where of sql.P with a function that joins
    the builder of the query.  From entgo.io/ent/dialect/sql:
    - a predicate of one function, which writes to the builder it is given;
    - And, with mayWrap: parentheses only around an And inside an And;
    - Selector.Where: And of the conditions so far and the new one.
    Not modelled: predicates of several functions, Or, Not, columns, tables. *)
From Verif Require Import Base Node Tree Parse Build EntSQL.

(** The text, the arguments and the errors that a function adds to a builder with
    a dialect and a number of arguments so far; [None] is a panic. *)
Definition pfn : Type := list N -> N -> option (list N * list sarg * list serr).
Definition then_fn (f : pfn) (sep : list N) (g : pfn) : pfn := fun d k =>
  match f d k with
  | None => None
  | Some (t, a, e) =>
      match g d (k + N.of_nat (length a))%N with
      | None => None
      | Some (t', a', e') => Some (t ++ sep ++ t', a ++ a', e ++ e')
      end
  end.
Definition paren_fn (f : pfn) : pfn := fun d k =>
  match f d k with Some (t, a, e) => Some (#"(" ++ t ++ #")", a, e) | None => None end.

(** Predicates *)
Inductive epred : Type := EFn (f : pfn) | EAnd (p q : epred).
(** Predicate.Query and mayWrap; [deep]: inside an And *)
Fixpoint write_pred (deep : bool) (p : epred) : pfn :=
  match p with
  | EFn f => f
  | EAnd p q =>
      let both := then_fn (write_pred true p) #" AND " (write_pred true q) in
      if deep then paren_fn both else both
  end.
(** Selector.Where, for each condition in turn *)
Definition add_cond (w : option epred) (f : pfn) : option epred :=
  match w with None => Some (EFn f) | Some p => Some (EAnd p (EFn f)) end.
Definition wheres (fs : list pfn) : option epred := fold_left add_cond fs None.
(** what the selector writes after WHERE *)
Definition where_text (d : list N) (fs : list pfn) : option (list N * list sarg * list serr) :=
  match wheres fs with None => Some ([], [], []) | Some p => write_pred false p d 0%N end.

Section Mini.
  Variable lower_hi : N -> N.
  Variable ident_sql : list N -> list N -> list N.
  Variable edge_sql : bool -> list N -> gnode -> gspec -> gnode -> option (list N * list N).
  Variable heap : nat -> gnode.
  (** Builder.Join of a builder for query [q], entmq/entsql.go:26-43, 131-140: it
      gets the dialect and the number of arguments of the builder it is joined to. *)
  Definition mini_fn (disable : bool) (nd : option nat) (q : list N) : pfn := fun d k =>
    match query lower_hi ident_sql edge_sql heap (MB nd q None disable (ST (SB [] [] k d []) None)) with
    | None => None
    | Some (m, (t, a)) => Some (t, a, bErrs (sOwn (mSt m)))
    end.
End Mini.
