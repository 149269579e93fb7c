(** What it means that two trees, two lists of arguments or two builders differ
    only in what is written inside literals (C82). *)
From Verif Require Import Base Node EntSQL.

(** The types of literals that only a dialect with casts tells apart. *)
Definition kind_of (casts : bool) (v : vtype) : vtype :=
  match v with VInt | VFloat | VBool | VString => if casts then v else VString | _ => v end.
(** The tree with every literal emptied: a number becomes 0, a string empty, a
    boolean false; arrays keep their length. *)
Fixpoint blank (casts : bool) (n : node) : node :=
  let o := option_map (blank casts) in
  Node (nType n) (kind_of casts (nVType n)) 0 false [] 0 (map o (nArray n)) (nOperation n) (nName n) (nNames n)
    (o (nExpression n)) (o (nLeft n)) (o (nOp n)) (o (nRight n)) (map o (nParams n)).
Fixpoint blank_value (casts : bool) (v : gval) : gval :=
  match v with
  | GInt _ => if casts then GInt 0 else GStr []
  | GStr _ => GStr []
  | GFloat _ => if casts then GFloat 0 else GStr []
  | GBool _ => if casts then GBool false else GStr []
  | GNil => GNil
  | GArr l => GArr (map (blank_value casts) l)
  end.
Definition blank_arg (casts : bool) (a : sarg) : sarg :=
  match a with APlain v => APlain (blank_value casts v) | ACast v => ACast (blank_value casts v) end.
Definition blank_err (casts : bool) (e : serr) : serr := match e with SEdgeCond p => SEdgeCond (blank casts p) | _ => e end.

(** The same text, as many arguments with the same types, as many errors. *)
Definition same_builder (casts : bool) (b1 b2 : sqlb) : Prop :=
  bText b1 = bText b2 /\ map (blank_arg casts) (bArgs b1) = map (blank_arg casts) (bArgs b2) /\ bTotal b1 = bTotal b2 /\
  bDialect b1 = bDialect b2 /\ map (blank_err casts) (bErrs b1) = map (blank_err casts) (bErrs b2).
Definition same_state (casts : bool) (s1 s2 : sst) : Prop :=
  same_builder casts (sOwn s1) (sOwn s2) /\
  match sExt s1, sExt s2 with Some b1, Some b2 => same_builder casts b1 b2 | None, None => True | _, _ => False end.
(** The builders of [s] that write for Postgres only if types are told apart. *)
Definition suits (casts : bool) (s : sst) : Prop :=
  casts = true \/ (bDialect (sOwn s) <> #"postgres" /\ forall b, sExt s = Some b -> bDialect b <> #"postgres").
