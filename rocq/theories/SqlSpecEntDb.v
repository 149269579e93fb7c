(** What a database makes of the condition that entsql writes (C77), for any mix
    of "and", "or", "not" and "between".  Nothing here refers to entsql. *)
From Verif Require Import Base Node Vocab Tree Syntax Gorm GormSpec SqlSpec SqlSpecDb.

Section EntDb.
  Variable w : world.
  Variable lower_hi : N -> N.
  Variable nm : list (list N) -> wV w.
  Notation all xs := (joined (wAnd w) (wVal w GNil) xs).
  Definition whole2 (p : option (wV w) * list (wV w)) : wV w := match p with (None, xs) => all xs | (Some d, xs) => wOr w d (all xs) end.
  (** what may stand under "and" without parentheses *)
  Definition ands (p : option (wV w) * list (wV w)) : list (wV w) := match p with (None, xs) => xs | p => [whole2 p] end.
  (** what stands before the last "or", and the conditions of the "and" after it;
      a between is two of them, and "not" applies to the first one only *)
  Fixpoint ent_parts (e : expr) : option (wV w) * list (wV w) :=
    match e with
    | ELogic l o r =>
        if is_or o then (Some (whole2 (ent_parts l)), ands (ent_parts r))
        else (fst (ent_parts l), snd (ent_parts l) ++ ands (ent_parts r))
    | ENot e => (None, match ands (ent_parts e) with [] => [] | x :: xs => wNot w x :: xs end)
    | EBetween e o _ a b =>
        let x := whole2 (ent_parts e) in
        let two lo hi := [wCmp w lo x (wVal w (val_value a)); wCmp w hi x (wVal w (val_value b))] in
        (None, if streq (op_sql lower_hi o) #"not between" then two #"<" #">" else two #">=" #"<=")
    | EVal v => (None, [wVal w (val_value v)])
    | EName x => (None, [nm [x]])
    | ERef xs | EJson xs => (None, [nm xs])
    | ECall _ args => (None, [wDate w (match args with a :: _ => whole2 (ent_parts a) | [] => wVal w GNil end)])
    | EParen e => (None, [whole2 (ent_parts e)])
    | EPred e o => (None, [wPred w (op_sql lower_hi o) (whole2 (ent_parts e))])
    | EIn e o _ ls => (None, [wCmp w (op_sql lower_hi o) (whole2 (ent_parts e)) (wList w (map (wVal w) (map lit_value ls)))])
    | ECmp l o r => (None, [wCmp w (op_sql lower_hi o) (whole2 (ent_parts l)) (whole2 (ent_parts r))])
    end.
  Definition ent_means (e : expr) : wV w := whole2 (ent_parts e).
End EntDb.

(** The queries: operands of comparisons are simple, lists stand only after "in"
    and are not empty, operators contain no comment, and the function has_edge is
    not used. *)
Section Simple2.
  Variable lower_hi : N -> N.
  Fixpoint simple2 (e : expr) : bool :=
    match e with
    | EVal v => scalar v
    | EName _ | ERef _ => true
    | EJson _ => false
    | ECall f args => negb (streq f #"has_edge") && forallb simple2 args
    | EParen e | ENot e => simple2 e
    | EBetween e o _ a b => simple2 e && prime e && named lower_hi between_ops o && scalar a && scalar b
    | EPred e o => simple2 e && prime e && named lower_hi pred_ops o
    | EIn e o _ ls => simple2 e && prime e && named lower_hi in_ops o && negb (Nat.eqb (length ls) 0)
    | ECmp l o r => simple2 l && simple2 r && prime l && prime r && named lower_hi cmp_ops o
    | ELogic l o r => simple2 l && simple2 r
    end.
  (** No "and" with an unparenthesised "or" to its left, no "not between", and no
      "between" directly under "not". *)
  Fixpoint straight (e : expr) : bool :=
    match e with
    | EVal _ | EName _ | ERef _ | EJson _ => true
    | ECall _ args => match args with a :: _ => straight a | [] => true end
    | EParen e | EPred e _ | EIn e _ _ _ => straight e
    | EBetween e o _ _ _ => straight e && negb (streq (op_sql lower_hi o) #"not between")
    | ECmp l _ r => straight l && straight r
    | ENot e => straight e && negb (free_between e)
    | ELogic l o r => straight l && straight r && (is_or o || negb (loose_or l))
    end.
End Simple2.

(** A lawful world in which little more is equal than has to be: the values are
    the conditions under "and", as a list. *)
Fixpoint free_value (v : gval) : list sql :=
  match v with GArr l => [QList (map (fun x => QList (free_value x)) l)] | _ => [QVal v] end.
Definition free2 : world :=
  let cmp (o : list N) (a b : list sql) := [QCmp o (QList a) (QList b)] in
  World (list sql) free_value cmp (fun o a => [QPred o (QList a)])
    (fun neg a b c => if neg then [QBetween true (QList a) (QList b) (QList c)] else cmp #">=" a b ++ cmp #"<=" a c)
    (fun a => [QDate (QList a)]) (fun l => [QList (map QList l)]) (fun a => [QNot (QList a)]) (fun a b => a ++ b) (fun a b => [QOr (QList a) (QList b)]).
