(** What a database makes of "and" and "or" (C76): the value of a query when
    "and" binds tighter than "or", whatever the grouping of the query. *)
From Verif Require Import Base Node Vocab Tree Syntax Gorm GormSpec SqlSpec.

Section Db.
  Variable w : world.
  Variable lower_hi : N -> N.
  Variable nm : list (list N) -> wV w.
  (** what stands before the last "or", and what follows it *)
  Definition whole (p : option (wV w) * wV w) : wV w := match p with (None, a) => a | (Some d, a) => wOr w d a end.
  Fixpoint db_parts (e : expr) : option (wV w) * wV w :=
    match e with
    | ELogic l o r =>
        let b := whole (db_parts r) in
        if is_or o then (Some (whole (db_parts l)), b) else (fst (db_parts l), wAnd w (snd (db_parts l)) b)
    | EVal v => (None, wVal w (val_value v))
    | EName x => (None, nm [x])
    | ERef xs | EJson xs => (None, nm xs)
    | ECall _ args => (None, wDate w (match args with a :: _ => whole (db_parts a) | [] => wVal w GNil end))
    | EParen e => (None, whole (db_parts e))
    | EBetween e o _ a b => (None, wBetween w (streq (op_sql lower_hi o) #"not between") (whole (db_parts e)) (wVal w (val_value a)) (wVal w (val_value b)))
    | EPred e o => (None, wPred w (op_sql lower_hi o) (whole (db_parts e)))
    | EIn e o _ ls => (None, wCmp w (op_sql lower_hi o) (whole (db_parts e)) (wVal w (GArr (map lit_value ls))))
    | ECmp l o r => (None, wCmp w (op_sql lower_hi o) (whole (db_parts l)) (whole (db_parts r)))
    | ENot e => (None, wNot w (whole (db_parts e)))
    end.
  Definition db_means (e : expr) : wV w := whole (db_parts e).
End Db.

(** The same, seen from above: the conditions between the top-level "or"s, each
    the list of those between its "and"s, from left to right. *)
Fixpoint add_last (r : expr) (cs : list (list expr)) : list (list expr) :=
  match cs with [] => [[r]] | [c] => [c ++ [r]] | c :: cs => c :: add_last r cs end.
Fixpoint clauses (e : expr) : list (list expr) :=
  match e with
  | ELogic l o r => if is_or o then clauses l ++ [[r]] else add_last r (clauses l)
  | _ => [[e]]
  end.
Definition joined {V : Type} (f : V -> V -> V) (none : V) (l : list V) : V := match l with [] => none | a :: l => fold_left f l a end.

(** The world in which two conditions have the same value only if they are the
    same condition. *)
Definition free_world : world := World sql QVal QCmp QPred QBetween QDate QList QNot QAnd QOr.

(** As [neat], without the condition on "and" and "or". *)
Section Simple.
  Variable lower_hi : N -> N.
  Fixpoint simple (e : expr) : bool :=
    match e with
    | EVal _ | EName _ | ERef _ => true
    | EJson _ => false
    | ECall f args => streq f #"date" && match args with [a] => simple a | _ => false end
    | EParen e => simple e
    | EBetween e o _ _ _ => simple e && prime e && named lower_hi between_ops o
    | EPred e o => simple e && prime e && named lower_hi pred_ops o
    | EIn e o _ _ => simple e && prime e && named lower_hi in_ops o
    | ECmp l o r => simple l && simple r && prime l && prime r && named lower_hi cmp_ops o
    | ENot e => simple e
    | ELogic l o r => simple l && simple r
    end.
End Simple.
