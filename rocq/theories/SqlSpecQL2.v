(** What the predicates of entql mean for every query it takes (C86).  Nothing
    here refers to entql. *)
From Verif Require Import Base Node Vocab Tree Syntax Gorm GormSpec SqlSpec.

Section Ql.
  Variable w : world.
  Variable lower_hi : N -> N.
  Variable nm : list (list N) -> wV w.
  (** The grouping of the query; "not" is ignored; "between" is >= and <=, "not
      between" is < and >.  (The cases that entql does not take are those of
      [query_means].) *)
  Fixpoint ql_value (e : expr) : wV w :=
    match e with
    | EVal v => wVal w (val_value v)
    | EName x => nm [x]
    | ERef xs | EJson xs => nm xs
    | ECall _ args => wDate w (match args with a :: _ => ql_value a | [] => wVal w GNil end)
    | EPred e o => wPred w (op_sql lower_hi o) (ql_value e)
    | EParen e | ENot e => ql_value e
    | EBetween e o _ a b =>
        let two lo hi := wAnd w (wCmp w lo (ql_value e) (wVal w (val_value a))) (wCmp w hi (ql_value e) (wVal w (val_value b))) in
        if streq (op_sql lower_hi o) #"not between" then two #"<" #">" else two #">=" #"<="
    | EIn e o _ ls => wCmp w (op_sql lower_hi o) (ql_value e) (wVal w (GArr (map lit_value ls)))
    | ECmp l o r => wCmp w (op_sql lower_hi o) (ql_value l) (ql_value r)
    | ELogic l o r => (if is_or o then wOr w else wAnd w) (ql_value l) (ql_value r)
    end.
End Ql.

Section Takes.
  Variable lower_hi : N -> N.
  (** No function, reference, predicate or "like", and no comment inside an
      operator other than "between". *)
  Fixpoint takes (e : expr) : bool :=
    match e with
    | EVal _ | EName _ => true
    | ERef _ | EJson _ | ECall _ _ | EPred _ _ => false
    | EParen e | ENot e | EBetween e _ _ _ _ => takes e
    | EIn e o _ _ => takes e && named lower_hi in_ops o
    | ECmp l o r => takes l && takes r && named lower_hi cmp_syms o
    | ELogic l _ r => takes l && takes r
    end.
  (** the operators of "between" contain no comment *)
  Fixpoint clean (e : expr) : bool :=
    match e with
    | EVal _ | EName _ | ERef _ | EJson _ => true
    | ECall _ args => forallb clean args
    | EParen e | ENot e | EPred e _ | EIn e _ _ _ => clean e
    | EBetween e o _ _ _ => clean e && named lower_hi between_ops o
    | ECmp l _ r | ELogic l _ r => clean l && clean r
    end.
  (** no "not" and no "not between" *)
  Fixpoint affirmed (e : expr) : bool :=
    match e with
    | EVal _ | EName _ | ERef _ | EJson _ => true
    | ECall _ args => forallb affirmed args
    | EParen e | EPred e _ | EIn e _ _ _ => affirmed e
    | ENot _ => false
    | EBetween e o _ _ _ => affirmed e && negb (streq (op_sql lower_hi o) #"not between")
    | ECmp l _ r | ELogic l _ r => affirmed l && affirmed r
    end.
End Takes.
(** a condition, not a bare name or value, in any number of parentheses and negations *)
Fixpoint conditional (e : expr) : bool :=
  match e with EParen e | ENot e => conditional e | EVal _ | EName _ => false | _ => true end.
