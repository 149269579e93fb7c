(** Whose column a name in the condition of an edge is (C95). *)
From Verif Require Import Base Node Vocab Tree Syntax Gorm GormSpec EntSQL EntSQLSpec SqlSpec SqlSpecDb SqlSpecEntDb SqlSpecWhere NestSpec.

Section Scope.
  Variable w : world.
  Variable R : rows w.
  Variable table : nat -> rRow R -> Prop.                  (* the rows of the table of a node *)
  Variable has : rRow R -> list N -> bool.                 (* the columns of a row *)
  Variable get : rRow R -> list N -> wV w.
  Variable lower_hi : N -> N.
  Variable heap : nat -> gnode.
  Variable code : bool -> nat -> list N -> N.
  Variable own : nat -> list N -> list sql.
  Variable col : list N -> list N.
  (** A name is the column of the innermost row that has one of this name. *)
  Definition innermost : Prop := forall r env x, rGet R (r :: env) x = if has r x then get r x else rGet R env x.
  (** A subselect for an edge looks at the rows of the edge's table only. *)
  Definition from_table : Prop := forall c p t env f g, target heap c p = Some t -> (forall r, table t r -> f r = g r) ->
    rSome R (code true c p) env f = rSome R (code true c p) env g.

  (** The names of the query are columns of the tables they are about: outside of
      has_edge those of [n], in the condition of an edge those of its target. *)
  Definition column (n : option nat) (x : list N) : Prop := match n with Some c => forall r, table c r -> has r (col x) = true | None => False end.
  Fixpoint at_home (n : option nat) (e : expr) : Prop :=
    match e with
    | EVal _ => True
    | EName x => column n x
    | ERef _ | EJson _ => False
    | ECall f args =>
        if streq f #"has_edge" then
          match n, args with
          | Some c, [EName p] => True
          | Some c, [EName p; e] => match target heap c p with Some t => at_home (Some t) e | None => False end
          | _, _ => False
          end
        else match args with a :: _ => at_home n a | [] => True end
    | EParen e | EPred e _ | EIn e _ _ _ | EBetween e _ _ _ _ | ENot e => at_home n e
    | ECmp l _ r | ELogic l _ r => at_home n l /\ at_home n r
    end.
  (** The meaning with each name the column of its own table: [r] is the row the
      condition is about, [env] the rows outside. *)
  Fixpoint local (r : rRow R) (env : list (rRow R)) (n : option nat) (e : expr) : wV w :=
    match e with
    | EVal v => wVal w (val_value v)
    | EName x => get r (col x)
    | ERef _ | EJson _ => wVal w GNil
    | ECall f args =>
        if streq f #"has_edge" then
          match n, args with
          | Some c, [EName p] => rHas R (code false c p) (r :: env)
          | Some c, [EName p; e] =>
              match target heap c p with
              | Some t => rSome R (code true c p) (r :: env) (fun r' => beside w (neighbours w R own c p (r' :: r :: env)) (local r' (r :: env) (Some t) e))
              | None => wVal w GNil
              end
          | _, _ => wVal w GNil
          end
        else wDate w (match args with a :: _ => local r env n a | [] => wVal w GNil end)
    | EParen e => local r env n e
    | EBetween e o _ a b => wBetween w (streq (op_sql lower_hi o) #"not between") (local r env n e) (wVal w (val_value a)) (wVal w (val_value b))
    | EPred e o => wPred w (op_sql lower_hi o) (local r env n e)
    | EIn e o _ ls => wCmp w (op_sql lower_hi o) (local r env n e) (wVal w (GArr (map lit_value ls)))
    | ECmp l o r' => wCmp w (op_sql lower_hi o) (local r env n l) (local r env n r')
    | ENot e => wNot w (local r env n e)
    | ELogic l o r' => if is_or o then wOr w (local r env n l) (local r env n r') else wAnd w (local r env n l) (local r env n r')
    end.
End Scope.
