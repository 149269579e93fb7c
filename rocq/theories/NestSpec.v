(** Queries with has_edge, at any depth, as a database reads them (C94, C95).

    The text of a subselect up to the condition that is wanted of its rows is
    taken as one word.  In the texts here that word is one number above all
    characters, a mark; [spelled] puts the words back.  A mark that [opens]
    is followed by a condition and a closing parenthesis and is one operand
    together with them; the other marks are operands by themselves.  The
    condition of a subselect is read as [SqlSpec] reads conditions, by itself.
    Nothing here refers to the code of entsql. *)
From Verif Require Import Base Node Vocab Tree Syntax Gorm GormSpec EntSQL EntSQLSpec SqlSpec SqlSpecDb SqlSpecEntDb SqlSpecWhere EntWhere SqlSpecEntWhere.

(** ** Reading *)
Definition is_mark (c : N) : bool := (1114112 <=? c)%N.
Definition with_marks (name_lex : list N -> option (list N * list N)) (t : list N) : option (list N * list N) :=
  match t with c :: r => if is_mark c then Some ([c], r) else name_lex t | [] => name_lex [] end.
Definition spelled (word : N -> list N) (t : list N) : list N := flat_map (fun c => if is_mark c then word c else [c]) t.
(** a condition, and the conditions of its subselects, from left to right *)
Inductive nested : Set := Nest (a : sql) (subs : list nested).
Section Cut.
  Variable opens : N -> bool.
  Definition subselect (k : tok) : bool := match k with TName [c] => is_mark c && opens c | _ => false end.
  (** every parenthesis and subselect opened is closed, after [k] more *)
  Fixpoint closed (k : nat) (ts : list tok) : bool :=
    match ts with
    | [] => Nat.eqb k 0
    | TOpen :: ts => closed (S k) ts
    | TClose :: ts => match k with O => false | S k => closed k ts end
    | x :: ts => if subselect x then closed (S k) ts else closed k ts
    end.
  (** the subselects taken out and numbered, from [k] on *)
  Inductive cuts : nat -> list tok -> list tok -> list (list tok) -> Prop :=
  | cuts_end : forall k, cuts k [] [] []
  | cuts_token : forall k x ts us ins, subselect x = false -> cuts k ts us ins -> cuts k (x :: ts) (x :: us) ins
  | cuts_sub : forall k c inner ts us ins, subselect (TName [c]) = true -> closed 0 inner = true -> cuts (S k) ts us ins ->
      cuts k (TName [c] :: inner ++ TClose :: ts) (TName [c; N.of_nat k] :: us) (inner :: ins).
  Inductive reads_tokens : list tok -> nested -> Prop :=
  | reads_tokens_intro : forall ts us ins f a subs, cuts 0 ts us ins -> rd f GOr us = Some (a, []) -> reads_all ins subs -> reads_tokens ts (Nest a subs)
  with reads_all : list (list tok) -> list nested -> Prop :=
  | reads_all_nil : reads_all [] []
  | reads_all_cons : forall ts s tss ss, reads_tokens ts s -> reads_all tss ss -> reads_all (ts :: tss) (s :: ss).
  (** The text with marks and the arguments are the condition. *)
  Definition reads_nested (name_lex : list N -> option (list N * list N)) (d : list N) (t : list N) (args : list gval) (s : nested) : Prop :=
    exists ts, tokens (with_marks name_lex) d t args ts /\ reads_tokens ts s.
End Cut.

(** ** Meaning *)
(** Rows; the value of a name where rows of several tables are in view, that of
    the innermost subselect first; whether a subselect has a row with a
    condition; the value of a mark that does not open anything. *)
Record rows (w : world) : Type := Rows {
  rRow : Type;
  rGet : list rRow -> list N -> wV w;
  rSome : N -> list rRow -> (rRow -> wV w) -> wV w;
  rHas : N -> list rRow -> wV w;
  rSame : forall c env f g, (forall r, f r = g r) -> rSome c env f = rSome c env g
}.
Arguments rRow {w}. Arguments rGet {w}. Arguments rSome {w}. Arguments rHas {w}. Arguments rSame {w}.
Definition marked (x : list N) : bool := match x with c :: _ => is_mark c | [] => false end.
Section Means.
  Variable w : world.
  Variable R : rows w.
  (** the value of a name, where the numbered subselects are [fs] *)
  Definition in_view (env : list (rRow R)) (fs : list (rRow R -> wV w)) (x : list N) : wV w :=
    match x with
    | c :: l =>
        if is_mark c then
          match l with
          | [i] => match nth_error fs (N.to_nat i) with Some f => rSome R c env f | None => rGet R env x end
          | _ => rHas R c env
          end
        else rGet R env x
    | [] => rGet R env x
    end.
  Fixpoint nested_means (env : list (rRow R)) (s : nested) : wV w :=
    match s with Nest a subs => sql_means w (in_view env (map (fun s r => nested_means (r :: env) s) subs)) a end.

  (** Queries.  [code b c p]: the mark for the edge [p] of node [c], with ([b])
      or without a condition; [own c p]: the conditions that make a row of the
      subselect a neighbour; [col]: the column of a name. *)
  Variable lower_hi : N -> N.
  Variable heap : nat -> gnode.
  Variable code : bool -> nat -> list N -> N.
  Variable own : nat -> list N -> list sql.
  Variable col : list N -> list N.
  Definition target (c : nat) (p : list N) : option nat := match assoc p (gnEdges (heap c)) with Some (t, _) => t | None => None end.
  Definition neighbours (c : nat) (p : list N) (env : list (rRow R)) : list (wV w) := map (sql_means w (rGet R env)) (own c p).
  (** what the database makes of a query: as [ent_parts], with the conditions
      [lead] "and" before it, where nothing is put in parentheses *)
  Fixpoint edge_parts (lead : list (wV w)) (env : list (rRow R)) (n : option nat) (e : expr) : option (wV w) * list (wV w) :=
    let one (x : wV w) := (None, lead ++ [x]) in
    let value (e : expr) := whole2 w (edge_parts [] env n e) in
    match e with
    | ELogic l o r =>
        let p := edge_parts lead env n l in
        if is_or o then (Some (whole2 w p), ands w (edge_parts [] env n r)) else (fst p, snd p ++ ands w (edge_parts [] env n r))
    | ENot e => (None, lead ++ match ands w (edge_parts [] env n e) with [] => [] | x :: xs => wNot w x :: xs end)
    | EBetween e o _ a b =>
        let x := value e in
        let two lo hi := [wCmp w lo x (wVal w (val_value a)); wCmp w hi x (wVal w (val_value b))] in
        (None, lead ++ if streq (op_sql lower_hi o) #"not between" then two #"<" #">" else two #">=" #"<=")
    | EVal v => one (wVal w (val_value v))
    | EName x => one (rGet R env (col x))
    | ERef _ | EJson _ => (None, lead)                       (* not written at all *)
    | ECall f args =>
        if streq f #"has_edge" then
          match n, args with
          | Some c, [EName p] => one (rHas R (code false c p) env)
          | Some c, [EName p; e] =>
              match target c p with
              | Some t => one (rSome R (code true c p) env (fun r => whole2 w (edge_parts (neighbours c p (r :: env)) (r :: env) (Some t) e)))
              | None => (None, lead)
              end
          | _, _ => (None, lead)
          end
        else one (wDate w (match args with a :: _ => value a | [] => wVal w GNil end))
    | EParen e => one (value e)
    | EPred e o => one (wPred w (op_sql lower_hi o) (value e))
    | EIn e o _ ls => one (wCmp w (op_sql lower_hi o) (value e) (wList w (map (wVal w) (map lit_value ls))))
    | ECmp l o r => one (wCmp w (op_sql lower_hi o) (value l) (value r))
    end.
  Definition edge_means (env : list (rRow R)) (n : option nat) (e : expr) : wV w := whole2 w (edge_parts [] env n e).

  (** the meaning of the query: has_edge(p, e) asks for a neighbour with e *)
  Definition beside (gs : list (wV w)) (v : wV w) : wV w := match gs with [] => v | _ => wAnd w (joined (wAnd w) (wVal w GNil) gs) v end.
  Fixpoint wanted (env : list (rRow R)) (n : option nat) (e : expr) : wV w :=
    match e with
    | EVal v => wVal w (val_value v)
    | EName x => rGet R env (col x)
    | ERef _ | EJson _ => wVal w GNil                        (* no column *)
    | ECall f args =>
        if streq f #"has_edge" then
          match n, args with
          | Some c, [EName p] => rHas R (code false c p) env
          | Some c, [EName p; e] =>
              match target c p with
              | Some t => rSome R (code true c p) env (fun r => beside (neighbours c p (r :: env)) (wanted (r :: env) (Some t) e))
              | None => wVal w GNil
              end
          | _, _ => wVal w GNil
          end
        else wDate w (match args with a :: _ => wanted env n a | [] => wVal w GNil end)
    | EParen e => wanted env n e
    | EBetween e o _ a b => wBetween w (streq (op_sql lower_hi o) #"not between") (wanted env n e) (wVal w (val_value a)) (wVal w (val_value b))
    | EPred e o => wPred w (op_sql lower_hi o) (wanted env n e)
    | EIn e o _ ls => wCmp w (op_sql lower_hi o) (wanted env n e) (wVal w (GArr (map lit_value ls)))
    | ECmp l o r => wCmp w (op_sql lower_hi o) (wanted env n l) (wanted env n r)
    | ENot e => wNot w (wanted env n e)
    | ELogic l o r => if is_or o then wOr w (wanted env n l) (wanted env n r) else wAnd w (wanted env n l) (wanted env n r)
    end.
End Means.

(** ** The queries *)
(** As [simple2], with has_edge of a name and perhaps a condition, but not as an
    operand of a comparison. *)
Definition is_edge (e : expr) : bool := match e with ECall f _ => streq f #"has_edge" | _ => false end.
Section Simple3.
  Variable lower_hi : N -> N.
  Fixpoint simple3 (e : expr) : bool :=
    let operand (e : expr) := simple3 e && prime e && negb (is_edge e) in
    match e with
    | EVal v => scalar v
    | EName _ => true
    | ERef _ | EJson _ => false
    | ECall f args =>
        if streq f #"has_edge" then match args with [EName _] => true | [EName _; e] => simple3 e | _ => false end
        else forallb simple3 args
    | EParen e | ENot e => simple3 e
    | EBetween e o _ a b => operand e && named lower_hi between_ops o && scalar a && scalar b
    | EPred e o => operand e && named lower_hi pred_ops o
    | EIn e o _ ls => operand e && named lower_hi in_ops o && negb (Nat.eqb (length ls) 0)
    | ECmp l o r => operand l && operand r && named lower_hi cmp_ops o
    | ELogic l o r => simple3 l && simple3 r
    end.
  (** As [straight]; the condition of an edge with conditions of its own has no
      "or" outside parentheses. *)
  Variable heap : nat -> gnode.
  Variable own : nat -> list N -> list sql.
  Fixpoint straight3 (n : option nat) (e : expr) : bool :=
    match e with
    | EVal _ | EName _ => true
    | ERef _ | EJson _ => false
    | ECall f args =>
        if streq f #"has_edge" then
          match n, args with
          | Some c, [EName p] => true
          | Some c, [EName p; e] =>
              match target heap c p with
              | Some t => straight3 (Some t) e && (match own c p with [] => true | _ => negb (loose_or e) end)
              | None => false
              end
          | _, _ => false
          end
        else match args with a :: _ => straight3 n a | [] => true end
    | EParen e | EPred e _ | EIn e _ _ _ => straight3 n e
    | EBetween e o _ _ _ => straight3 n e && negb (streq (op_sql lower_hi o) #"not between")
    | ECmp l _ r => straight3 n l && straight3 n r
    | ENot e => straight3 n e && negb (free_between e)
    | ELogic l o r => straight3 n l && straight3 n r && (is_or o || negb (loose_or l))
    end.
End Simple3.

(** Every edge asked for exists and leads somewhere. *)
Fixpoint linked (heap : nat -> gnode) (n : option nat) (e : expr) : bool :=
  match e with
  | EVal _ | EName _ | ERef _ | EJson _ => true
  | ECall f args =>
      if streq f #"has_edge" then
        match n, args with
        | Some c, [EName p] => match target heap c p with Some _ => true | None => false end
        | Some c, [EName p; e] => match target heap c p with Some t => linked heap (Some t) e | None => false end
        | _, _ => false
        end
      else match args with a :: _ => linked heap n a | [] => true end
  | EParen e | EPred e _ | EIn e _ _ _ | EBetween e _ _ _ _ | ENot e => linked heap n e
  | ECmp l _ r | ELogic l _ r => linked heap n l && linked heap n r
  end.

(** ** What is taken for granted about the texts of the edges *)
Definition proper (t : list N) : Prop := forallb (fun c => negb (is_mark c)) t = true.
(** [g] is nothing, or the conditions [gs] and "and" *)
Definition leads (opens : N -> bool) (name_lex : list N -> option (list N * list N)) (d g : list N) (gs : list sql) : Prop :=
  g = [] /\ gs = [] \/
  exists g0 ts, g = g0 ++ #" AND " /\ proper g0 /\ writes (with_marks name_lex) d (fun _ _ => Some (g0, [], [])) ts /\ run ts gs /\
    closed opens 0 ts = true /\ forallb (fun x => negb (subselect opens x)) ts = true /\
    forall w row row', (forall x, marked x = false -> row x = row' x) -> map (sql_means w row) gs = map (sql_means w row') gs.
(** The text of an edge is that of its mark, its own conditions, the condition
    and a closing parenthesis. *)
Definition edge_words (edge_sql : bool -> list N -> gnode -> gspec -> gnode -> option (list N * list N)) (heap : nat -> gnode) (d : list N)
    (name_lex : list N -> option (list N * list N)) (opens : N -> bool) (word : N -> list N) (code : bool -> nat -> list N -> N) (own : nat -> list N -> list sql) : Prop :=
  (forall b c p, is_mark (code b c p) = true /\ opens (code b c p) = b) /\
  (forall c p t s1 s2, edge_to edge_sql heap d false c p t s1 s2 -> s1 ++ s2 = word (code false c p)) /\
  (forall c p t s1 s2, edge_to edge_sql heap d true c p t s1 s2 -> s2 = #")" /\ exists g, s1 = word (code true c p) ++ g /\ leads opens name_lex d g (own c p)).
(** Quoting yields characters, and no name of a column is a mark. *)
Definition quotes_properly (quote col : list N -> list N) (P : list N -> Prop) : Prop := forall x, P x -> proper (quote x) /\ marked (col x) = false.
