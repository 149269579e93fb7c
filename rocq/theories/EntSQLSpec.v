(** Vocabulary for the statements about entsql (C40, C42-C48, C52-C54); it uses
    the data types of EntSQL.v, not its functions. *)
From Verif Require Import Base Node Vocab Tree Syntax NodeFacts Build GormSpec EntSQL.

(** ** Pieces of SQL text *)
(** fixed text, a name, text from the edge library, an argument *)
Inductive spiece : Type := SFix (t : list N) | SName (x : list N) | SEdge (t : list N) | SArg (a : sarg).
Definition cast_suffix (v : gval) : list N :=
  match v with GInt _ => #"::int" | GBool _ => #"::bool" | GFloat _ => #"::double precision" | _ => [] end.
(** the placeholder of the [k]-th argument *)
Definition holder (d : list N) (k : N) (a : sarg) : list N :=
  if streq d #"postgres" then #"$" ++ print_N k ++ match a with ACast v => cast_suffix v | APlain _ => [] end else #"?".
Section SqlOf.
  Variable ident_sql : list N -> list N -> list N.
  Variable d : list N.
  (** the text, after [k] arguments *)
  Fixpoint sql_of (k : N) (ps : list spiece) : list N :=
    match ps with
    | [] => []
    | SFix t :: ps | SEdge t :: ps => t ++ sql_of k ps
    | SName x :: ps => ident_sql d x ++ sql_of k ps
    | SArg a :: ps => holder d (k + 1) a ++ sql_of (k + 1) ps
    end.
End SqlOf.
Definition sargs (ps : list spiece) : list sarg := concat (map (fun p => match p with SArg a => [a] | _ => [] end) ps).

(** Operators and the text written for them; the last three do not follow an
    operand alone. *)
Definition pred_words : list (list N * list N) :=
  [(#"eq", #" = "); (#"neq", #" <> "); (#"gt", #" > "); (#"gte", #" >= "); (#"lt", #" < "); (#"lte", #" <= ");
   (#"in", #" IN "); (#"not in", #" NOT IN "); (#"like", #" LIKE "); (#"is null", #" IS NULL"); (#"is not null", #" IS NOT NULL")].
Definition infix_words : list (list N * list N) :=
  pred_words ++ [(#"not like", #" NOT LIKE "); (#"and", #" AND "); (#"or", #" OR ")].
(** The whole fixed vocabulary. *)
Definition ent_fixed : list (list N) :=
  [#"("; #")"; #", "; #"NULL"; #"NOT "; #"DATE("; #" = "; #" <> "; #" > "; #" >= "; #" < "; #" <= "; #" IN "; #" NOT IN "; #" LIKE "; #" NOT LIKE ";
   #" IS NULL"; #" IS NOT NULL"; #" AND "; #" OR "].

(** ** The rendering of a tree, construct by construct *)
Definition scalar_piece (disable : bool) (v : gval) : spiece :=
  if disable then match v with GNil => SFix #"NULL" | _ => SArg (APlain v) end else SArg (ACast v).
Fixpoint commas (vs : list gval) : list spiece :=
  match vs with
  | [] => []
  | [v] => [scalar_piece true v]
  | v :: vs' => scalar_piece true v :: SFix #", " :: commas vs'
  end.
(** neither a value nor a name nor an operation *)
Definition compound (n : node) : bool :=
  match nType n with NValue | NOperation | NIdentifier | NReference => false | _ => true end.
Section Emits.
  Variable edge_sql : bool -> list N -> gnode -> gspec -> gnode -> option (list N * list N).
  Variable heap : nat -> gnode.
  Variable d : list N.
  Variable disable : bool.
  (** the edge [x] of node [c] leads to [t], and its SQL is [s1] and [s2] *)
  Definition edge_to (w : bool) (c : nat) (x : list N) (t : nat) (s1 s2 : list N) : Prop :=
    exists spec, assoc x (gnEdges (heap c)) = Some (Some t, Some spec) /\ gnID (heap c) <> None /\ gnID (heap t) <> None /\
      edge_sql w d (heap c) spec (heap t) = Some (s1, s2).
  Inductive emits : option nat -> node -> list spiece -> Prop :=
  | em_value : forall c n v, go_value n v -> (forall l, v <> GArr l) -> emits c n [scalar_piece disable v]
  | em_array : forall c l vs, go_values l vs -> emits c (mk_array l) (SFix #"(" :: commas vs ++ [SFix #")"])
  | em_name : forall c x, emits c (mk_ident x) [SName x]
  | em_paren : forall c e ps, emits c e ps -> emits c (mk_paren (Some e)) (SFix #"(" :: ps ++ [SFix #")"])
  | em_not : forall c e ps, emits c e ps -> emits c (mk_not (Some e)) (SFix #"NOT " :: ps)
  | em_date : forall c a rest ps, emits c a ps -> emits c (mk_function #"date" (Some a :: rest)) (SFix #"DATE(" :: ps ++ [SFix #")"])
  | em_edge : forall c p t s1 s2, nName p <> [] -> edge_to false c (nName p) t s1 s2 ->
      emits (Some c) (mk_function #"has_edge" [Some p]) [SEdge (s1 ++ s2)]
  | em_edge_with : forall c p e t s1 s2 ps, nName p <> [] -> edge_to true c (nName p) t s1 s2 -> compound e = true -> emits (Some t) e ps ->
      emits (Some c) (mk_function #"has_edge" [Some p; Some e]) (SEdge s1 :: ps ++ [SEdge s2])
  | em_pred : forall c l k w ps, In (nOperation k, w) pred_words -> emits c l ps -> emits c (mk_predicate (Some l) (Some k)) (ps ++ [SFix w])
  | em_compare : forall c l k r w a b, In (nOperation k, w) infix_words -> emits c l a -> emits c r b ->
      emits c (mk_compare (Some l) (Some k) (Some r)) (a ++ SFix w :: b)
  | em_logic : forall c l k r w a b, In (nOperation k, w) infix_words -> emits c l a -> emits c r b ->
      emits c (mk_logic (Some l) (Some k) (Some r)) (a ++ SFix w :: b)
  | em_between : forall c l k x y a b e, nOperation k <> #"not between" -> emits c l a -> emits c x b -> emits c y e ->
      emits c (mk_between (Some l) (Some k) (Some x) (Some y)) (a ++ SFix #" >= " :: b ++ SFix #" AND " :: a ++ SFix #" <= " :: e)
  | em_not_between : forall c l k x y a b e, nOperation k = #"not between" -> emits c l a -> emits c x b -> emits c y e ->
      emits c (mk_between (Some l) (Some k) (Some x) (Some y)) (a ++ SFix #" < " :: b ++ SFix #" AND " :: a ++ SFix #" > " :: e).

  (** ** Where errors and panics come from (C44, C45) *)
  (** the nodes visited with the builder of [n]: not the condition of an edge *)
  Inductive visits : node -> node -> Prop :=
  | vis_here : forall n, visits n n
  | vis_paren : forall e m, visits e m -> visits (mk_paren (Some e)) m
  | vis_not : forall e m, visits e m -> visits (mk_not (Some e)) m
  | vis_date : forall a rest m, visits a m -> visits (mk_function #"date" (Some a :: rest)) m
  | vis_pred : forall l k m, visits l m -> visits (mk_predicate (Some l) (Some k)) m
  | vis_cmp_l : forall l k r m, visits l m -> visits (mk_compare (Some l) (Some k) (Some r)) m
  | vis_cmp_r : forall l k r m, visits r m -> visits (mk_compare (Some l) (Some k) (Some r)) m
  | vis_logic_l : forall l k r m, visits l m -> visits (mk_logic (Some l) (Some k) (Some r)) m
  | vis_logic_r : forall l k r m, visits r m -> visits (mk_logic (Some l) (Some k) (Some r)) m
  | vis_between : forall l k a b m, visits l m -> visits (mk_between (Some l) (Some k) (Some a) (Some b)) m.
  (** the same, entering the conditions of edges: [deep c n c' m] *)
  Inductive deep : option nat -> node -> option nat -> node -> Prop :=
  | deep_here : forall c n m, visits n m -> deep c n c m
  | deep_edge : forall c n p e t s1 s2 c' m, visits n (mk_function #"has_edge" [Some p; Some e]) -> nName p <> [] ->
      edge_to true c (nName p) t s1 s2 -> compound e = true -> deep (Some t) e c' m -> deep (Some c) n c' m.
  (** constructs without a SQL form *)
  Inductive unsupported : option nat -> node -> Prop :=
  | un_reference : forall c ns, unsupported c (mk_reference ns)
  | un_operation : forall c o, unsupported c (mk_op o)
  | un_function : forall c f ps, f <> #"date" -> f <> #"has_edge" -> unsupported c (mk_function f ps)
  | un_predicate : forall c l k, ~ In (nOperation k) (map fst pred_words) -> unsupported c (mk_predicate (Some l) (Some k))
  | un_compare : forall c l k r, ~ In (nOperation k) (map fst infix_words) -> unsupported c (mk_compare (Some l) (Some k) (Some r))
  | un_logic : forall c l k r, ~ In (nOperation k) (map fst infix_words) -> unsupported c (mk_logic (Some l) (Some k) (Some r))
  | un_edge_none : forall c, unsupported c (mk_function #"has_edge" [])
  | un_edge_nameless : forall c p ps, nName p = [] -> unsupported c (mk_function #"has_edge" (Some p :: ps))
  | un_edge_unknown : forall c p ps, nName p <> [] -> assoc (nName p) (gnEdges (heap c)) = None -> unsupported (Some c) (mk_function #"has_edge" (Some p :: ps))
  | un_edge_value : forall c p e x, nName p <> [] -> assoc (nName p) (gnEdges (heap c)) = Some x -> compound e = false ->
      unsupported (Some c) (mk_function #"has_edge" [Some p; Some e])
  | un_edge_many : forall c p e1 e2 ps x, nName p <> [] -> assoc (nName p) (gnEdges (heap c)) = Some x ->
      unsupported (Some c) (mk_function #"has_edge" (Some p :: e1 :: e2 :: ps)).
  (** constructs that panic: date without argument, an edge without node, an
      edge the library cannot render *)
  Inductive hazard : option nat -> node -> Prop :=
  | haz_date : forall c, hazard c (mk_function #"date" [])
  | haz_node : forall p ps, nName p <> [] -> hazard None (mk_function #"has_edge" (Some p :: ps))
  | haz_edge : forall c p x, nName p <> [] -> assoc (nName p) (gnEdges (heap c)) = Some x -> ~ (exists t s1 s2, edge_to false c (nName p) t s1 s2) ->
      hazard (Some c) (mk_function #"has_edge" [Some p])
  | haz_edge_with : forall c p e x, nName p <> [] -> compound e = true -> assoc (nName p) (gnEdges (heap c)) = Some x ->
      ~ (exists t s1 s2, edge_to true c (nName p) t s1 s2) -> hazard (Some c) (mk_function #"has_edge" [Some p; Some e]).
End Emits.

(** ** The literals behind the arguments (C42) *)
(** The value nodes in the order of their placeholders: the left operand of
    between twice, of date's arguments the first, of an edge the condition. *)
Fixpoint operands (n : node) : list node :=
  let op (p : option node) : list node := match p with Some m => operands m | None => [] end in
  match nType n with
  | NValue => [n]
  | NParentheses | NNot => op (nExpression n)
  | NFunction =>
      if streq (nName n) #"date" then match nParams n with p :: _ => match p with Some m => operands m | None => [] end | [] => [] end
      else match nParams n with [_; p] => match p with Some m => operands m | None => [] end | _ => [] end
  | NBetween =>
      op (nLeft n) ++ (match nParams n with p :: _ => match p with Some m => operands m | None => [] end | [] => [] end) ++
      op (nLeft n) ++ (match nParams n with _ :: p :: _ => match p with Some m => operands m | None => [] end | _ => [] end)
  | NPredicates => op (nLeft n)
  | NCompare | NLogic => op (nLeft n) ++ op (nRight n)
  | _ => []
  end.
Definition is_nil (v : gval) : bool := match v with GNil => true | _ => false end.
(** what a literal contributes: null is written, not passed, inside an array
    and wherever casting is disabled *)
Definition passed (disable : bool) (v : gval) : list gval :=
  match v with
  | GArr l => filter (fun x => negb (is_nil x)) l
  | _ => if disable && is_nil v then [] else [v]
  end.
(** occurrences of a character *)
Definition occurrences (c : N) (t : list N) : nat := length (filter (N.eqb c) t).

(** the character every placeholder has once *)
Definition mark (d : list N) : N := if streq d #"postgres" then 36%N else 63%N.
(** names and edges without it *)
Definition clean (ident_sql : list N -> list N -> list N) (edge_sql : bool -> list N -> gnode -> gspec -> gnode -> option (list N * list N)) (c : N) (d : list N) : Prop :=
  (forall x, occurrences c (ident_sql d x) = 0) /\
  (forall w from spec to s1 s2, edge_sql w d from spec to = Some (s1, s2) -> occurrences c s1 = 0 /\ occurrences c s2 = 0).

(** ** Where the text of a piece comes from (C43): fixed text, names satisfying
    [P], the edge library *)
Definition origin (edge_sql : bool -> list N -> gnode -> gspec -> gnode -> option (list N * list N)) (d : list N) (P : list N -> Prop) (p : spiece) : Prop :=
  match p with
  | SFix t => In t ent_fixed
  | SName x => P x
  | SEdge t => exists w from spec to s1 s2, edge_sql w d from spec to = Some (s1, s2) /\ (t = s1 \/ t = s2 \/ t = s1 ++ s2)
  | SArg _ => True
  end.
(** no call of has_edge is visited (C52) *)
Definition edgeless (n : node) : Prop := forall ps, ~ visits n (mk_function #"has_edge" ps).
(** a piece without cast (C47) *)
Definition plain (p : spiece) : spiece := match p with SArg (ACast v) => SArg (APlain v) | _ => p end.

(** ** SQL grouping (C40, C48, C53) *)
(** The condition as a sequence of operands (GormSpec.v), where a between is
    two comparisons with "and" between them. *)
Definition below (e : expr) (o : list N) (v : val) : operand := OAtom (ECmp e o (EVal v)).
Section Flat.
  Variable lower_hi : N -> N.
  Definition negated_between (o : list N) : bool := streq (op_name lower_hi o) #"not between".
  Fixpoint flat2 (e : expr) : chain :=
    match e with
    | EParen e => COne 0 (OGroup (flat2 e))
    | ENot e => deny (flat2 e)
    | ELogic l o r => more (flat2 l) (is_or o) (flat2 r)
    | EBetween e o _ a b =>
        if negated_between o then CMore (COne 0 (below e #"<" a)) false 0 (below e #">" b)
        else CMore (COne 0 (below e #">=" a)) false 0 (below e #"<=" b)
    | _ => COne 0 (OAtom e)
    end.
  (** the meaning of the expression itself *)
  Fixpoint grouping2 (e : expr) : bexp :=
    match e with
    | EParen e => grouping2 e
    | ENot e => BNot (grouping2 e)
    | ELogic l o r => if is_or o then BOr (grouping2 l) (grouping2 r) else BAnd (grouping2 l) (grouping2 r)
    | EBetween e o _ a b =>
        if negated_between o then BOr (BAtom (ECmp e #"<" (EVal a))) (BAtom (ECmp e #">" (EVal b)))
        else BAnd (BAtom (ECmp e #">=" (EVal a))) (BAtom (ECmp e #"<=" (EVal b)))
    | _ => BAtom e
    end.
End Flat.
(** The sequence [c] written down in pieces; an atomic condition is rendered
    by itself. *)
Section Spells.
  Variable lower_hi : N -> N.
  Variable renders : node -> list spiece -> Prop.
  Inductive spells_not : nat -> list spiece -> Prop :=
  | sp_zero : spells_not 0 []
  | sp_succ : forall k ps, spells_not k ps -> spells_not (S k) (SFix #"NOT " :: ps).
  Inductive spells_operand : operand -> list spiece -> Prop :=
  | sp_atom : forall e n ps, tree_of lower_hi e = Some n -> renders n ps -> spells_operand (OAtom e) ps
  | sp_group : forall c ps, spells c ps -> spells_operand (OGroup c) (SFix #"(" :: ps ++ [SFix #")"])
  with spells : chain -> list spiece -> Prop :=
  | sp_one : forall k o a b, spells_not k a -> spells_operand o b -> spells (COne k o) (a ++ b)
  | sp_more : forall c (disj : bool) k o ps a b, spells c ps -> spells_not k a -> spells_operand o b ->
      spells (CMore c disj k o) (ps ++ SFix (if disj then #" OR " else #" AND ") :: a ++ b).
End Spells.
(** No between may stand where SQL expects less than a condition: directly
    under "not", or as the operand of a comparison; and no "not between" (C40).
    Otherwise as [regular] (GormSpec.v). *)
Definition bare_between (e : expr) : bool := match e with EBetween _ _ _ _ _ => true | _ => false end.
Fixpoint tight (e : expr) : bool :=
  match e with
  | EBetween _ _ _ _ _ => false
  | EPred e _ | EIn e _ _ _ => tight e
  | ECmp l _ r => tight l && tight r
  | _ => true
  end.
Fixpoint regular2 (lower_hi : N -> N) (e : expr) : bool :=
  match e with
  | EParen e => regular2 lower_hi e
  | ENot e => regular2 lower_hi e && negb (bare_between e)
  | ELogic l o r => regular2 lower_hi l && regular2 lower_hi r && (is_or o || negb (loose_or l))
  | EBetween _ o _ _ _ => negb (negated_between lower_hi o)
  | _ => tight e
  end.
