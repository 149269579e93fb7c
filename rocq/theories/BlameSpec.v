(** Vocabulary for the statements about which error a back end reports (C68-
    C70); it uses the data types of the models, not their functions. *)
From Verif Require Import Base Node Vocab Tree Gorm GormSpec EntQL EntSQL EntSQLSpec.

(** [e] is the fault of the first faulty element of [l]; [before]: those in
    front of it. *)
Definition first_of {A E : Type} (fault : A -> E -> Prop) (l : list A) (before : list A) (e : E) : Prop :=
  exists m after, l = before ++ m :: after /\ fault m e /\ Forall (fun k => forall x, ~ fault k x) before.
Definition none_of {A E : Type} (fault : A -> E -> Prop) (l : list A) : Prop := Forall (fun k => forall x, ~ fault k x) l.

(** ** gormq *)
(** The leaves and the calls of a tree in the order in which they are written; a
    call stands before its arguments. *)
Fixpoint constructs (n : node) : list node :=
  let cp (p : option node) : list node := match p with Some m => constructs m | None => [] end in
  match nType n with
  | NParentheses | NNot => cp (nExpression n)
  | NFunction => n :: concat (map cp (nParams n))
  | NBetween => cp (nLeft n) ++ cp (nOp n) ++ concat (map cp (nParams n))
  | NPredicates | NCompare | NLogic => cp (nLeft n) ++ cp (nOp n) ++ cp (nRight n)
  | _ => [n]
  end.
(** the relations referred to, in order *)
Definition referred (l : list node) : list (list N) := map (fun m => hd [] (nNames m)) (filter (is_type NReference) l).
Section GormFault.
  Variable fold_eq : list N -> list N -> bool.
  Variable sch : schema.
  Inductive gorm_fault : node -> gerr -> Prop :=
  | gf_field : forall x, (forall c, ~ resolves fold_eq (sTable sch) x c) -> gorm_fault (mk_ident x) (GField x)
  | gf_levels : forall xs, length xs <> 2 -> gorm_fault (mk_reference xs) GLevels
  | gf_relation : forall r x, assoc r (sRelations sch) = None -> gorm_fault (mk_reference [r; x]) (GRelation r)
  | gf_rel_field : forall r x t, assoc r (sRelations sch) = Some (Some t) -> (forall c, ~ resolves fold_eq t x c) ->
      gorm_fault (mk_reference [r; x]) (GRelField r x)
  | gf_function : forall f ps, f <> #"date" -> gorm_fault (mk_function f ps) (GFunc f).
End GormFault.

(** ** entsql *)
(** The nodes that can cause an error, in the order in which their errors take
    precedence: an operator before its operands, a call before its argument, of
    date's arguments only the first, nothing inside the condition of an edge. *)
Fixpoint examined (n : node) : list node :=
  let xp (p : option node) : list node := match p with Some m => examined m | None => [] end in
  match nType n with
  | NParentheses | NNot => xp (nExpression n)
  | NFunction => n :: (if streq (nName n) #"date" then match nParams n with p :: _ => match p with Some m => examined m | None => [] end | [] => [] end else [])
  | NBetween => xp (nLeft n)
  | NPredicates => n :: xp (nLeft n)
  | NCompare | NLogic => n :: xp (nLeft n) ++ xp (nRight n)
  | _ => [n]
  end.
Section SqlFault.
  Variable heap : nat -> gnode.
  (** the error each construct without a SQL form causes at node [c] of the graph *)
  Inductive sql_fault (c : option nat) : node -> serr -> Prop :=
  | sf_reference : forall ns, sql_fault c (mk_reference ns) (SType NReference)
  | sf_operation : forall o, sql_fault c (mk_op o) (SOpNode o)
  | sf_function : forall f ps, f <> #"date" -> f <> #"has_edge" -> sql_fault c (mk_function f ps) (SFunc f)
  | sf_predicate : forall l k, ~ In (nOperation k) (map fst pred_words) -> sql_fault c (mk_predicate (Some l) (Some k)) (SPredOp (nOperation k))
  | sf_compare : forall l k r, ~ In (nOperation k) (map fst infix_words) -> sql_fault c (mk_compare (Some l) (Some k) (Some r)) (SOp (nOperation k))
  | sf_logic : forall l k r, ~ In (nOperation k) (map fst infix_words) -> sql_fault c (mk_logic (Some l) (Some k) (Some r)) (SOp (nOperation k))
  | sf_edge_none : sql_fault c (mk_function #"has_edge" []) SEdgeParam
  | sf_edge_nameless : forall p ps, nName p = [] -> sql_fault c (mk_function #"has_edge" (Some p :: ps)) SEdgeParam
  | sf_edge_unknown : forall k p ps, c = Some k -> nName p <> [] -> assoc (nName p) (gnEdges (heap k)) = None ->
      sql_fault c (mk_function #"has_edge" (Some p :: ps)) (SNoEdge (nName p))
  | sf_edge_value : forall k p e x, c = Some k -> nName p <> [] -> assoc (nName p) (gnEdges (heap k)) = Some x -> compound e = false ->
      sql_fault c (mk_function #"has_edge" [Some p; Some e]) (SEdgeCond e)
  | sf_edge_many : forall k p e1 e2 ps x, c = Some k -> nName p <> [] -> assoc (nName p) (gnEdges (heap k)) = Some x ->
      sql_fault c (mk_function #"has_edge" (Some p :: e1 :: e2 :: ps)) SEdgeParam.
End SqlFault.

(** ** entql *)
(** The nodes that can cause an error, in the order in which entql examines them:
    operands before their operator, nothing inside a call. *)
Fixpoint evaluated (n : node) : list node :=
  let ep (p : option node) : list node := match p with Some m => evaluated m | None => [] end in
  match nType n with
  | NParentheses | NNot => ep (nExpression n)
  | NBetween => ep (nLeft n) ++ concat (map ep (nParams n))
  | NCompare | NLogic => ep (nLeft n) ++ ep (nRight n) ++ [n]
  | _ => [n]
  end.
(** the operators with an entql form *)
Definition ql_words : list (list N) :=
  [#"and"; #"or"; #"not"; #"eq"; #"neq"; #"gt"; #"gte"; #"lt"; #"lte"; #"in"; #"not in"].
Inductive ql_fault : node -> eerr -> Prop :=
| qf_reference : forall ns, ql_fault (mk_reference ns) (XType NReference)
| qf_operation : forall o, ql_fault (mk_op o) (XOpNode o)
| qf_compare : forall l k r, ~ In (nOperation k) ql_words -> ql_fault (mk_compare (Some l) (Some k) (Some r)) (XOp (nOperation k))
| qf_logic : forall l k r, ~ In (nOperation k) ql_words -> ql_fault (mk_logic (Some l) (Some k) (Some r)) (XOp (nOperation k)).
