(** Vocabulary for the statements about gormq (C26-C36).  Nothing here refers
    to the functions of Gorm.v except the data types. *)
From Verif Require Import Base Node Vocab Tree Syntax NormProofs NodeFacts Gorm.

(** ** The leaves of a tree, in the order in which they were written *)
Fixpoint leaves (n : node) : list node :=
  let lp (p : option node) : list node := match p with Some m => leaves m | None => [] end in
  match nType n with
  | NParentheses | NNot => lp (nExpression n)
  | NFunction => concat (map lp (nParams n))
  | NBetween => lp (nLeft n) ++ lp (nOp n) ++ concat (map lp (nParams n))
  | NPredicates | NCompare | NLogic => lp (nLeft n) ++ lp (nOp n) ++ lp (nRight n)
  | _ => [n]
  end.
(** the functions called, outermost first *)
Fixpoint functions (n : node) : list (list N) :=
  let fp (p : option node) : list (list N) := match p with Some m => functions m | None => [] end in
  match nType n with
  | NParentheses | NNot => fp (nExpression n)
  | NFunction => nName n :: concat (map fp (nParams n))
  | NBetween => fp (nLeft n) ++ fp (nOp n) ++ concat (map fp (nParams n))
  | NPredicates | NCompare | NLogic => fp (nLeft n) ++ fp (nOp n) ++ fp (nRight n)
  | _ => []
  end.
Definition is_type (t : ntype) (n : node) : bool :=
  match t, nType n with
  | NValue, NValue | NOperation, NOperation | NIdentifier, NIdentifier | NReference, NReference => true
  | _, _ => false
  end.
Definition is_name (n : node) : bool := is_type NIdentifier n || is_type NReference n.
(** literal values, names and relations of a tree, in order *)
Definition literals (n : node) : list node := filter (is_type NValue) (leaves n).
Definition names (n : node) : list node := filter is_name (leaves n).
Definition operations (n : node) : list (list N) := map nOperation (filter (is_type NOperation) (leaves n)).
Definition relations (n : node) : list (list N) := map (fun m => hd [] (nNames m)) (filter (is_type NReference) (leaves n)).

(** ** Which column a name stands for (C32) *)
Section Resolve.
  Variable fold_eq : list N -> list N -> bool.
  Inductive resolves (t : table) (name : list N) : list N -> Prop :=
  | res_column : In name (tByDB t) -> resolves t name name
  | res_field : forall db, ~ In name (tByDB t) -> assoc name (tByName t) = Some db -> resolves t name db
  | res_fold : forall before f db after, ~ In name (tByDB t) -> assoc name (tByName t) = None ->
      tFields t = before ++ (f, db) :: after -> fold_eq f name = true ->
      Forall (fun x => fold_eq (fst x) name = false) before -> resolves t name db.

  (** an identifier, or a relation and a field of its schema *)
  Inductive column (sch : schema) (n : node) : list N -> Prop :=
  | col_ident : forall db, nType n = NIdentifier -> resolves (sTable sch) (nName n) db -> column sch n db
  | col_ref : forall rel f t db, nType n = NReference -> nNames n = [rel; f] -> assoc rel (sRelations sch) = Some (Some t) ->
      resolves t f db -> column sch n (rel ++ #"." ++ db).
End Resolve.

(** every relation has a schema (no nil FieldSchema) *)
Definition schema_ok (sch : schema) : Prop := forall rel, assoc rel (sRelations sch) <> Some None.
Definition db_ok (d : gdb) : Prop :=
  (forall s, dSchema d = Some s -> schema_ok s) /\ (forall s, dModel d = Some (Some s) -> schema_ok s).
(** the schema of a db, once known *)
Definition schema_of (d : gdb) : option schema :=
  match dSchema d with Some s => Some s | None => match dModel d with Some (Some s) => Some s | _ => None end end.

(** ** Pieces of SQL text *)
Inductive piece : Set := PText (t : list N) | PColumn (c : list N) | PValue (v : gval).
Definition render (quote : list N -> list N) (p : piece) : list N :=
  match p with PText t => t | PColumn c => quote c | PValue _ => #"?" end.
Definition sql_text (quote : list N -> list N) (ps : list piece) : list N := concat (map (render quote) ps).
Definition columns (ps : list piece) : list (list N) :=
  concat (map (fun p => match p with PColumn c => [c] | _ => [] end) ps).
Definition values (ps : list piece) : list gval :=
  concat (map (fun p => match p with PValue v => [v] | _ => [] end) ps).
Definition fixed (ps : list piece) : list (list N) :=
  concat (map (fun p => match p with PText t => [t] | _ => [] end) ps).

(** The finite vocabulary: punctuation, the one function, and operators. *)
Definition sql_fixed : list (list N) := [#"("; #")"; #"not "; #" "; #" and "; #"date"].
Definition sql_operators : list (list N) :=
  [#"="; #"<>"; #">"; #">="; #"<"; #"<="; #"and"; #"or"; #"like"; #"not like"; #"in"; #"not in"; #"between"; #"not between";
   #"is null"; #"is not null"; #"is true"; #"is not true"; #"is false"; #"is not false"].

(** positions of the character [?] in a text *)
Fixpoint count_marks (t : list N) : nat :=
  match t with [] => 0 | c :: t' => (if (c =? 63)%N then 1 else 0) + count_marks t' end.

(** ** Trees equal up to literals (C28) *)
Inductive alike : option node -> option node -> Prop :=
| alike_nil : alike None None
| alike_value : forall n m, nType n = NValue -> nType m = NValue -> alike (Some n) (Some m)
| alike_node : forall n m, nType n <> NValue -> nType n = nType m -> nOperation n = nOperation m -> nName n = nName m ->
    nNames n = nNames m -> alike (nExpression n) (nExpression m) -> alike (nLeft n) (nLeft m) -> alike (nOp n) (nOp m) ->
    alike (nRight n) (nRight m) -> Forall2 alike (nParams n) (nParams m) -> alike (Some n) (Some m).

(** ** First occurrences, in order (C31) *)
Fixpoint firsts (seen l : list (list N)) : list (list N) :=
  match l with
  | [] => []
  | x :: l' => if existsb (streq x) seen then firsts seen l' else x :: firsts (x :: seen) l'
  end.

(** ** SQL grouping (C33) *)
(** Boolean structure over atomic conditions. *)
Inductive bexp : Set := BAtom (e : expr) | BNot (b : bexp) | BAnd (a b : bexp) | BOr (a b : bexp).
Fixpoint holds (v : expr -> bool) (b : bexp) : bool :=
  match b with
  | BAtom e => v e
  | BNot b => negb (holds v b)
  | BAnd a b => holds v a && holds v b
  | BOr a b => holds v a || holds v b
  end.

(** A SQL condition as a sequence: operands, each under any number of "not",
    with "and" / "or" between them; an operand is an atomic condition or a
    parenthesised sequence. *)
Inductive operand : Set := OAtom (e : expr) | OGroup (c : chain)
with chain : Set := COne (nots : nat) (o : operand) | CMore (c : chain) (disj : bool) (nots : nat) (o : operand).

Fixpoint bnot (nots : nat) (b : bexp) : bexp := match nots with O => b | S k => BNot (bnot k b) end.
Definition bor (o : option bexp) (a : bexp) : bexp := match o with None => a | Some b => BOr b a end.
(** SQL reads such a sequence with "not" over "and" over "or": the result is
    what stands before the last "or", and the conjunction after it. *)
Fixpoint read_operand (o : operand) : bexp :=
  match o with OAtom e => BAtom e | OGroup c => let (d, a) := read_chain c in bor d a end
with read_chain (c : chain) : option bexp * bexp :=
  match c with
  | COne k o => (None, bnot k (read_operand o))
  | CMore c false k o => let (d, a) := read_chain c in (d, BAnd a (bnot k (read_operand o)))
  | CMore c true k o => let (d, a) := read_chain c in (Some (bor d a), bnot k (read_operand o))
  end.
Definition sql_reading (c : chain) : bexp := let (d, a) := read_chain c in bor d a.

Section Spell.
  Variable atom : expr -> list N.
  Fixpoint spell_not (nots : nat) : list N := match nots with O => [] | S k => #"not " ++ spell_not k end.
  Fixpoint spell_operand (o : operand) : list N :=
    match o with OAtom e => atom e | OGroup c => #"(" ++ spell_chain c ++ #")" end
  with spell_chain (c : chain) : list N :=
    match c with
    | COne k o => spell_not k ++ spell_operand o
    | CMore c disj k o => spell_chain c ++ (if disj then #" or " else #" and ") ++ spell_not k ++ spell_operand o
    end.
End Spell.

(** its atomic conditions, in order *)
Fixpoint operand_atoms (o : operand) : list expr :=
  match o with OAtom e => [e] | OGroup c => atoms c end
with atoms (c : chain) : list expr :=
  match c with COne _ o => operand_atoms o | CMore c _ _ o => atoms c ++ operand_atoms o end.

(** An expression written down as such a sequence, forgetting its grouping
    except for the parentheses it contains. *)
Definition is_or (o : list N) : bool := streq (map ascii_lower o) #"or" || streq o #"||".
Fixpoint more (c : chain) (disj : bool) (d : chain) : chain :=
  match d with COne k o => CMore c disj k o | CMore d x k o => CMore (more c disj d) x k o end.
Fixpoint deny (c : chain) : chain :=
  match c with COne k o => COne (S k) o | CMore c x k o => CMore (deny c) x k o end.
Fixpoint flat (e : expr) : chain :=
  match e with
  | EParen e => COne 0 (OGroup (flat e))
  | ENot e => deny (flat e)
  | ELogic l o r => more (flat l) (is_or o) (flat r)
  | _ => COne 0 (OAtom e)
  end.
(** The grouping of the expression itself. *)
Fixpoint grouping (e : expr) : bexp :=
  match e with
  | EParen e => grouping e
  | ENot e => BNot (grouping e)
  | ELogic l o r => if is_or o then BOr (grouping l) (grouping r) else BAnd (grouping l) (grouping r)
  | _ => BAtom e
  end.
(** No "and" has an unparenthesised "or" to its left (to its right there is
    never one). *)
Fixpoint loose_or (e : expr) : bool :=
  match e with ELogic l o _ => is_or o || loose_or l | _ => false end.
Fixpoint regular (e : expr) : bool :=
  match e with
  | EParen e | ENot e => regular e
  | ELogic l o r => regular l && regular r && (is_or o || negb (loose_or l))
  | _ => true
  end.

(** ** The rendering of a tree, construct by construct (C50) *)
(** operations and their SQL spelling; any other text is copied *)
Definition sql_word : list (list N * list N) :=
  [(#"eq", #"="); (#"neq", #"<>"); (#"gt", #">"); (#"gte", #">="); (#"lt", #"<"); (#"lte", #"<=")].
Definition spelled (o s : list N) : Prop := In (o, s) sql_word \/ (~ In o (map fst sql_word) /\ s = o).
Section Renders.
  Variable fold_eq : list N -> list N -> bool.
  Variable sch : schema.
  Inductive renders : node -> list piece -> Prop :=
  | ren_value : forall n v, go_value n v -> renders n [PValue v]
  | ren_op : forall o s, spelled o s -> renders (mk_op o) [PText s]
  | ren_ident : forall x c, resolves fold_eq (sTable sch) x c -> renders (mk_ident x) [PColumn c]
  | ren_ref : forall rel x t c, assoc rel (sRelations sch) = Some (Some t) -> resolves fold_eq t x c ->
      renders (mk_reference [rel; x]) [PColumn (rel ++ #"." ++ c)]
  | ren_paren : forall e a, renders e a -> renders (mk_paren (Some e)) (PText #"(" :: a ++ [PText #")"])
  | ren_not : forall e a, renders e a -> renders (mk_not (Some e)) (PText #"not " :: a)
  | ren_pred : forall l o a w, renders l a -> renders o w -> renders (mk_predicate (Some l) (Some o)) (a ++ PText #" " :: w)
  | ren_compare : forall l o r a w b, renders l a -> renders o w -> renders r b ->
      renders (mk_compare (Some l) (Some o) (Some r)) (a ++ PText #" " :: w ++ PText #" " :: b)
  | ren_logic : forall l o r a w b, renders l a -> renders o w -> renders r b ->
      renders (mk_logic (Some l) (Some o) (Some r)) (a ++ PText #" " :: w ++ PText #" " :: b)
  | ren_between : forall l o x y a w b c, renders l a -> renders o w -> renders x b -> renders y c ->
      renders (mk_between (Some l) (Some o) (Some x) (Some y)) (a ++ PText #" " :: w ++ PText #" " :: b ++ PText #" and " :: c)
  | ren_date : forall args ps, renders_all args ps ->
      renders (mk_function #"date" (map Some args)) (PText #"date" :: PText #"(" :: ps ++ [PText #")"])
  with renders_all : list node -> list piece -> Prop :=
  | ren_nil : renders_all [] []
  | ren_cons : forall n l a b, renders n a -> renders_all l b -> renders_all (n :: l) (a ++ b).
End Renders.
