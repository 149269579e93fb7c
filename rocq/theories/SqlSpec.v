(** A reader for conditions of SQL, and the meaning of conditions and queries
    (C73-C75).  Nothing here refers to the back ends.

    The reader works on the text and the arguments: characters to words,
    symbols, names and placeholders; placeholders to arguments; the resulting
    tokens to a tree, with the precedence of SQL: "not" before "and" before
    "or", all binary ones from left to right, comparisons only between simple
    operands.  It knows the sublanguage that the dialects have in common and
    rejects everything else (comments, unquoted names, () without content). *)
From Verif Require Import Base Node Vocab Tree Syntax Gorm GormSpec.

(** ** Tokens *)
Inductive tok : Set :=
| TName (x : list N)               (* a quoted name *)
| TWord (w : list N)               (* a word, in lower case *)
| TSym (s : list N)                (* a run of the characters < > = *)
| TOpen | TClose | TComma
| TMark                            (* ? *)
| TNumber (k : N)                  (* $k, with or without a cast ::t *)
| TVal (v : gval).                 (* an argument, after [bind_marks] or [bind_numbers] *)

(** the longest prefix satisfying [p], and the rest *)
Fixpoint span (p : N -> bool) (t : list N) : list N * list N :=
  match t with
  | c :: r => if p c then let (w, r') := span p r in (c :: w, r') else ([], t)
  | [] => ([], [])
  end.
Definition sym_char (c : N) : bool := mem c #"<>=".
Definition uncast (t : list N) : list N :=
  match t with 58%N :: 58%N :: r => snd (span letter r) | _ => t end.

Section Lex.
  (** how the dialect reads a quoted name: the name and the rest of the text *)
  Variable name_lex : list N -> option (list N * list N).
  Fixpoint lex (fuel : nat) (t : list N) : option (list tok) :=
    match fuel with
    | O => None
    | S fuel =>
        let next (k : tok) (r : list N) := option_map (cons k) (lex fuel r) in
        match t with
        | [] => Some []
        | c :: r =>
            match name_lex t with
            | Some (x, r') => next (TName x) r'
            | None =>
                if (c =? 32)%N then lex fuel r
                else if (c =? 40)%N then next TOpen r
                else if (c =? 41)%N then next TClose r
                else if (c =? 44)%N then next TComma r
                else if (c =? 63)%N then next TMark r
                else if (c =? 36)%N then
                  match span is_digit r with ([], _) => None | (ds, r') => next (TNumber (Z.to_N (dec_value ds))) (uncast r') end
                else if letter c then let (w, r') := span letter t in next (TWord (map ascii_lower w)) r'
                else if sym_char c then let (w, r') := span sym_char t in next (TSym w) r'
                else None
            end
        end
    end.
End Lex.

(** ** Arguments *)
(** every ? takes the next argument, and none is left over *)
Fixpoint bind_marks (args : list gval) (ts : list tok) : option (list tok) :=
  match ts with
  | [] => match args with [] => Some [] | _ => None end
  | TMark :: ts => match args with v :: args => option_map (cons (TVal v)) (bind_marks args ts) | [] => None end
  | k :: ts => option_map (cons k) (bind_marks args ts)
  end.
(** $k is the k-th argument *)
Fixpoint bind_numbers (args : list gval) (ts : list tok) : option (list tok) :=
  match ts with
  | [] => Some []
  | TNumber k :: ts =>
      match k, nth_error args (N.to_nat (k - 1)) with
      | N0, _ | _, None => None
      | _, Some v => option_map (cons (TVal v)) (bind_numbers args ts)
      end
  | k :: ts => option_map (cons k) (bind_numbers args ts)
  end.

(** ** Conditions *)
Inductive sql : Set :=
| QCol (x : list N)
| QVal (v : gval)
| QList (l : list sql)
| QDate (a : sql)
| QCmp (o : list N) (a b : sql)            (* = <> > >= < <= like, not like, in, not in *)
| QPred (o : list N) (a : sql)             (* is null, is not true, ... *)
| QBetween (neg : bool) (a b c : sql)
| QNot (a : sql) | QAnd (a b : sql) | QOr (a b : sql).

(** what is to be read, and what has been *)
Inductive goal : Set :=
| GOr | GOrMore (a : sql) | GAnd | GAndMore (a : sql) | GNot | GCond | GCondMore (a : sql) | GPrim | GRange | GMore (l : list sql).
Definition cmp_syms : list (list N) := [#"="; #"<>"; #">"; #">="; #"<"; #"<="].

(** one step; [go] reads what the step needs *)
Definition step (go : goal -> list tok -> option (sql * list tok)) (g : goal) (ts : list tok) : option (sql * list tok) :=
  match g with
  | GOr => match go GAnd ts with Some (a, ts) => go (GOrMore a) ts | None => None end
  | GOrMore a =>
      match ts with
      | TWord w :: ts' =>
          if streq w #"or" then match go GAnd ts' with Some (b, ts) => go (GOrMore (QOr a b)) ts | None => None end
          else Some (a, ts)
      | _ => Some (a, ts)
      end
  | GAnd => match go GNot ts with Some (a, ts) => go (GAndMore a) ts | None => None end
  | GAndMore a =>
      match ts with
      | TWord w :: ts' =>
          if streq w #"and" then match go GNot ts' with Some (b, ts) => go (GAndMore (QAnd a b)) ts | None => None end
          else Some (a, ts)
      | _ => Some (a, ts)
      end
  | GNot =>
      match ts with
      | TWord w :: ts' =>
          if streq w #"not" then match go GNot ts' with Some (a, ts) => Some (QNot a, ts) | None => None end
          else go GCond ts
      | _ => go GCond ts
      end
  | GCond => match go GPrim ts with Some (a, ts) => go (GCondMore a) ts | None => None end
  | GCondMore a =>
      let compare (o : list N) (ts : list tok) := match go GPrim ts with Some (b, ts) => Some (QCmp o a b, ts) | None => None end in
      let range (o : list N) (ts : list tok) := match go GRange ts with Some (b, ts) => Some (QCmp o a b, ts) | None => None end in
      let between (neg : bool) (ts : list tok) :=
        match go GPrim ts with
        | Some (b, TWord w :: ts) =>
            if streq w #"and" then match go GPrim ts with Some (c, ts) => Some (QBetween neg a b c, ts) | None => None end else None
        | _ => None
        end in
      let is_what (o : list N) (w : list N) (ts : list tok) :=
        if existsb (streq w) [#"null"; #"true"; #"false"] then Some (QPred (o ++ w) a, ts) else None in
      match ts with
      | TSym s :: ts => if existsb (streq s) cmp_syms then compare s ts else None
      | TWord w :: ts' =>
          if streq w #"like" then compare #"like" ts'
          else if streq w #"in" then range #"in" ts'
          else if streq w #"between" then between false ts'
          else if streq w #"not" then
            match ts' with
            | TWord w :: ts' =>
                if streq w #"like" then compare #"not like" ts'
                else if streq w #"in" then range #"not in" ts'
                else if streq w #"between" then between true ts'
                else None
            | _ => None
            end
          else if streq w #"is" then
            match ts' with
            | TWord w :: ts' =>
                if streq w #"not" then match ts' with TWord w :: ts' => is_what #"is not " w ts' | _ => None end
                else is_what #"is " w ts'
            | _ => None
            end
          else Some (a, ts)
      | _ => Some (a, ts)
      end
  | GPrim =>
      match ts with
      | TName x :: ts => Some (QCol x, ts)
      | TVal v :: ts => Some (QVal v, ts)
      | TWord w :: ts =>
          if streq w #"null" then Some (QVal GNil, ts)
          else if streq w #"date" then
            match ts with
            | TOpen :: ts => match go GOr ts with Some (a, TClose :: ts) => Some (QDate a, ts) | _ => None end
            | _ => None
            end
          else None
      | TOpen :: ts => match go GOr ts with Some (a, TClose :: ts) => Some (a, ts) | _ => None end
      | _ => None
      end
  | GRange =>                          (* an argument that is a list, or a list of operands *)
      match ts with
      | TVal v :: ts => Some (QVal v, ts)
      | TOpen :: ts => match go GPrim ts with Some (a, ts) => go (GMore [a]) ts | None => None end
      | _ => None
      end
  | GMore l =>
      match ts with
      | TComma :: ts => match go GPrim ts with Some (a, ts) => go (GMore (l ++ [a])) ts | None => None end
      | TClose :: ts => Some (QList l, ts)
      | _ => None
      end
  end.
Fixpoint rd (fuel : nat) : goal -> list tok -> option (sql * list tok) :=
  match fuel with O => fun _ _ => None | S fuel => step (rd fuel) end.

(** The text [t] with arguments [args] is the condition [a]. *)
Definition reads_marks (name_lex : list N -> option (list N * list N)) (t : list N) (args : list gval) (a : sql) : Prop :=
  exists f ts ts', lex name_lex f t = Some ts /\ bind_marks args ts = Some ts' /\ rd f GOr ts' = Some (a, []).
Definition reads_numbers (name_lex : list N -> option (list N * list N)) (t : list N) (args : list gval) (a : sql) : Prop :=
  exists f ts ts', lex name_lex f t = Some ts /\ bind_numbers args ts = Some ts' /\ rd f GOr ts' = Some (a, []).

(** ** Meaning *)
(** Values of any kind, truth values among them, and what the operators do
    with them; comparisons and predicates by their SQL names. *)
Record world : Type := World {
  wV : Type;
  wVal : gval -> wV;
  wCmp : list N -> wV -> wV -> wV;
  wPred : list N -> wV -> wV;
  wBetween : bool -> wV -> wV -> wV -> wV;
  wDate : wV -> wV;
  wList : list wV -> wV;
  wNot : wV -> wV;
  wAnd : wV -> wV -> wV;
  wOr : wV -> wV -> wV
}.
Section Meaning.
  Variable w : world.
  (** of a condition, given the values of the columns *)
  Fixpoint sql_means (row : list N -> wV w) (a : sql) : wV w :=
    match a with
    | QCol x => row x
    | QVal v => wVal w v
    | QList l => wList w (map (sql_means row) l)
    | QDate a => wDate w (sql_means row a)
    | QCmp o a b => wCmp w o (sql_means row a) (sql_means row b)
    | QPred o a => wPred w o (sql_means row a)
    | QBetween neg a b c => wBetween w neg (sql_means row a) (sql_means row b) (sql_means row c)
    | QNot a => wNot w (sql_means row a)
    | QAnd a b => wAnd w (sql_means row a) (sql_means row b)
    | QOr a b => wOr w (sql_means row a) (sql_means row b)
    end.

  (** literals *)
  Definition lit_value (l : literal) : gval :=
    match l with
    | LStr _ s => GStr s
    | LInt ds => GInt (dec_value ds)
    | LBool b => GBool (streq b #"true" || streq b #"TRUE")
    | LNull _ => GNil
    end.
  Definition val_value (v : val) : gval := match v with VLit l => lit_value l | VArr _ ls => GArr (map lit_value ls) end.

  (** of a query, given the values of the names; operators by their names *)
  Variable lower_hi : N -> N.
  Definition op_sql (o : list N) : list N :=
    match find (fun k => streq (fst k) (op_name lower_hi o)) sql_word with Some (_, s) => s | None => op_name lower_hi o end.
  Fixpoint query_means (nm : list (list N) -> wV w) (e : expr) : wV w :=
    match e with
    | EVal v => wVal w (val_value v)
    | EName x => nm [x]
    | ERef xs | EJson xs => nm xs
    | ECall _ args => wDate w (match args with a :: _ => query_means nm a | [] => wVal w GNil end)
    | EParen e => query_means nm e
    | EBetween e o _ a b => wBetween w (streq (op_sql o) #"not between") (query_means nm e) (wVal w (val_value a)) (wVal w (val_value b))
    | EPred e o => wPred w (op_sql o) (query_means nm e)
    | EIn e o _ ls => wCmp w (op_sql o) (query_means nm e) (wVal w (GArr (map lit_value ls)))
    | ECmp l o r => wCmp w (op_sql o) (query_means nm l) (query_means nm r)
    | ENot e => wNot w (query_means nm e)
    | ELogic l o r => if is_or o then wOr w (query_means nm l) (query_means nm r) else wAnd w (query_means nm l) (query_means nm r)
    end.
End Meaning.

(** ** The queries in question *)
(** Simple operands of comparisons; the one function date, with one argument;
    no comment inside an operator; no "and" with an unparenthesised "or" to its
    left; all this also inside parentheses and arguments. *)
Definition cmp_ops : list (list N) := cmp_syms ++ [#"like"; #"not like"].
Definition in_ops : list (list N) := [#"in"; #"not in"].
Definition between_ops : list (list N) := [#"between"; #"not between"].
Definition pred_ops : list (list N) := [#"is null"; #"is not null"; #"is true"; #"is not true"; #"is false"; #"is not false"].
Definition prime (e : expr) : bool := Nat.eqb (level e) 0.
Section Neat.
  Variable lower_hi : N -> N.
  Definition named (l : list (list N)) (o : list N) : bool := existsb (streq (op_sql lower_hi o)) l.
  Fixpoint neat (e : expr) : bool :=
    match e with
    | EVal _ | EName _ | ERef _ => true
    | EJson _ => false
    | ECall f args => streq f #"date" && match args with [a] => neat a | _ => false end
    | EParen e => neat e
    | EBetween e o _ _ _ => neat e && prime e && named between_ops o
    | EPred e o => neat e && prime e && named pred_ops o
    | EIn e o _ _ => neat e && prime e && named in_ops o
    | ECmp l o r => neat l && neat r && prime l && prime r && named cmp_ops o
    | ENot e => neat e
    | ELogic l o r => neat l && neat r && (is_or o || negb (loose_or l))
    end.
End Neat.
(** The values of the names are those of the columns they stand for. *)
Definition agrees (V : Type) (fold_eq : list N -> list N -> bool) (sch : schema) (row : list N -> V) (nm : list (list N) -> V) : Prop :=
  (forall x c, resolves fold_eq (sTable sch) x c -> nm [x] = row c) /\
  (forall r x t c, assoc r (sRelations sch) = Some (Some t) -> resolves fold_eq t x c -> nm [r; x] = row (r ++ #"." ++ c)).
(** [c] is a column of the schema, or of one of its relations *)
Definition is_column (fold_eq : list N -> list N -> bool) (sch : schema) (c : list N) : Prop := exists n, column fold_eq sch n c.
(** The dialect reads the quoted [x] as the column [col x], where a blank, a
    closing parenthesis, a comma or nothing follows, and nothing as a name that
    starts with a blank, parenthesis, comma, placeholder, letter or symbol. *)
Definition ends_name (t : list N) : Prop := match t with [] => True | c :: _ => mem c #" )," = true end.
Definition unquoted (c : N) : bool := mem c #" (),?$" || letter c || sym_char c.
Definition quotes (name_lex : list N -> option (list N * list N)) (quote col : list N -> list N) (P : list N -> Prop) : Prop :=
  (forall c t, unquoted c = true -> name_lex (c :: t) = None) /\
  (forall x, P x -> quote x <> []) /\ (forall x t, P x -> ends_name t -> name_lex (quote x ++ t) = Some (col x, t)).

(** ** entsql (C74) *)
(** The text and the arguments, as the dialect binds them. *)
Definition reads_sql (name_lex : list N -> option (list N * list N)) (d : list N) : list N -> list gval -> sql -> Prop :=
  if streq d #"postgres" then reads_numbers name_lex else reads_marks name_lex.
(** What entsql takes for granted about SQL: between is two comparisons, "and"
    may be regrouped, and a list of values is a value. *)
Definition lawful (w : world) : Prop :=
  (forall a b c, wBetween w false a b c = wAnd w (wCmp w #">=" a b) (wCmp w #"<=" a c)) /\
  (forall a b c, wAnd w a (wAnd w b c) = wAnd w (wAnd w a b) c) /\
  (forall l, wVal w (GArr l) = wList w (map (wVal w) l)).
(** The queries: as [neat], with arrays only after "in" and not empty, no
    references, of the predicates only those on null, and "between" neither
    negated nor directly under "not". *)
Definition scalar (v : val) : bool := match v with VLit _ => true | VArr _ _ => false end.
Definition free_between (e : expr) : bool := match e with EBetween _ _ _ _ _ => true | _ => false end.
Section Neat2.
  Variable lower_hi : N -> N.
  Fixpoint neat2 (e : expr) : bool :=
    match e with
    | EVal v => scalar v
    | EName _ => true
    | ERef _ | EJson _ => false
    | ECall f args => streq f #"date" && match args with [a] => neat2 a | _ => false end
    | EParen e => neat2 e
    | EBetween e o _ a b => neat2 e && prime e && named lower_hi [#"between"] o && scalar a && scalar b
    | EPred e o => neat2 e && prime e && named lower_hi [#"is null"; #"is not null"] o
    | EIn e o _ ls => neat2 e && prime e && named lower_hi in_ops o && negb (Nat.eqb (length ls) 0)
    | ECmp l o r => neat2 l && neat2 r && prime l && prime r && named lower_hi cmp_ops o
    | ENot e => neat2 e && negb (free_between e)
    | ELogic l o r => neat2 l && neat2 r && (is_or o || negb (loose_or l))
    end.
End Neat2.
