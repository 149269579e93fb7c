(** Model of gormq/miniquery.go.  gorm itself is not modelled: a *gorm.DB is
    the record of what has been handed to it (Joins, Where, AddError) together
    with its Statement's schema.  Two library functions are arbitrary
    parameters: [fold_eq] (strings.EqualFold) and [quote] (what db.QuoteTo
    appends for a name). *)
From Verif Require Import Base Node Tree Parse Build.

(** ** gorm's schema.Schema *)
(** The parts of one schema that getDBName reads: the keys of FieldsByDBName,
    FieldsByName (name -> DBName of the field), Fields ((Name, DBName) in
    declaration order). *)
Record table : Type := Table {
  tByDB : list (list N);
  tByName : list (list N * list N);
  tFields : list (list N * list N)
}.
(** Schema.Relationships.Relations: name -> Relationship, of which only
    FieldSchema is read ([None]: nil pointer). *)
Record schema : Type := Schema {
  sTable : table;
  sRelations : list (list N * option table)
}.

(** ** Errors *)
Inductive gerr : Type :=
| GSyntax (e : perr)               (* "invalid query syntax: %v" *)
| GParseModel                      (* error of Statement.Parse *)
| GMissingModel                    (* "missing model" *)
| GField (s : list N)              (* "field not found" *)
| GRelation (s : list N)           (* "relation not found" *)
| GRelField (s f : list N)         (* "relation field not found" *)
| GLevels                          (* "only support join one level" *)
| GType (t : ntype)                (* "invalid type" *)
| GFunc (s : list N).              (* "unsupported function" *)

(** ** *gorm.DB *)
Record gdb : Type := DB {
  dSchema : option schema;                 (* Statement.Schema *)
  dModel : option (option schema);         (* Statement.Model: None = nil; Some r = Parse gives r (None: it fails) *)
  dJoins : list (list N);                  (* Joins(..) calls, oldest first *)
  dWheres : list (list N * list gval);     (* Where(..) calls, oldest first *)
  dErrors : list gerr                      (* AddError(..) calls, oldest first *)
}.
Definition with_schema (s : schema) (d : gdb) : gdb := DB (Some s) (dModel d) (dJoins d) (dWheres d) (dErrors d).
Definition add_joins (l : list (list N)) (d : gdb) : gdb := DB (dSchema d) (dModel d) (dJoins d ++ l) (dWheres d) (dErrors d).
Definition add_where (w : list N * list gval) (d : gdb) : gdb := DB (dSchema d) (dModel d) (dJoins d) (dWheres d ++ [w]) (dErrors d).
Definition add_err (e : gerr) (d : gdb) : gdb := DB (dSchema d) (dModel d) (dJoins d) (dWheres d) (dErrors d ++ [e]).

(** GetOrParseSchema, gormq/miniquery.go:22-34 *)
Definition get_or_parse_schema (d : gdb) : (schema + gerr) * gdb :=
  match dSchema d with
  | Some s => (inl s, d)
  | None =>
      match dModel d with
      | None => (inr GMissingModel, d)
      | Some None => (inr GParseModel, d)
      | Some (Some s) => (inl s, with_schema s d)
      end
  end.

(** ** The query builder *)
(** buf, vals, the Joins calls made so far, and the map joined. *)
Record qst : Type := QS {
  qBuf : list N;
  qVals : list gval;
  qJoins : list (list N);
  qJoined : list (list N * list (list N))
}.
Inductive qres : Type := QOk (s : qst) | QErr (e : gerr) (s : qst) | QPanic.

Definition write (t : list N) (s : qst) : qst := QS (qBuf s ++ t) (qVals s) (qJoins s) (qJoined s).
Definition add_value (v : gval) (s : qst) : qst := QS (qBuf s) (qVals s ++ [v]) (qJoins s) (qJoined s).
Definition qbind (r : qres) (k : qst -> qres) : qres :=
  match r with QOk s => k s | _ => r end.

(** normalize, normalizeSQL: gormq/miniquery.go:243-259 *)
Definition sql_ops : list (list N * list N) :=
  [ (#"gt", #">"); (#"gte", #">="); (#"eq", #"="); (#"neq", #"<>"); (#"lt", #"<"); (#"lte", #"<=");
    (#"and", #"and"); (#"or", #"or") ].
Definition normalize_sql (s : list N) : list N :=
  match assoc s sql_ops with Some v => v | None => s end.

Section Gorm.
  Variable fold_eq : list N -> list N -> bool.
  Variable quote : list N -> list N.
  Variable lower_hi : N -> N.

  (** getDBName, gormq/miniquery.go:228-241 *)
  Fixpoint first_fold (fs : list (list N * list N)) (name : list N) : option (list N) :=
    match fs with
    | [] => None
    | (n, db) :: fs' => if fold_eq n name then Some db else first_fold fs' name
    end.
  Definition get_db_name (t : table) (name : list N) : option (list N) :=
    if existsb (streq name) (tByDB t) then Some name
    else match assoc name (tByName t) with
         | Some db => Some db
         | None => first_fold (tFields t) name
         end.

  Section Visit.
    Variable sch : schema.

    (** mapName, gormq/miniquery.go:69-75 *)
    Definition map_name (s : list N) : list N + gerr :=
      match get_db_name (sTable sch) s with Some n => inl n | None => inr (GField s) end.

    (** joined[s] = append(joined[s], name) *)
    Fixpoint append_at (s name : list N) (m : list (list N * list (list N))) : list (list N * list (list N)) :=
      match m with
      | [] => [(s, [name])]
      | (k, v) :: m' => if streq s k then (k, v ++ [name]) :: m' else (k, v) :: append_at s name m'
      end.
    (** join, gormq/miniquery.go:76-94.  A nil FieldSchema panics in getDBName. *)
    Inductive jres : Type := JOk (name : list N) (s : qst) | JErr (e : gerr) (s : qst) | JPanic.
    Definition do_join (rel field : list N) (s : qst) : jres :=
      match assoc rel (sRelations sch) with
      | None => JErr (GRelation rel) s
      | Some None => JPanic
      | Some (Some t) =>
          match get_db_name t field with
          | None => JErr (GRelField rel field) s
          | Some name =>
              let joins := match assoc rel (qJoined s) with None => qJoins s ++ [rel] | Some _ => qJoins s end in
              JOk (rel ++ #"." ++ name) (QS (qBuf s) (qVals s) joins (append_at rel name (qJoined s)))
          end
      end.

    (** visitReference, gormq/miniquery.go:114-126 *)
    Definition visit_reference (n : node) (s : qst) : qres :=
      match nNames n with
      | [rel; field] =>
          match do_join rel field s with
          | JOk name s' => QOk (write (quote name) s')
          | JErr e s' => QErr e s'
          | JPanic => QPanic
          end
      | _ => QErr GLevels s
      end.

    (** visitIdentifier, gormq/miniquery.go:128-148 *)
    Definition visit_identifier (n : node) (s : qst) : qres :=
      match map_name (nName n) with
      | inl name => QOk (write (quote name) s)
      | inr e => QErr e s
      end.

    (** the statement after visit(node.Expression): written on error, too *)
    Definition always (t : list N) (r : qres) : qres :=
      match r with QOk s => QOk (write t s) | QErr e s => QErr e (write t s) | QPanic => QPanic end.

    (** visit, gormq/miniquery.go:150-207, with visitFunction (209-226) inlined *)
    Fixpoint visit (n : node) (s : qst) {struct n} : qres :=
      let vp (p : option node) (s : qst) : qres :=
        match p with None => QPanic | Some m => visit m s end in
      match nType n with
      | NOperation => QOk (write (normalize_sql (nOperation n)) s)
      | NValue =>
          match value n with
          | None => QPanic
          | Some v => QOk (add_value v (write #"?" s))
          end
      | NIdentifier => visit_identifier n s
      | NReference => visit_reference n s
      | NParentheses => always #")" (vp (nExpression n) (write #"(" s))
      | NNot => vp (nExpression n) (write #"not " s)
      | NFunction =>
          if streq (nName n) #"date" then
            qbind
              ((fix all (l : list (option node)) (s : qst) : qres :=
                  match l with
                  | [] => QOk s
                  | p :: l' => qbind (vp p s) (all l')
                  end) (nParams n) (write #"(" (write (nName n) s)))
              (fun s => QOk (write #")" s))
          else QErr (GFunc (nName n)) s
      | NBetween =>
          qbind (vp (nLeft n) s) (fun s =>
          qbind (vp (nOp n) (write #" " s)) (fun s =>
          match nParams n with
          | a :: ps =>
              qbind (vp a (write #" " s)) (fun s =>
              match ps with
              | b :: _ => vp b (write #" and " s)
              | [] => QPanic
              end)
          | [] => QPanic
          end))
      | NPredicates | NLogic | NCompare =>
          qbind (vp (nLeft n) s) (fun s =>
          qbind (vp (nOp n) (write #" " s)) (fun s =>
          match nRight n with
          | None => QOk s
          | Some r => visit r (write #" " s)
          end))
      | NOther => QErr (GType (nType n)) s
      end.
  End Visit.

  (** WireMiniQuery, gormq/miniquery.go:43-104; [None] is a panic. *)
  Definition wire_mini_query (d : gdb) (query : list N) : option gdb :=
    match query with
    | [] => Some d
    | _ =>
        match parse lower_hi query with
        | Panic => None
        | Err e => Some (add_err (GSyntax e) d)
        | Ok ast =>
            match get_or_parse_schema d with
            | (inr e, d') => Some (add_err e d')
            | (inl sch, d') =>
                match ast with
                | None => None
                | Some n =>
                    match visit sch n (QS [] [] [] []) with
                    | QPanic => None
                    | QErr e s => Some (add_err e (add_joins (qJoins s) d'))
                    | QOk s => Some (add_where (qBuf s, qVals s) (add_joins (qJoins s) d'))
                    end
                end
            end
        end
    end.

  (** ApplyMiniQuery, gormq/miniquery.go:37-41 *)
  Definition apply_mini_query (query : list N) (d : gdb) : option gdb := wire_mini_query d query.
  (** MiniQuery.Scope, gormq/miniquery.go:18-20 *)
  Definition scope (queries : list (list N)) (d : gdb) : option gdb := wire_mini_query d (join queries).
End Gorm.
