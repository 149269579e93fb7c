(** Vocabulary for C88 and C89: which tables the columns of a condition belong
    to, and schemas that grow.  Nothing here refers to the functions of Gorm.v
    except the data types. *)
From Verif Require Import Base Node Vocab Tree Gorm GormSpec.

(** ** Columns in a statement with joins (C88) *)
(** A column reference as gorm splits it: the part before the first dot, and the
    rest. *)
Fixpoint split_ref (x : list N) : option (list N * list N) :=
  match x with
  | [] => None
  | c :: r => if (c =? 46)%N then Some ([], r) else match split_ref r with Some (a, b) => Some (c :: a, b) | None => None end
  end.
(** The tables of the statement: the table of the model ([None]), and one for
    each join, by the name of the relation, with their columns.  A join that is
    not a relation of the schema is not known to have columns. *)
Definition relation_columns (sch : schema) (r : list N) : list (list N) :=
  match assoc r (sRelations sch) with Some (Some t) => tByDB t | _ => [] end.
Definition tables (sch : schema) (joins : list (list N)) : list (option (list N) * list (list N)) :=
  (None, tByDB (sTable sch)) :: map (fun r => (Some r, relation_columns sch r)) joins.
(** The tables a reference can refer to: without a dot all that have the column,
    else those of the given name. *)
Definition owners (ts : list (option (list N) * list (list N))) (x : list N) : list (option (list N)) :=
  match split_ref x with
  | None => map fst (filter (fun t => existsb (streq x) (snd t)) ts)
  | Some (r, c) => map fst (filter (fun t => match fst t with Some a => streq a r | None => false end && existsb (streq c) (snd t)) ts)
  end.
(** A database takes a reference only if there is one such table. *)
Definition unambiguous (ts : list (option (list N) * list (list N))) (x : list N) : Prop := length (owners ts x) = 1.

(** Every name of the table leads to one of its columns, and columns contain no
    dot. *)
Definition tidy (t : table) : Prop :=
  (forall f c, In (f, c) (tByName t) \/ In (f, c) (tFields t) -> In c (tByDB t)) /\
  (forall c, In c (tByDB t) -> mem 46 c = false).
Definition tidy_schema (sch : schema) : Prop :=
  tidy (sTable sch) /\ forall r t, assoc r (sRelations sch) = Some (Some t) -> tidy t.
(** the table a name of the query belongs to *)
Definition home (n : node) : option (list N) :=
  match nType n with NReference => Some (hd [] (nNames n)) | _ => None end.

(** ** Schemas that grow (C89) *)
(** The table [t] with the fields [new] (name and column, empty if it has none)
    added after its own. *)
Definition new_columns (new : list (list N * list N)) : list (list N) := filter (fun c => negb (streq c [])) (map snd new).
Definition grown (new : list (list N * list N)) (t t' : table) : Prop :=
  (forall x, In x (tByDB t') <-> In x (tByDB t) \/ In x (new_columns new)) /\
  (forall x, assoc x (tByName t') = match assoc x (tByName t) with Some c => Some c | None => assoc x new end) /\
  tFields t' = tFields t ++ new.
(** A name that had the column [c] in [t] gets another one by the new fields. *)
Definition captured (new : list (list N * list N)) (t : table) (x c : list N) : Prop :=
  ~ In x (tByDB t) /\
  ((In x (new_columns new) /\ x <> c) \/
   (~ In x (new_columns new) /\ assoc x (tByName t) = None /\ exists d, assoc x new = Some d /\ d <> c)).
(** New fields in the model and in the schemas of its relations, and new
    relations. *)
Definition grown_schema (new : list (list N * list N)) (newr : list N -> list (list N * list N)) (sch sch' : schema) : Prop :=
  grown new (sTable sch) (sTable sch') /\
  forall r t, assoc r (sRelations sch) = Some (Some t) -> exists t', assoc r (sRelations sch') = Some (Some t') /\ grown (newr r) t t'.
(** One of the names of the query is captured. *)
Definition name_captured (fold_eq : list N -> list N -> bool) (new : list (list N * list N)) (newr : list N -> list (list N * list N)) (sch : schema) (m : node) : Prop :=
  (nType m = NIdentifier /\ exists c, resolves fold_eq (sTable sch) (nName m) c /\ captured new (sTable sch) (nName m) c) \/
  (nType m = NReference /\ exists r x t c, nNames m = [r; x] /\ assoc r (sRelations sch) = Some (Some t) /\ resolves fold_eq t x c /\ captured (newr r) t x c).
