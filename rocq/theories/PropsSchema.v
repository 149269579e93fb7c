(** C88 and C89: the tables that the columns of a condition belong to, and models
    that get more fields.  Proofs in SchemaFacts.v. *)
From Verif Require Import Base Peg Grammar Node Vocab Tree Parse Syntax ParseProofs ParserFacts ParserFacts2 ParserMain Build NodeFacts
  Gorm GormSpec GormSample GormFacts GormFacts4 SchemaSpec SchemaFacts.
Strategy expand [parse_machine rule_trace].
Strategy 1000 [parse_fuel mrun tok_trace].

(** ** C88 *)
(** Every column of the condition can be read as one of the table its name belongs
    to: the model's, or the relation's, which has been joined. *)
Theorem C88_home : forall fold_eq quote lo d q n d', valid_runes q -> parse lo q = Ok (Some n) ->
  wire_mini_query fold_eq quote lo d q = Some d' -> succeeded d d' ->
  exists sch ps, schema_of d = Some sch /\ dWheres d' = dWheres d ++ [(sql_text quote ps, values ps)] /\
    (tidy_schema sch -> Forall2 (fun m c => In (home m) (owners (tables sch (dJoins d')) c)) (names n) (columns ps)).
Proof.
  intros f quote lo d q n d' V P H S. destruct (wire_scope f quote lo d q n d' V P H S) as (sch & ps & H1 & H2 & H3). exists sch, ps.
  split; [exact H1|]. split; [exact H2|]. intro T. exact (proj1 (H3 T)).
Qed.
(** It cannot be read as another exactly if no joined relation has a column that
    the query names without a relation, and no relation it references is joined
    twice. *)
Theorem C88_exact : forall fold_eq quote lo d q n d', valid_runes q -> parse lo q = Ok (Some n) ->
  wire_mini_query fold_eq quote lo d q = Some d' -> succeeded d d' ->
  exists sch ps, schema_of d = Some sch /\ dWheres d' = dWheres d ++ [(sql_text quote ps, values ps)] /\
    (tidy_schema sch ->
     (Forall (unambiguous (tables sch (dJoins d'))) (columns ps) <->
      (forall m c r, In m (names n) -> nType m = NIdentifier -> resolves fold_eq (sTable sch) (nName m) c -> In r (dJoins d') -> ~ In c (relation_columns sch r)) /\
      (forall r, In r (relations n) -> count_occ (list_eq_dec N.eq_dec) (dJoins d') r = 1))).
Proof.
  intros f quote lo d q n d' V P H S. destruct (wire_scope f quote lo d q n d' V P H S) as (sch & ps & H1 & H2 & H3). exists sch, ps.
  split; [exact H1|]. split; [exact H2|]. intro T. exact (proj2 (H3 T)).
Qed.
(** The second part is so on a db without joins. *)
Theorem C88_fresh : forall fold_eq quote lo d q n d', valid_runes q -> parse lo q = Ok (Some n) ->
  wire_mini_query fold_eq quote lo d q = Some d' -> succeeded d d' -> dJoins d = [] ->
  forall r, In r (relations n) -> count_occ (list_eq_dec N.eq_dec) (dJoins d') r = 1.
Proof. exact wire_fresh. Qed.

(** Users with a profile; both have an id and an age. *)
Definition prof88 : table := Table [#"id"; #"age"] [(#"ID", #"id"); (#"Age", #"age")] [(#"ID", #"id"); (#"Age", #"age")].
Definition user88 : table := Table [#"id"; #"name"] [(#"ID", #"id"); (#"Name", #"name")] [(#"ID", #"id"); (#"Name", #"name")].
Definition sch88 : schema := Schema user88 [(#"Profile", Some prof88)].
Definition db88 : gdb := DB (Some sch88) None [] [] [].
Lemma tidy88 : tidy_schema sch88.
Proof.
  assert (U : tidy user88). { split; [intros f c [H|H]|intros c H]; cbn in *; decompose [or] H; try contradiction; try match goal with K : _ = (_, _) |- _ => injection K as <- <- end; subst; cbn; auto. }
  assert (P : tidy prof88). { split; [intros f c [H|H]|intros c H]; cbn in *; decompose [or] H; try contradiction; try match goal with K : _ = (_, _) |- _ => injection K as <- <- end; subst; cbn; auto. }
  split; [exact U|]. intros r t H. cbn in H. destruct (streq r _); [injection H as <-; exact P|discriminate].
Qed.
(** The query is accepted, and the database cannot tell whose id is meant. *)
Theorem C88_ambiguous_refuted : forall lo, let q := #"id = 1 and Profile.age = 2" in
  exists n d', valid_runes q /\ parse lo q = Ok (Some n) /\ tidy_schema sch88 /\ wire_mini_query fold2 quote2 lo db88 q = Some d' /\ succeeded db88 d' /\
    dWheres d' = [(#"`id` = ? and `Profile.age` = ?", [GInt 1; GInt 2])] /\ dJoins d' = [#"Profile"] /\
    owners (tables sch88 (dJoins d')) #"id" = [None; Some #"Profile"].
Proof.
  intros lo q. do 2 eexists. split; [apply valid_runesb_spec; vm_compute; reflexivity|]. split; [vm_compute; reflexivity|]. split; [exact tidy88|].
  split; [vm_compute; reflexivity|]. repeat split.
Qed.
(** Two queries on the same db join the relation twice. *)
Theorem C88_twice_refuted : forall lo, let q := #"Profile.age = 2" in
  exists d1 d2, valid_runes q /\ wire_mini_query fold2 quote2 lo db88 q = Some d1 /\ succeeded db88 d1 /\ wire_mini_query fold2 quote2 lo d1 q = Some d2 /\ succeeded d1 d2 /\
    owners (tables sch88 (dJoins d1)) #"Profile.age" = [Some #"Profile"] /\ owners (tables sch88 (dJoins d2)) #"Profile.age" = [Some #"Profile"; Some #"Profile"].
Proof.
  intros lo q. do 2 eexists. split; [apply valid_runesb_spec; vm_compute; reflexivity|]. split; [vm_compute; reflexivity|]. split; [reflexivity|].
  split; [vm_compute; reflexivity|]. repeat split.
Qed.
Example C88_ex : exists n d', parse lo2 #"Name = 'x' and Profile.AGE = Profile.id" = Ok (Some n) /\ tidy_schema sch88 /\
  wire_mini_query fold2 quote2 lo2 db88 #"Name = 'x' and Profile.AGE = Profile.id" = Some d' /\ succeeded db88 d' /\
  dWheres d' = [(#"`name` = ? and `Profile.age` = `Profile.id`", [GStr #"x"])] /\
  map home (names n) = [None; Some #"Profile"; Some #"Profile"] /\
  map (owners (tables sch88 (dJoins d'))) [#"name"; #"Profile.age"; #"Profile.id"] = [[None]; [Some #"Profile"]; [Some #"Profile"]].
Proof. do 2 eexists. split; [vm_compute; reflexivity|]. split; [exact tidy88|]. split; [vm_compute; reflexivity|]. repeat split. Qed.

(** ** C89 *)
(** What a name stands for after fields have been added: the same, except that a
    name that was no column loses to a new column of that name, and one that was
    found only by ignoring case also to a new field of that name. *)
Theorem C89_lookup : forall fold_eq new t t' x c, grown new t t' -> resolves fold_eq t x c ->
  (resolves fold_eq t' x c <-> ~ captured new t x c) /\ exists c', resolves fold_eq t' x c'.
Proof. intros f new t t' x c G R. split; [now apply grown_resolves|]. now apply (grown_some f new t t' x c). Qed.
(** A query that was accepted is accepted, with the same joins, and gives the same
    condition if none of its names is captured. *)
Theorem C89_grown : forall fold_eq quote lo new newr d d2 sch sch2 q n d', valid_runes q -> parse lo q = Ok (Some n) ->
  schema_of d = Some sch -> schema_of d2 = Some sch2 -> grown_schema new newr sch sch2 ->
  wire_mini_query fold_eq quote lo d q = Some d' -> succeeded d d' ->
  exists d2', wire_mini_query fold_eq quote lo d2 q = Some d2' /\ succeeded d2 d2' /\ (exists j, dJoins d' = dJoins d ++ j /\ dJoins d2' = dJoins d2 ++ j) /\
    (Forall (fun m => ~ name_captured fold_eq new newr sch m) (names n) -> exists c, dWheres d' = dWheres d ++ [c] /\ dWheres d2' = dWheres d2 ++ [c]).
Proof. exact wire_grown. Qed.
(** Only then are the conditions piece by piece the same. *)
Theorem C89_exact : forall fold_eq quote lo new newr d d2 sch sch2 q n d' d2', valid_runes q -> parse lo q = Ok (Some n) ->
  schema_of d = Some sch -> schema_of d2 = Some sch2 -> grown_schema new newr sch sch2 ->
  wire_mini_query fold_eq quote lo d q = Some d' -> succeeded d d' -> wire_mini_query fold_eq quote lo d2 q = Some d2' -> succeeded d2 d2' ->
  exists ps ps2, dWheres d' = dWheres d ++ [(sql_text quote ps, values ps)] /\ dWheres d2' = dWheres d2 ++ [(sql_text quote ps2, values ps2)] /\
    (ps = ps2 <-> Forall (fun m => ~ name_captured fold_eq new newr sch m) (names n)).
Proof. exact wire_grown_only. Qed.

(** Adding a field changes what an old query selects: "name" was the column title
    of the field Name; then a field Nick with the column name is added. *)
Definition old89 : table := Table [#"title"] [(#"Name", #"title")] [(#"Name", #"title")].
Definition new89 : table := Table [#"title"; #"name"] [(#"Name", #"title"); (#"Nick", #"name")] [(#"Name", #"title"); (#"Nick", #"name")].
Definition db89 (t : table) : gdb := DB (Some (Schema t [])) None [] [] [].
Lemma grown89 : grown_schema [(#"Nick", #"name")] (fun _ => []) (Schema old89 []) (Schema new89 []).
Proof.
  split; [|intros r t H; discriminate H]. split; [intro x; cbn; tauto|]. split; [|reflexivity].
  intro x. cbn [assoc old89 new89 tByName sTable]. destruct (streq x _); reflexivity.
Qed.
Theorem C89_capture_refuted : forall lo, let q := #"name = 'x'" in
  exists d1 d2, valid_runes q /\ grown_schema [(#"Nick", #"name")] (fun _ => []) (Schema old89 []) (Schema new89 []) /\
    wire_mini_query fold2 quote2 lo (db89 old89) q = Some d1 /\ wire_mini_query fold2 quote2 lo (db89 new89) q = Some d2 /\
    succeeded (db89 old89) d1 /\ succeeded (db89 new89) d2 /\
    dWheres d1 = [(#"`title` = ?", [GStr #"x"])] /\ dWheres d2 = [(#"`name` = ?", [GStr #"x"])].
Proof.
  intros lo q. do 2 eexists. split; [apply valid_runesb_spec; vm_compute; reflexivity|]. split; [exact grown89|]. split; [vm_compute; reflexivity|].
  split; [vm_compute; reflexivity|]. repeat split.
Qed.
(** The name as it is declared is safe. *)
Example C89_ex : exists n d1 d2, parse lo2 #"Name = 'x' or title = 'y'" = Ok (Some n) /\
  wire_mini_query fold2 quote2 lo2 (db89 old89) #"Name = 'x' or title = 'y'" = Some d1 /\ wire_mini_query fold2 quote2 lo2 (db89 new89) #"Name = 'x' or title = 'y'" = Some d2 /\
  Forall (fun m => ~ name_captured fold2 [(#"Nick", #"name")] (fun _ => []) (Schema old89 []) m) (names n) /\
  dWheres d1 = [(#"`title` = ? or `title` = ?", [GStr #"x"; GStr #"y"])] /\ dWheres d2 = dWheres d1.
Proof.
  do 3 eexists. split; [vm_compute; reflexivity|]. split; [vm_compute; reflexivity|]. split; [vm_compute; reflexivity|]. split; [|split; reflexivity].
  apply Forall_cons; [|apply Forall_cons; [|constructor]]; (intros [[_ (c & _ & K1 & K2)]|[K _]]; [|discriminate K]).
  - destruct K2 as [[K _]|[_ [K _]]]; [|discriminate K]. cbn in K. decompose [or] K; [discriminate|contradiction].
  - apply K1. cbn. tauto.
Qed.

Print Assumptions C88_home.
Print Assumptions C88_exact.
Print Assumptions C88_fresh.
Print Assumptions C88_ambiguous_refuted.
Print Assumptions C88_twice_refuted.
Print Assumptions C89_lookup.
Print Assumptions C89_grown.
Print Assumptions C89_exact.
Print Assumptions C89_capture_refuted.
