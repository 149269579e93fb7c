(** C72: what WireMiniQuery does to a handle of gorm that is used again.  The
    handle given and the variable db are those of [wire_handle]; a handle is
    reusable when it is not itself a statement under construction ([C1], [C2]). *)
From Verif Require Import Base Peg Grammar Node Vocab Tree Parse Syntax ParseProofs ParserFacts ParserFacts2 ParserMain Build NodeFacts
  Gorm GormSpec GormSample GormFacts BlameSpec Session SessionSpec SessionProofs.
Strategy expand [parse_machine rule_trace].
Strategy 1000 [parse_fuel mrun].

(** What is returned is what the other theorems about WireMiniQuery say, also for
    a handle that copies its statement; a statement under construction is changed
    in place. *)
Theorem C72_returned : forall fold_eq quote lo c d q, c <> C1 ->
  option_map returned (wire_handle fold_eq quote lo c d q) = wire_mini_query fold_eq quote lo d q.
Proof. exact handle_returned. Qed.
Theorem C72_in_place : forall fold_eq quote lo d q,
  wire_handle fold_eq quote lo C0 d q = option_map (fun d' => Vars d' None) (wire_mini_query fold_eq quote lo d q).
Proof. exact handle_place. Qed.

(** A handle that starts a new statement hands on its errors only: schema, model,
    joins and conditions of what is returned come from the query alone. *)
Theorem C72_new : forall fold_eq quote lo d q v x, wire_handle fold_eq quote lo C1 d q = Some v -> vNew v = Some x ->
  dSchema x = None /\ dModel x = None /\
  exists y, wire_mini_query fold_eq quote lo (DB (dSchema d) (dModel d) [] [] (dErrors d)) q = Some y /\ dJoins x = dJoins y /\ dWheres x = dWheres y /\ dErrors x = dErrors y.
Proof. exact handle_new. Qed.

(** A query without faults leaves a reusable handle alone. *)
Theorem C72_success : forall fold_eq quote lo c d q n sch, c <> C0 -> valid_runes q -> parse lo q = Ok (Some n) ->
  schema_of d = Some sch -> schema_ok sch -> none_of (gorm_fault fold_eq sch) (constructs n) ->
  exists v w, wire_handle fold_eq quote lo c d q = Some v /\ untouched d (vGiven v) /\
    dErrors (returned v) = dErrors d /\ dWheres (returned v) = (match c with C1 => [] | _ => dWheres d end) ++ [w].
Proof. exact handle_good. Qed.
(** With a fault, it depends on whether a relation was joined before it: if so,
    the error is recorded on the handle returned; if not, on the handle given. *)
Theorem C72_fault : forall fold_eq quote lo c d q n sch before e, c <> C0 -> valid_runes q -> parse lo q = Ok (Some n) ->
  schema_of d = Some sch -> schema_ok sch -> first_of (gorm_fault fold_eq sch) (constructs n) before e ->
  exists v, wire_handle fold_eq quote lo c d q = Some v /\ dErrors (returned v) = dErrors d ++ [e] /\
    (referred before <> [] -> untouched d (vGiven v)) /\
    (referred before = [] -> vNew v = None /\ dErrors (vGiven v) = dErrors d ++ [e]).
Proof. exact handle_bad. Qed.
(** A syntax error and a missing model are always recorded on the handle given. *)
Theorem C72_syntax : forall fold_eq quote lo c d q e, q <> [] -> parse lo q = Err e ->
  wire_handle fold_eq quote lo c d q = Some (Vars (add_err (GSyntax e) d) None).
Proof. exact handle_syntax. Qed.
Theorem C72_model : forall fold_eq quote lo c d q n, q <> [] -> parse lo q = Ok (Some n) -> schema_of d = None ->
  exists e, wire_handle fold_eq quote lo c d q = Some (Vars (add_err e d) None).
Proof. exact handle_missing. Qed.
(** Errors stay: whatever is wired to the handle later has them too. *)
Theorem C72_stays : forall fold_eq quote lo c d q v, wire_handle fold_eq quote lo c d q = Some v ->
  exists es es', dErrors (returned v) = dErrors d ++ es /\ dErrors (vGiven v) = dErrors d ++ es'.
Proof. exact handle_errors. Qed.

(** That a reusable handle is left alone is therefore false: one query with an
    unknown field, and the next one, which is fine by itself, fails as well. *)
Theorem C72_shared_refuted : ~ (forall fold_eq quote lo c d q v q' v' w, c <> C0 ->
  wire_handle fold_eq quote lo c d q = Some v -> wire_handle fold_eq quote lo c (vGiven v) q' = Some v' ->
  wire_handle fold_eq quote lo c d q' = Some w -> dErrors (returned w) = [] -> dErrors (returned v') = []).
Proof.
  intro H. pose (v := Vars (DB (Some sch2) None [] [] [GField #"nope"]) None). pose (w := Vars db2 (Some (DB (Some sch2) None [] [(#"`a` = ?", [GInt 1])] []))).
  pose (v' := Vars (vGiven v) (Some (DB (Some sch2) None [] [(#"`a` = ?", [GInt 1])] [GField #"nope"]))).
  specialize (H fold2 quote2 lo2 C2 db2 #"nope = 1" v #"a = 1" v' w ltac:(discriminate) ltac:(vm_compute; reflexivity) ltac:(vm_compute; reflexivity)
    ltac:(vm_compute; reflexivity) eq_refl). discriminate H.
Qed.

Example C72_ex : (* the error lands on the handle given, or on the one returned *)
  wire_handle fold2 quote2 lo2 C2 db2 #"nope = 1 and Profile.age = 1" = Some (Vars (DB (Some sch2) None [] [] [GField #"nope"]) None) /\
  wire_handle fold2 quote2 lo2 C2 db2 #"Profile.age = 1 and nope = 1" = Some (Vars db2 (Some (DB (Some sch2) None [#"Profile"] [] [GField #"nope"]))) /\
  wire_handle fold2 quote2 lo2 C1 db2 #"a = 1" = Some (Vars db2 (Some (DB None None [] [(#"`a` = ?", [GInt 1])] []))) /\
  wire_handle fold2 quote2 lo2 C1 (DB (Some sch2) None [] [(#"`b` = ?", [GInt 2])] []) #"a = 1" =
    Some (Vars (DB (Some sch2) None [] [(#"`b` = ?", [GInt 2])] []) (Some (DB None None [] [(#"`a` = ?", [GInt 1])] []))) /\
  wire_handle fold2 quote2 lo2 C0 db2 #"a = 1" = Some (Vars (DB (Some sch2) None [] [(#"`a` = ?", [GInt 1])] []) None).
Proof. vm_compute. repeat split. Qed.

Print Assumptions C72_returned. Print Assumptions C72_in_place. Print Assumptions C72_new. Print Assumptions C72_success. Print Assumptions C72_fault.
Print Assumptions C72_syntax. Print Assumptions C72_model. Print Assumptions C72_stays. Print Assumptions C72_shared_refuted.
