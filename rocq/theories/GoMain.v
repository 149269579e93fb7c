(** The generated file as it is and the machine of Peg.v: they agree. *)
From Coq Require Import Lia.
From Verif Require Import Base Peg Grammar Node Tree Parse Ast StepsMain GoStmt GoRules GoCheck GoProofs GoParse.
Strategy expand [parse_machine]. Strategy 1000 [parse_fuel mrun].

Lemma rules_checked : forall r, exists c, rule_code go_constants go_rules (TRule r) = Some c /\ chk_rule r (Ggo r) c = true.
Proof. intros r. destruct r; eexists; (split; [vm_compute; reflexivity|vm_compute; reflexivity]). Qed.

Lemma acts_checked : forall n, n < 30 -> exists c, rule_code go_constants go_rules (TAct n) = Some c /\ chk_act n c = true.
Proof.
  intros n H. do 30 (destruct n as [|n]; [eexists; split; vm_compute; reflexivity|]). lia.
Qed.

Definition res_of (r : mres) : called :=
  match r with MFuel => CFuel | MPanic => CPanic | MR b s => CRet b s end.

Lemma call_ev : forall buf i c m r, nth_error go_rules i = Some (Some c) ->
  ev go_constants go_rules buf c c (GS m [] []) r ->
  exists f0, forall f, f0 <= f -> call go_constants go_rules buf f i m =
    match r with RRet b g => CRet b (gm g) | RFuel => CFuel | RPanic => CPanic | _ => CStuck end.
Proof.
  intros buf i c m r Hi (f0 & E & N). exists f0. intros f Hf. unfold call. rewrite Hi.
  rewrite (run_mono _ _ _ f0 f) by (auto; now rewrite E). now rewrite E.
Qed.

Lemma rule_code_value : forall t c, rule_code go_constants go_rules t = Some c ->
  exists i, rule_value go_constants t = Some i /\ nth_error go_rules i = Some (Some c).
Proof.
  intros t c H. unfold rule_code in H. destruct (rule_value go_constants t) as [i|]; [|discriminate].
  exists i. split; [easy|]. destruct (nth_error go_rules i); [now subst|discriminate].
Qed.

Lemma go_rule : forall buf r f m, mrun Ggo buf f (PRule r) m <> MFuel ->
  exists i f0, rule_value go_constants (TRule r) = Some i /\
    forall f', f0 <= f' -> call go_constants go_rules buf f' i m = res_of (mrun Ggo buf f (PRule r) m).
Proof.
  intros buf r [|f] m H; [now elim H|].
  destruct (rule_runs go_constants go_rules buf Ggo rules_checked acts_checked f r m) as (c & Hc & A).
  destruct (rule_code_value _ _ Hc) as (i & Hi & Hn). exists i.
  destruct (mrun Ggo buf (S f) (PRule r) m) as [| |b s]; [now elim H| |].
  - destruct (call_ev _ _ _ _ _ Hn A) as (f0 & A'). exists f0. split; auto.
  - destruct A as (g' & E & A). destruct (call_ev _ _ _ _ _ Hn A) as (f0 & A'). exists f0. split; auto.
    intros f' Hf. rewrite A' by auto. now rewrite E.
Qed.

Lemma go_machine_ok : forall q, valid_runes q -> exists b s f0, parse_machine q = MR b s /\
  forall f, f0 <= f -> go_machine f q = CRet b s.
Proof.
  intros q Hq. destruct (machine_tokens q Hq) as (b & s & H & _).
  destruct (go_rule (init_buffer q) rGrammar (parse_fuel q) init_state) as (i & f0 & Hi & A).
  { unfold parse_machine in H. congruence. }
  assert (E1 : rule_value go_constants (TRule rGrammar) = Some 1) by (vm_compute; reflexivity).
  rewrite E1 in Hi. injection Hi as <-.
  exists b, s, f0. split; [exact H|]. intros f Hf. unfold go_machine. rewrite A by auto.
  unfold parse_machine in H. now rewrite H.
Qed.

(** One result: a run with enough steps does not depend on their number. *)
Lemma call_fun : forall buf i m f f', call go_constants go_rules buf f i m <> CFuel ->
  call go_constants go_rules buf f' i m <> CFuel ->
  call go_constants go_rules buf f i m = call go_constants go_rules buf f' i m.
Proof.
  intros buf i m f f'. unfold call. destruct (nth_error go_rules i) as [[c|]|]; auto. intros H H'.
  assert (N : run go_constants go_rules buf f c c (GS m [] []) <> RFuel) by (intros E; now rewrite E in H).
  assert (N' : run go_constants go_rules buf f' c c (GS m [] []) <> RFuel) by (intros E; now rewrite E in H').
  now rewrite (ev_fun go_constants go_rules buf c c (GS m [] []) (run go_constants go_rules buf f c c (GS m [] []))
                (run go_constants go_rules buf f' c c (GS m [] []))) by (eexists; eauto).
Qed.

Lemma go_machine_only : forall q f b s, valid_runes q -> go_machine f q = CRet b s -> parse_machine q = MR b s.
Proof.
  intros q f b s Hq H. destruct (go_machine_ok q Hq) as (b' & s' & f0 & E & A).
  specialize (A f0 (Nat.le_refl _)). unfold go_machine in *.
  rewrite (call_fun _ _ _ f f0) in H by congruence. congruence.
Qed.
Lemma go_machine_returns : forall q f, valid_runes q ->
  go_machine f q = CFuel \/ exists b s, go_machine f q = CRet b s.
Proof.
  intros q f Hq. destruct (go_machine_ok q Hq) as (b' & s' & f0 & E & A).
  destruct (go_machine f q) eqn:Eq; auto; right.
  all: specialize (A f0 (Nat.le_refl _)); unfold go_machine in *; rewrite (call_fun _ _ _ f f0) in Eq by congruence;
    rewrite A in Eq; try discriminate; eauto.
Qed.

Lemma go_action_ok : forall lo n text t, go_action lo n text t = run_action lo n text t.
Proof.
  intros lo n text t. do 30 (destruct n as [|n]; [reflexivity|]). reflexivity.
Qed.
Lemma go_execute_ok : forall lo buf toks text t, go_execute lo buf toks text t = execute lo buf toks text t.
Proof.
  intros lo buf toks. induction toks as [|[r b e] toks IH]; intros text t; [reflexivity|].
  cbn [go_execute execute trule tbegin tend]. destruct r; auto.
  - destruct (slice_rng buf b e); auto.
  - rewrite go_action_ok. destruct (run_action lo n text t); auto.
Qed.

Lemma go_parse_ok : forall lo q, valid_runes q -> exists f0, forall f, f0 <= f -> go_parse lo f q = Some (parse lo q).
Proof.
  intros lo q Hq. destruct (go_machine_ok q Hq) as (b & s & f0 & E & A). exists f0. intros f Hf.
  unfold go_parse, parse. rewrite A, E by auto. destruct b; auto. now rewrite go_execute_ok.
Qed.
Lemma go_parse_only : forall lo q f r, valid_runes q -> go_parse lo f q = Some r -> r = parse lo q.
Proof.
  intros lo q f r Hq H. unfold go_parse in H.
  destruct (go_machine_returns q f Hq) as [E|(b & s & E)]; rewrite E in H; [discriminate|].
  pose proof (go_machine_only q f b s Hq E) as E'. unfold parse. rewrite E'.
  destruct b; [|congruence]. rewrite go_execute_ok in H. congruence.
Qed.

Lemma go_names_ok : forall r, go_name (TRule r) = Some (rule_name (TRule r)).
Proof. destruct r; vm_compute; reflexivity. Qed.
Lemma go_names_act : forall n, n < 30 -> go_name (TAct n) = Some (rule_name (TAct n)).
Proof. intros n H. do 30 (destruct n as [|n]; [vm_compute; reflexivity|]). lia. Qed.
Lemma go_names_text : go_name TPegText = Some (rule_name TPegText) /\ nth_error go_names 0 = Some #"Unknown".
Proof. split; vm_compute; reflexivity. Qed.
