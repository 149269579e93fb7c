(** The generated file implements the text of miniquery.peg. *)
From Coq Require Import Lia.
From Verif Require Import Base Peg Grammar Node Tree Parse MachineProofs ParseProofs PegSpec PegSpecProofs ParserMain
  GoStmt GoRules GoParse GoMain PegText PegRead PegFileSpec.
Strategy expand [parse_machine]. Strategy 1000 [parse_fuel mrun].

Definition pexp_eq_dec : forall a b : pexp, {a = b} + {a <> b}.
Proof. repeat decide equality. Defined.
Definition rule_eq_dec : forall a b : rule, {a = b} + {a <> b}.
Proof. decide equality. Defined.

Fixpoint nodup_rules (l : list rule) : bool :=
  match l with
  | [] => true
  | r :: l' => (if in_dec rule_eq_dec r l' then false else true) && nodup_rules l'
  end.
Lemma nodup_rules_ok : forall l, nodup_rules l = true -> NoDup l.
Proof.
  induction l as [|r l IH]; cbn; intros H; constructor.
  - destruct (in_dec rule_eq_dec r l); [discriminate|easy].
  - destruct (in_dec rule_eq_dec r l); [discriminate|auto].
Qed.

Definition file_rules : list (rule * pexp) :=
  match read_peg peg_names peg_text with Some (l, _) => l | None => [] end.
Definition file_acts : list (list N) :=
  match read_peg peg_names peg_text with Some (_, a) => a | None => [] end.
Lemma file_read : read_peg peg_names peg_text = Some (file_rules, file_acts).
Proof.
  assert (H : match read_peg peg_names peg_text with Some _ => true | None => false end = true)
    by (vm_compute; reflexivity).
  unfold file_rules, file_acts. destruct (read_peg peg_names peg_text) as [[l a]|]; [reflexivity|discriminate].
Qed.
Lemma file_nodup : NoDup (map fst file_rules).
Proof. apply nodup_rules_ok. vm_compute. reflexivity. Qed.
Definition has (r : rule) (e : pexp) (l : list (rule * pexp)) : bool :=
  existsb (fun p => (if rule_eq_dec (fst p) r then true else false) && (if pexp_eq_dec (snd p) e then true else false)) l.
Lemma has_in : forall r e l, has r e l = true -> In (r, e) l.
Proof.
  intros r e l H. apply existsb_exists in H as ([r' e'] & Hi & H). cbn [fst snd] in H.
  destruct (rule_eq_dec r' r); [|discriminate]. destruct (pexp_eq_dec e' e); [|discriminate]. now subst.
Qed.
Lemma file_gpeg : forall r, In (r, Gpeg r) file_rules.
Proof. intros r. apply has_in. destruct r; vm_compute; reflexivity. Qed.

Lemma nodup_fun : forall (l : list (rule * pexp)) r e e', NoDup (map fst l) -> In (r, e) l -> In (r, e') l -> e = e'.
Proof.
  induction l as [|[r0 e0] l IH]; intros r e e' Hn H H'; [easy|]. cbn in Hn. inversion Hn as [|? ? Hi Hn']; subst.
  destruct H as [H|H], H' as [H'|H'].
  - congruence.
  - injection H as <- <-. elim Hi. now apply (in_map fst) in H'.
  - injection H' as <- <-. elim Hi. now apply (in_map fst) in H.
  - eauto.
Qed.

Lemma matches_ext : forall G G', (forall r, G r = G' r) -> forall e s o, matches G e s o -> matches G' e s o.
Proof.
  intros G G' HG e s o H. induction H; try (now econstructor; eauto).
  constructor. now rewrite <- HG.
Qed.

(** Actions recorded while matching are actions of the file. *)
Fixpoint acts_below (n : nat) (e : pexp) : bool :=
  match e with
  | PAct m => Nat.ltb m n
  | PSeq a b | PAlt a b | PSw _ a b => acts_below n a && acts_below n b
  | PStar a | POpt a | PNot a | PCap a => acts_below n a
  | _ => true
  end.
Definition ev_below (n : nat) (ev : list event) : Prop := forall m, In (EAct m) ev -> m < n.
Lemma ev_below_app : forall n a b, ev_below n a -> ev_below n b -> ev_below n (a ++ b).
Proof. intros n a b Ha Hb m H. apply in_app_iff in H as [H|H]; auto. Qed.
Lemma matches_below : forall n G, (forall r, acts_below n (G r) = true) ->
  forall e s o, matches G e s o -> acts_below n e = true ->
  match o with Some (ev, _) => ev_below n ev | None => True end.
Proof.
  intros n G HG e s o H. induction H; cbn [acts_below]; intros He; auto; try (intros m Hm; easy);
    try (apply andb_prop in He as [He1 He2]); try (now apply ev_below_app; auto).
  all: try (match goal with r : (list event * list N)%type |- _ => destruct r end; now auto).
  all: try (now destruct o as [[? ?]|]; auto).
  - apply ev_below_app; auto. intros m [Hm|[]]. discriminate.
  - intros m [Hm|[]]. injection Hm as <-. now apply Nat.ltb_lt.
Qed.

(** The actions of the file are the cases of Execute. *)
Lemma acts_calls : map call_of file_acts = map (fun p => Some (snd p)) go_actions.
Proof. vm_compute. reflexivity. Qed.
Lemma cases_nth : forall n, n < 30 -> exists c, nth_error (map snd go_actions) n = Some c /\ case_of n go_actions = Some c.
Proof.
  assert (H : map (fun n => nth_error (map snd go_actions) n) (seq 0 30) = map (fun n => case_of n go_actions) (seq 0 30)
              /\ length go_actions = 30) by (split; vm_compute; reflexivity).
  intros n Hn. destruct H as [H HL].
  assert (E : nth_error (map snd go_actions) n = case_of n go_actions).
  { apply (f_equal (fun l => nth_error l n)) in H.
    assert (S : nth_error (seq 0 30) n = Some n).
    { rewrite (nth_error_nth' _ 0) by (rewrite seq_length; exact Hn). now rewrite seq_nth. }
    rewrite !(map_nth_error _ _ _ S) in H. congruence. }
  destruct (nth_error (map snd go_actions) n) as [c|] eqn:Ec; [exists c; auto|].
  apply nth_error_None in Ec. rewrite map_length in Ec. lia.
Qed.
Lemma file_actions : forall lo n text t, n < 30 ->
  exists a, nth_error file_acts n = Some a /\ file_action lo a text t = run_action lo n text t.
Proof.
  intros lo n text t H. destruct (cases_nth n H) as ([name arg] & H1 & H2).
  assert (HA : nth_error (map call_of file_acts) n = Some (Some (name, arg))).
  { rewrite acts_calls, <- (map_map snd Some). now apply map_nth_error. }
  destruct (nth_error file_acts n) as [a|] eqn:Ea.
  - exists a. split; [reflexivity|]. rewrite (map_nth_error call_of _ _ Ea) in HA. injection HA as HA.
    rewrite <- go_action_ok. unfold file_action, go_action. now rewrite HA, H2.
  - apply nth_error_None in Ea. assert (HB : n < length (map call_of file_acts)) by (apply nth_error_Some; congruence).
    rewrite map_length in HB. lia.
Qed.

Lemma perform_run : forall lo ev text t, ev_below 30 ev ->
  perform lo file_acts ev text t = match ParseProofs.run lo ev (text, t) with Some (_, t') => Some t' | None => None end.
Proof.
  intros lo ev. induction ev as [|[s|n] ev IH]; intros text t H; [reflexivity| |].
  - cbn [perform ParseProofs.run]. apply IH. intros m Hm. apply H. now right.
  - cbn [perform ParseProofs.run]. destruct (file_actions lo n text t) as (a & -> & ->); [apply H; now left|].
    cbn [fst snd]. destruct (run_action lo n text t); [|reflexivity]. apply IH. intros m Hm. apply H. now right.
Qed.

Lemma gpeg_below : forall r, acts_below 30 (Gpeg r) = true.
Proof. destruct r; vm_compute; reflexivity. Qed.

Lemma file_parse : forall lo G q, (forall r, In (r, G r) file_rules) -> valid_runes q ->
  exists o f0, matches G (PRule rGrammar) q o /\
    forall f, f0 <= f -> exists res, go_parse lo f q = Some res /\ returns lo file_acts o res.
Proof.
  intros lo G q HG Hq.
  assert (E : forall r, Gpeg r = G r) by (intros r; eapply nodup_fun; [apply file_nodup|apply file_gpeg|apply HG]).
  destruct (rules_total rGrammar q) as (o & Ho). destruct (go_parse_ok lo q Hq) as (f0 & Hf).
  exists o, f0. split; [exact (matches_ext _ _ E _ _ _ Ho)|]. intros f Hle. exists (parse lo q). split; [now apply Hf|].
  pose proof (parse_from_matches lo q o Hq Ho) as HP.
  pose proof (matches_below 30 Gpeg gpeg_below _ _ _ Ho eq_refl) as HB.
  destruct o as [[ev r]|]; [|exact HP].
  destruct HP as (text & t & HR & HP). exists t. split; [|exact HP]. rewrite perform_run by exact HB. now rewrite HR.
Qed.

(** A single rule function, anywhere in any query. *)
Lemma file_rule : forall G q r p, (forall r, In (r, G r) file_rules) -> valid_runes q -> p <= length q ->
  exists i b s f0, rule_value go_constants (TRule r) = Some i /\
    (forall f, f0 <= f -> call go_constants go_rules (init_buffer q) f i (MState p 0 [] tok0) = CRet b s) /\
    matches G (PRule r) (skipn p q) (if b then Some (toks_events q (firstn (mtidx s) (mtree s)), skipn (mpos s) q) else None).
Proof.
  intros G q r p HG Hq Hp.
  assert (E : forall r, Gpeg r = G r) by (intros r'; eapply nodup_fun; [apply file_nodup|apply file_gpeg|apply HG]).
  assert (HI : minv q (MState p 0 [] tok0)) by (repeat split; cbn; auto; try constructor; lia).
  destruct (rule_implements q r _ _ Hq HI (Nat.le_refl _)) as (b & s & H1 & H2 & _).
  destruct (go_rule (q ++ [endSymbol]) r (rule_fuel q (MState p 0 [] tok0)) (MState p 0 [] tok0)) as (i & f0 & Hi & HC); [rewrite H1; discriminate|].
  exists i, b, s, f0. split; [exact Hi|]. split.
  - intros f Hf. rewrite init_buffer_eq by exact Hq. rewrite HC by exact Hf. now rewrite H1.
  - apply (matches_ext _ _ E). exact H2.
Qed.
