(** Parse takes linearly many steps. *)
From Verif Require Import Base Peg PegSpec StepSpec Grammar PegProofs MachineProofs PegSpecProofs Node Vocab Tree Parse GrammarProofs ParseProofs Steps Steps2 Lin8 Tokens.
Strategy expand [parse_machine].
Strategy 1000 [parse_fuel mrun].

Lemma steps_bound : forall q f, valid_runes q ->
  (steps Ggo (init_buffer q) f (PRule rGrammar) init_state <= 31000000 * (N.of_nat (length q) + 1))%N.
Proof.
  intros q f Hq. set (F := Nat.max f (parse_fuel q)).
  pose proof (steps_mono_le Ggo (init_buffer q) (PRule rGrammar) init_state f F ltac:(unfold F; lia)) as HM.
  pose proof (mrun_takes q Hq Ggo pok_go F (PRule rGrammar) init_state eq_refl (minv_init q)) as HT.
  pose proof (parse_machine_spec q Hq) as HP. unfold parse_machine in HP. rewrite init_buffer_eq in * by exact Hq.
  assert (HQ : forall o k, T (PRule rGrammar) q o k -> (k <= 31000000 * (N.of_nat (length q) + 1))%N).
  { intros o k H. apply grammar_linear in H. unfold len in H. lia. }
  assert (HR : exists b s, mrun Ggo (q ++ [endSymbol]) F (PRule rGrammar) init_state = MR b s).
  { destruct (E (PRule rGrammar) q) as [[ev r]|]; destruct HP as (s & H & _); eexists; exists s;
      (rewrite (mrun_mono_le _ _ _ _ (parse_fuel q) F); [exact H|unfold F; lia|congruence]). }
  destruct HR as ([|] & s & HE); rewrite HE in HT; apply HQ in HT; lia.
Qed.

(** ** Tokens *)
Lemma machine_tokens : forall q, valid_runes q -> exists b s, parse_machine q = MR b s /\
  mtidx s <= length (mtree s) <= 17 * length q + 19 /\ (b = true -> mtidx s <= 17 * length q) /\
  Forall (fun t => tbegin t <= tend t <= length q) (mmax s :: mtree s).
Proof.
  intros q Hq. pose proof (parse_machine_spec q Hq) as HP.
  assert (HX : exists b s, parse_machine q = MR b s /\ minv q s).
  { destruct (E (PRule rGrammar) q) as [[ev r]|]; destruct HP as (s & H & HM); eexists; exists s; (split; [exact H|apply HM]). }
  destruct HX as (b & s & H & HM). exists b, s. split; [exact H|]. unfold parse_machine in H. destruct (parse_tokens q _ b s H) as [H1 H2].
  destruct HM as (M1 & M2 & M3 & M4 & _). split; [lia|]. split; [intro Hb; specialize (H2 Hb); lia|]. constructor; [exact M4|exact M3].
Qed.
Lemma machine_uint32 : forall q, valid_runes q -> (N.of_nat (length q) <= 250000000)%N -> exists b s, parse_machine q = MR b s /\
  (N.of_nat (mtidx s) < 2 ^ 32)%N /\ Forall (fun t => (N.of_nat (tbegin t) < 2 ^ 32 /\ N.of_nat (tend t) < 2 ^ 32)%N) (mmax s :: mtree s).
Proof.
  intros q Hq HL. destruct (machine_tokens q Hq) as (b & s & H & H1 & _ & HF). exists b, s. change (2 ^ 32)%N with 4294967296%N.
  split; [exact H|]. split; [lia|]. eapply Forall_impl; [|exact HF]. intros t Ht. cbn beta in *. lia.
Qed.
