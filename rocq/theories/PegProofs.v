(** Generic facts about the two PEG semantics, for every grammar. *)
From Verif Require Import Base Peg.
Require Import Arith.

(** ** Functional semantics *)
Section Fun.
  Variable G : rule -> pexp.

  Lemma frun_mono : forall f f' e s r,
    frun G f e s = Some r -> f <= f' -> frun G f' e s = Some r.
  Proof.
    induction f as [|f IH]; intros f' e s r H Hle; [discriminate|].
    destruct f' as [|f']; [lia|].
    assert (Hle' : f <= f') by lia.
    destruct e; cbn [frun] in *; try exact H.
    - (* seq *)
      destruct (frun G f e1 s) as [[[ev1 s1]|]|] eqn:E1; try discriminate.
      + rewrite (IH _ _ _ _ E1 Hle').
        destruct (frun G f e2 s1) as [r2|] eqn:E2; [|discriminate].
        rewrite (IH _ _ _ _ E2 Hle'). exact H.
      + rewrite (IH _ _ _ _ E1 Hle'). exact H.
    - (* alt *)
      destruct (frun G f e1 s) as [[[ev1 s1]|]|] eqn:E1; try discriminate;
        rewrite (IH _ _ _ _ E1 Hle'); [exact H|].
      exact (IH _ _ _ _ H Hle').
    - (* star *)
      destruct (frun G f e s) as [[[ev1 s1]|]|] eqn:E1; try discriminate;
        rewrite (IH _ _ _ _ E1 Hle'); [|exact H].
      destruct (frun G f (PStar e) s1) as [r2|] eqn:E2; [|discriminate].
      rewrite (IH _ _ _ _ E2 Hle'). exact H.
    - destruct (frun G f e s) as [[[ev1 s1]|]|] eqn:E1; try discriminate;
        rewrite (IH _ _ _ _ E1 Hle'); exact H.
    - destruct (frun G f e s) as [[[ev1 s1]|]|] eqn:E1; try discriminate;
        rewrite (IH _ _ _ _ E1 Hle'); exact H.
    - destruct (frun G f e s) as [[[ev1 s1]|]|] eqn:E1; try discriminate;
        rewrite (IH _ _ _ _ E1 Hle'); exact H.
    - exact (IH _ _ _ _ H Hle').
    - destruct s as [|x t]; [exact (IH _ _ _ _ H Hle')|].
      destruct (mem x cs); exact (IH _ _ _ _ H Hle').
  Qed.

  (** Conservative nullability. *)
  Variable nl : rule -> bool.
  Fixpoint nullable (e : pexp) : bool :=
    match e with
    | PChar _ | PRange _ _ | PDot => false
    | PSeq a b => nullable a && nullable b
    | PAlt a b => nullable a || nullable b
    | PStar _ | POpt _ | PNot _ | PAct _ => true
    | PCap a => nullable a
    | PRule r => nl r
    | PSw _ a d => nullable a || nullable d
    end.

  Hypothesis nl_ok : forall r, nullable (G r) = true -> nl r = true.

  Lemma frun_consumes : forall f e s ev s',
    frun G f e s = Some (Some (ev, s')) ->
    (exists p, s = p ++ s') /\ (nullable e = false -> length s' < length s).
  Proof.
    induction f as [|f IH]; intros e s ev s' H; [discriminate|].
    destruct e; cbn [frun nullable] in *.
    - destruct s as [|x t]; [discriminate|]. destruct (x =? c)%N; [|discriminate].
      injection H as <- <-. split; [exists [x]; reflexivity|cbn; lia].
    - destruct s as [|x t]; [discriminate|].
      destruct ((x <? lo)%N || (hi <? x)%N); [discriminate|].
      injection H as <- <-. split; [exists [x]; reflexivity|cbn; lia].
    - destruct s as [|x t]; [discriminate|].
      injection H as <- <-. split; [exists [x]; reflexivity|cbn; lia].
    - destruct (frun G f e1 s) as [[[ev1 s1]|]|] eqn:E1; try discriminate.
      destruct (frun G f e2 s1) as [[[ev2 s2]|]|] eqn:E2; try discriminate.
      injection H as <- <-.
      destruct (IH _ _ _ _ E1) as [[p1 ->] N1]. destruct (IH _ _ _ _ E2) as [[p2 ->] N2].
      split; [exists (p1 ++ p2); now rewrite app_assoc|].
      intro Hn. rewrite andb_false_iff in Hn. repeat rewrite app_length in *.
      destruct Hn as [Hn|Hn]; [specialize (N1 Hn)|specialize (N2 Hn)]; lia.
    - destruct (frun G f e1 s) as [[[ev1 s1]|]|] eqn:E1; try discriminate.
      + injection H as <- <-. destruct (IH _ _ _ _ E1) as [P N]. split; [exact P|].
        intro Hn. apply orb_false_iff in Hn. tauto.
      + destruct (IH _ _ _ _ H) as [P N]. split; [exact P|].
        intro Hn. apply orb_false_iff in Hn. tauto.
    - destruct (frun G f e s) as [[[ev1 s1]|]|] eqn:E1; try discriminate.
      + destruct (frun G f (PStar e) s1) as [[[ev2 s2]|]|] eqn:E2; try discriminate.
        injection H as <- <-.
        destruct (IH _ _ _ _ E1) as [[p1 ->] N1]. destruct (IH _ _ _ _ E2) as [[p2 ->] N2].
        split; [exists (p1 ++ p2); now rewrite app_assoc|discriminate].
      + injection H as <- <-. split; [exists []; reflexivity|discriminate].
    - destruct (frun G f e s) as [[[ev1 s1]|]|] eqn:E1; try discriminate; injection H as <- <-.
      + destruct (IH _ _ _ _ E1) as [P N]. split; [exact P|discriminate].
      + split; [exists []; reflexivity|discriminate].
    - destruct (frun G f e s) as [[[ev1 s1]|]|] eqn:E1; try discriminate; injection H as <- <-.
      split; [exists []; reflexivity|discriminate].
    - destruct (frun G f e s) as [[[ev1 s1]|]|] eqn:E1; try discriminate; injection H as <- <-.
      exact (IH _ _ _ _ E1).
    - injection H as <- <-. split; [exists []; reflexivity|discriminate].
    - destruct (IH _ _ _ _ H) as [P N]. split; [exact P|].
      intro Hn. apply N. destruct (nullable (G r)) eqn:E; [|reflexivity].
      now rewrite (nl_ok _ E) in Hn.
    - rewrite orb_false_iff. destruct s as [|x t].
      + destruct (IH _ _ _ _ H) as [P N]. split; [exact P|tauto].
      + destruct (mem x cs); destruct (IH _ _ _ _ H) as [P N]; (split; [exact P|tauto]).
  Qed.

  (** Termination: [ld e] bounds the nesting reached before the first rune is
      consumed; [drk r] is its value for rules. *)
  Variable drk : rule -> nat.
  Fixpoint ld (e : pexp) : nat :=
    match e with
    | PChar _ | PRange _ _ | PDot | PAct _ => 1
    | PSeq a b => S (Nat.max (ld a) (if nullable a then ld b else 0))
    | PAlt a b => S (Nat.max (ld a) (ld b))
    | PStar a | POpt a | PNot a | PCap a => S (ld a)
    | PRule r => S (drk r)
    | PSw _ a d => S (Nat.max (ld a) (ld d))
    end.

  Variable D : nat.
  (** every sub-expression has [ld] at most [D]; loop bodies consume *)
  Fixpoint wfp (e : pexp) : bool :=
    Nat.leb (ld e) D &&
    match e with
    | PChar _ | PRange _ _ | PDot | PAct _ | PRule _ => true
    | PSeq a b | PAlt a b | PSw _ a b => wfp a && wfp b
    | PStar a => negb (nullable a) && wfp a
    | POpt a | PNot a | PCap a => wfp a
    end.

  Hypothesis drk_ok : forall r, ld (G r) <= drk r.
  Hypothesis G_wf : forall r, wfp (G r) = true.

  Lemma wfp_ld : forall e, wfp e = true -> ld e <= D.
  Proof.
    intros e H. destruct e; cbn [wfp] in H; apply andb_true_iff in H; destruct H as [H _];
      apply Nat.leb_le; exact H.
  Qed.

  Lemma frun_total : forall f e s,
    wfp e = true -> length s * D + ld e <= f -> frun G f e s <> None.
  Proof.
    induction f as [|f IH]; intros e s Hw Hf.
    { exfalso. destruct e; cbn [ld] in Hf; lia. }
    pose proof (wfp_ld _ Hw) as HD.
    destruct e; cbn [frun]; cbn [wfp] in Hw; cbn [ld] in Hf, HD;
      apply andb_true_iff in Hw; destruct Hw as [_ Hw].
    - discriminate.
    - discriminate.
    - discriminate.
    - apply andb_true_iff in Hw; destruct Hw as [Wa Wb].
      assert (Ha : frun G f e1 s <> None) by (apply IH; [exact Wa|lia]).
      destruct (frun G f e1 s) as [[[ev1 s1]|]|] eqn:E1; try congruence.
      assert (Hb : frun G f e2 s1 <> None).
      { apply IH; [exact Wb|]. pose proof (wfp_ld _ Wb) as Db.
        destruct (frun_consumes _ _ _ _ _ E1) as [[p ->] N].
        rewrite app_length in *. destruct (nullable e1).
        - assert (length s1 * D <= (length p + length s1) * D)
            by (apply Nat.mul_le_mono_r; lia). lia.
        - specialize (N eq_refl).
          assert (S (length s1) * D <= (length p + length s1) * D)
            by (apply Nat.mul_le_mono_r; lia). lia. }
      destruct (frun G f e2 s1) as [[[ev2 s2]|]|]; congruence.
    - apply andb_true_iff in Hw; destruct Hw as [Wa Wb].
      assert (Ha : frun G f e1 s <> None) by (apply IH; [exact Wa|lia]).
      destruct (frun G f e1 s) as [[[ev1 s1]|]|] eqn:E1; try congruence.
      apply IH; [exact Wb|lia].
    - apply andb_true_iff in Hw; destruct Hw as [Wn Wa]. apply negb_true_iff in Wn.
      assert (Ha : frun G f e s <> None) by (apply IH; [exact Wa|lia]).
      destruct (frun G f e s) as [[[ev1 s1]|]|] eqn:E1; try congruence.
      assert (Hb : frun G f (PStar e) s1 <> None).
      { destruct (frun_consumes _ _ _ _ _ E1) as [[p ->] N]. specialize (N Wn).
        apply IH.
        - cbn [wfp]. rewrite Wn, Wa. cbn [ld]. rewrite (proj2 (Nat.leb_le _ _) HD). reflexivity.
        - cbn [ld]. rewrite app_length in *.
          assert (S (length s1) * D <= (length p + length s1) * D)
            by (apply Nat.mul_le_mono_r; lia). lia. }
      destruct (frun G f (PStar e) s1) as [[[ev2 s2]|]|]; congruence.
    - assert (Ha : frun G f e s <> None) by (apply IH; [exact Hw|lia]).
      destruct (frun G f e s) as [[[ev1 s1]|]|]; congruence.
    - assert (Ha : frun G f e s <> None) by (apply IH; [exact Hw|lia]).
      destruct (frun G f e s) as [[[ev1 s1]|]|]; congruence.
    - assert (Ha : frun G f e s <> None) by (apply IH; [exact Hw|lia]).
      destruct (frun G f e s) as [[[ev1 s1]|]|]; congruence.
    - discriminate.
    - apply IH; [apply G_wf|]. specialize (drk_ok r). lia.
    - apply andb_true_iff in Hw; destruct Hw as [Wa Wb].
      destruct s as [|x t]; [apply IH; [exact Wb|lia]|].
      destruct (mem x cs); apply IH; auto; lia.
  Qed.

  (** The total evaluator. *)
  Definition eval (e : pexp) (s : list N) : option (list event * list N) :=
    match frun G (S (length s) * D) e s with
    | Some r => r
    | None => None
    end.

  Lemma eval_frun : forall e s, wfp e = true ->
    frun G (S (length s) * D) e s = Some (eval e s).
  Proof.
    intros e s H. unfold eval.
    pose proof (frun_total (S (length s) * D) e s H) as T.
    pose proof (wfp_ld _ H).
    destruct (frun G (S (length s) * D) e s); [reflexivity|]. exfalso. apply T; [lia|reflexivity].
  Qed.

  Lemma frun_eval : forall f e s r, wfp e = true -> frun G f e s = Some r -> r = eval e s.
  Proof.
    intros f e s r Hw H. pose proof (eval_frun e s Hw) as H2.
    destruct (Nat.le_ge_cases f (S (length s) * D)) as [L|L].
    - rewrite (frun_mono _ _ _ _ _ H L) in H2. congruence.
    - rewrite (frun_mono _ _ _ _ _ H2 L) in H. congruence.
  Qed.

  Lemma eval_suffix : forall e s ev s', eval e s = Some (ev, s') -> exists p, s = p ++ s'.
  Proof.
    intros e s ev s' H. unfold eval in H.
    destruct (frun G (S (length s) * D) e s) as [[[? ?]|]|] eqn:E; try discriminate.
    injection H as <- <-. exact (proj1 (frun_consumes _ _ _ _ _ E)).
  Qed.

  Lemma eval_consumes : forall e s ev s', nullable e = false ->
    eval e s = Some (ev, s') -> length s' < length s.
  Proof.
    intros e s ev s' Hn H. unfold eval in H.
    destruct (frun G (S (length s) * D) e s) as [[[? ?]|]|] eqn:E; try discriminate.
    injection H as <- <-. exact (proj2 (frun_consumes _ _ _ _ _ E) Hn).
  Qed.

  (** A fuel that serves several sub-evaluations. *)
  Local Ltac sub H := cbn [wfp] in H; apply andb_true_iff in H; destruct H as [_ H];
    repeat (let H' := fresh in apply andb_true_iff in H; destruct H as [H H']).

  Lemma eval_by : forall e s r f, wfp e = true -> frun G (S f) e s = Some r -> eval e s = r.
  Proof. intros. symmetry. eapply frun_eval; eauto. Qed.

  Lemma eval_char : forall c s, wfp (PChar c) = true ->
    eval (PChar c) s = match s with x :: t => if (x =? c)%N then Some ([], t) else None | [] => None end.
  Proof. intros. apply (eval_by _ _ _ 0); auto. Qed.
  Lemma eval_range : forall lo hi s, wfp (PRange lo hi) = true ->
    eval (PRange lo hi) s = match s with
      | x :: t => if (x <? lo)%N || (hi <? x)%N then None else Some ([], t) | [] => None end.
  Proof. intros. apply (eval_by _ _ _ 0); auto. Qed.
  Lemma eval_dot : forall s, wfp PDot = true ->
    eval PDot s = match s with x :: t => Some ([], t) | [] => None end.
  Proof. intros. apply (eval_by _ _ _ 0); auto. Qed.
  Lemma eval_act : forall n s, wfp (PAct n) = true -> eval (PAct n) s = Some ([EAct n], s).
  Proof. intros. apply (eval_by _ _ _ 0); auto. Qed.

  Lemma frun_big : forall e s f, wfp e = true -> S (length s) * D <= f ->
    frun G f e s = Some (eval e s).
  Proof. intros. eapply frun_mono; [apply eval_frun; assumption|assumption]. Qed.

  Lemma frun_big_le : forall e s p f, wfp e = true -> S (length (p ++ s)) * D <= f ->
    frun G f e s = Some (eval e s).
  Proof.
    intros. apply frun_big; auto. rewrite app_length in *.
    assert (S (length s) * D <= S (length p + length s) * D) by (apply Nat.mul_le_mono_r; lia).
    lia.
  Qed.

  Lemma eval_seq : forall a b s, wfp (PSeq a b) = true ->
    eval (PSeq a b) s =
      match eval a s with
      | Some (e1, s1) => match eval b s1 with
                         | Some (e2, s2) => Some (e1 ++ e2, s2)
                         | None => None end
      | None => None
      end.
  Proof.
    intros a b s H. apply (eval_by _ _ _ (S (length s) * D)); [exact H|].
    cbn [wfp] in H. apply andb_true_iff in H; destruct H as [_ H];
      apply andb_true_iff in H; destruct H as [Ha Hb].
    cbn [frun]. rewrite (frun_big a s) by auto.
    destruct (eval a s) as [[e1 s1]|] eqn:E; [|reflexivity].
    destruct (eval_suffix _ _ _ _ E) as [p ->].
    rewrite (frun_big_le b s1 p) by auto. destruct (eval b s1) as [[? ?]|]; reflexivity.
  Qed.

  Lemma eval_alt : forall a b s, wfp (PAlt a b) = true ->
    eval (PAlt a b) s = match eval a s with Some r => Some r | None => eval b s end.
  Proof.
    intros a b s H. apply (eval_by _ _ _ (S (length s) * D)); [exact H|].
    cbn [wfp] in H. apply andb_true_iff in H; destruct H as [_ H];
      apply andb_true_iff in H; destruct H as [Ha Hb].
    cbn [frun]. rewrite (frun_big a s), (frun_big b s) by auto.
    destruct (eval a s) as [[e1 s1]|] eqn:E; reflexivity.
  Qed.

  Lemma eval_star : forall a s, wfp (PStar a) = true ->
    eval (PStar a) s =
      match eval a s with
      | Some (e1, s1) => match eval (PStar a) s1 with
                         | Some (e2, s2) => Some (e1 ++ e2, s2)
                         | None => None end
      | None => Some ([], s)
      end.
  Proof.
    intros a s H. apply (eval_by _ _ _ (S (length s) * D)); [exact H|].
    assert (H0 := H).
    cbn [wfp] in H. apply andb_true_iff in H; destruct H as [_ H];
      apply andb_true_iff in H; destruct H as [Hn Ha].
    cbn [frun]. rewrite (frun_big a s) by auto.
    destruct (eval a s) as [[e1 s1]|] eqn:E; [|reflexivity].
    destruct (eval_suffix _ _ _ _ E) as [p ->].
    rewrite (frun_big_le (PStar a) s1 p) by auto.
    destruct (eval (PStar a) s1) as [[? ?]|]; reflexivity.
  Qed.

  Lemma eval_star_some : forall a s, wfp (PStar a) = true -> eval (PStar a) s <> None.
  Proof.
    intros a s H. remember (length s) as n eqn:Hl.
    revert s Hl. induction n as [n IH] using lt_wf_ind. intros s Hl.
    rewrite (eval_star _ _ H). destruct (eval a s) as [[e1 s1]|] eqn:E; [|discriminate].
    assert (length s1 < length s).
    { eapply eval_consumes; [|exact E]. cbn [wfp] in H.
      apply andb_true_iff in H; destruct H as [_ H];
      apply andb_true_iff in H; destruct H as [Hn Ha]. now apply negb_true_iff. }
    specialize (IH (length s1) ltac:(lia) s1 eq_refl).
    destruct (eval (PStar a) s1) as [[? ?]|]; congruence.
  Qed.

  Lemma eval_opt : forall a s, wfp (POpt a) = true ->
    eval (POpt a) s = match eval a s with Some r => Some r | None => Some ([], s) end.
  Proof.
    intros a s H. apply (eval_by _ _ _ (S (length s) * D)); [exact H|].
    cbn [wfp] in H. apply andb_true_iff in H; destruct H as [_ H].
    cbn [frun]. rewrite (frun_big a s) by auto.
    destruct (eval a s) as [[e1 s1]|] eqn:E; reflexivity.
  Qed.

  Lemma eval_not : forall a s, wfp (PNot a) = true ->
    eval (PNot a) s = match eval a s with Some _ => None | None => Some ([], s) end.
  Proof.
    intros a s H. apply (eval_by _ _ _ (S (length s) * D)); [exact H|].
    cbn [wfp] in H. apply andb_true_iff in H; destruct H as [_ H].
    cbn [frun]. rewrite (frun_big a s) by auto.
    destruct (eval a s) as [[e1 s1]|] eqn:E; reflexivity.
  Qed.

  Lemma eval_cap : forall a s, wfp (PCap a) = true ->
    eval (PCap a) s = match eval a s with
      | Some (e1, s1) => Some (e1 ++ [EText (consumed s s1)], s1) | None => None end.
  Proof.
    intros a s H. apply (eval_by _ _ _ (S (length s) * D)); [exact H|].
    cbn [wfp] in H. apply andb_true_iff in H; destruct H as [_ H].
    cbn [frun]. rewrite (frun_big a s) by auto.
    destruct (eval a s) as [[e1 s1]|] eqn:E; reflexivity.
  Qed.

  Lemma eval_rule : forall r s, wfp (PRule r) = true -> eval (PRule r) s = eval (G r) s.
  Proof.
    intros r s H. apply (eval_by _ _ _ (S (length s) * D)); [exact H|].
    cbn [frun]. apply frun_big; [apply G_wf|auto].
  Qed.

  Lemma eval_sw : forall cs a d s, wfp (PSw cs a d) = true ->
    eval (PSw cs a d) s =
      match s with
      | x :: _ => if mem x cs then eval a s else eval d s
      | [] => eval d s
      end.
  Proof.
    intros cs a d s H. apply (eval_by _ _ _ (S (length s) * D)); [exact H|].
    cbn [wfp] in H. apply andb_true_iff in H; destruct H as [_ H];
      apply andb_true_iff in H; destruct H as [Ha Hb].
    cbn [frun]. rewrite (frun_big a s), (frun_big d s) by auto.
    destruct s as [|x t]; [reflexivity|destruct (mem x cs); reflexivity].
  Qed.

  Lemma consumed_app : forall p s, consumed (p ++ s) s = p.
  Proof.
    intros p s. unfold consumed. rewrite app_length.
    replace (length p + length s - length s) with (length p) by lia.
    rewrite firstn_app, Nat.sub_diag. cbn. rewrite firstn_all, app_nil_r. reflexivity.
  Qed.
End Fun.
