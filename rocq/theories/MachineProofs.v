(** The generated parser's machine (in-place token array, backtracking by
    resetting two indices) refines the functional semantics, for every grammar. *)
From Verif Require Import Base Peg PegProofs.
Require Import Arith.

(** [e] never mentions the end symbol. *)
Fixpoint pok (e : pexp) : bool :=
  match e with
  | PChar c => (c <? endSymbol)%N
  | PRange _ hi => (hi <? endSymbol)%N
  | PDot | PAct _ | PRule _ => true
  | PSeq a b | PAlt a b => pok a && pok b
  | PStar a | POpt a | PNot a | PCap a => pok a
  | PSw cs a d => forallb (fun c => (c <? endSymbol)%N) cs && pok a && pok d
  end.

Definition slice (l : list N) (b e : nat) : list N := firstn (e - b) (skipn b l).

Definition tok_events (q : list N) (t : token) : list event :=
  match trule t with
  | TRule _ => []
  | TPegText => [EText (slice q (tbegin t) (tend t))]
  | TAct n => [EAct n]
  end.
Definition toks_events (q : list N) (l : list token) : list event := flat_map (tok_events q) l.

Lemma set_nth_length : forall l i x, length (set_nth i x l) = length l.
Proof. induction l as [|y l IH]; destruct i; cbn; intros; auto. Qed.

Lemma set_nth_firstn : forall l i x k, k <= i -> firstn k (set_nth i x l) = firstn k l.
Proof.
  induction l as [|y l IH]; destruct i; destruct k; cbn; intros; auto; try lia.
  f_equal. apply IH. lia.
Qed.

Lemma set_nth_firstn_S : forall l i x, i < length l ->
  firstn (S i) (set_nth i x l) = firstn i l ++ [x].
Proof.
  induction l as [|y l IH]; intros i x H; cbn in H; [lia|].
  destruct i as [|i].
  - reflexivity.
  - cbn [set_nth]. rewrite firstn_cons. rewrite IH by lia. reflexivity.
Qed.

Lemma set_nth_Forall : forall (P : token -> Prop) l i x, P x -> Forall P l -> Forall P (set_nth i x l).
Proof.
  induction l as [|y l IH]; destruct i; cbn; intros; auto;
    match goal with H : Forall _ (_ :: _) |- _ => inversion H; subst end; constructor; auto.
Qed.

Lemma tokens_add_length : forall l x i, i <= length l -> S i <= length (tokens_add l x i).
Proof.
  intros l x i H. unfold tokens_add. destruct (Nat.leb_spec (length l) i).
  - rewrite app_length. cbn. lia.
  - rewrite set_nth_length. lia.
Qed.

Lemma tokens_add_firstn : forall l x i k, k <= i -> i <= length l ->
  firstn k (tokens_add l x i) = firstn k l.
Proof.
  intros l x i k H H2. unfold tokens_add. destruct (Nat.leb_spec (length l) i).
  - rewrite firstn_app. replace (k - length l) with 0 by lia. cbn. now rewrite app_nil_r.
  - apply set_nth_firstn; lia.
Qed.

Lemma tokens_add_firstn_S : forall l x i, i <= length l ->
  firstn (S i) (tokens_add l x i) = firstn i l ++ [x].
Proof.
  intros l x i H. unfold tokens_add. destruct (Nat.leb_spec (length l) i).
  - assert (i = length l) as -> by lia. rewrite firstn_all.
    rewrite firstn_all2; [reflexivity|]. rewrite app_length. cbn. lia.
  - apply set_nth_firstn_S; lia.
Qed.

Lemma tokens_add_Forall : forall (P : token -> Prop) l x i, P x -> Forall P l -> Forall P (tokens_add l x i).
Proof.
  intros P l x i Hx Hl. unfold tokens_add. destruct (Nat.leb (length l) i).
  - apply Forall_app; auto.
  - now apply set_nth_Forall.
Qed.

Section Refine.
  Variable G : rule -> pexp.
  Variable q : list N.
  Hypothesis q_valid : valid_runes q.
  Hypothesis G_ok : forall r, pok (G r) = true.

  Let buf := q ++ [endSymbol].

  Definition tok_in (t : token) : Prop := tbegin t <= tend t <= length q.

  Definition minv (s : mstate) : Prop :=
    mpos s <= length q /\ mtidx s <= length (mtree s) /\
    Forall tok_in (mtree s) /\ tok_in (mmax s) /\
    Forall (fun t => tbegin t < tend t -> tend t <= tend (mmax s)) (mtree s).

  (** [s'] extends [s]: the logical token prefix of [s] is intact. *)
  Definition mext (s s' : mstate) : Prop :=
    mpos s <= mpos s' /\ mtidx s <= mtidx s' /\
    firstn (mtidx s) (mtree s') = firstn (mtidx s) (mtree s).

  Definition new_toks (s s' : mstate) : list token :=
    skipn (mtidx s) (firstn (mtidx s') (mtree s')).

  Lemma mext_refl : forall s, mext s s.
  Proof. intros s. repeat split; lia. Qed.

  Lemma firstn_weaken : forall {A} (a b : list A) k k', k <= k' ->
    firstn k' a = firstn k' b -> firstn k a = firstn k b.
  Proof.
    intros A a b k k' H E. rewrite <- (Nat.min_l k k' H).
    rewrite <- !firstn_firstn. now rewrite E.
  Qed.

  Lemma mext_trans : forall a b c, mext a b -> mext b c -> mext a c.
  Proof.
    intros a b c (P1 & T1 & F1) (P2 & T2 & F2). repeat split; try lia.
    rewrite <- F1. eapply firstn_weaken; eauto.
  Qed.

  Lemma new_toks_refl : forall s, new_toks s s = [].
  Proof.
    intros s. unfold new_toks. apply skipn_all2. rewrite firstn_length. lia.
  Qed.

  Lemma skipn_firstn_split : forall {A} (l : list A) i j k, i <= j -> j <= k ->
    skipn i (firstn k l) = skipn i (firstn j l) ++ skipn j (firstn k l).
  Proof.
    induction l as [|x l IH]; intros i j k H1 H2.
    - rewrite !firstn_nil, !skipn_nil. reflexivity.
    - destruct k as [|k]. { assert (i = 0) by lia; assert (j = 0) by lia; subst; reflexivity. }
      destruct j as [|j]. { assert (i = 0) by lia; subst. reflexivity. }
      destruct i as [|i].
      + cbn. f_equal. specialize (IH 0 j k). cbn in IH. apply IH; lia.
      + cbn. apply IH; lia.
  Qed.

  Lemma new_toks_trans : forall a b c, mext a b -> mext b c ->
    new_toks a c = new_toks a b ++ new_toks b c.
  Proof.
    intros a b c (P1 & T1 & F1) (P2 & T2 & F2). unfold new_toks.
    rewrite (skipn_firstn_split (mtree c) (mtidx a) (mtidx b) (mtidx c)) by lia.
    f_equal. now rewrite F2.
  Qed.

  Lemma nth_buf : forall p, p <= length q ->
    nth_error buf p = Some (match skipn p q with x :: _ => x | [] => endSymbol end).
  Proof.
    intros p H. unfold buf. destruct (Nat.eq_dec p (length q)) as [->|Hn].
    - rewrite skipn_all. rewrite nth_error_app2 by lia. now rewrite Nat.sub_diag.
    - rewrite nth_error_app1 by lia.
      clear - H Hn. revert p H Hn. induction q as [|x l IH]; intros p H Hn; cbn in *; [lia|].
      destruct p; [reflexivity|]. apply IH; lia.
  Qed.

  Lemma skipn_S_tl : forall p x t, skipn p q = x :: t -> skipn (S p) q = t /\ p < length q /\ (x < endSymbol)%N.
  Proof.
    intros p x t H. revert p H. induction q_valid as [|y l Hy Hl IH]; intros p H.
    - rewrite skipn_nil in H. discriminate.
    - destruct p as [|p]; cbn in H.
      + injection H as -> ->. cbn. repeat split; auto. lia.
      + destruct (IH Hl p H) as (A & B & C). cbn. repeat split; auto. lia.
  Qed.

  Lemma skipn_len : forall p, p <= length q -> length (skipn p q) = length q - p.
  Proof. intros p H. apply skipn_length. Qed.

  Lemma consumed_slice : forall p p', p <= p' -> p' <= length q ->
    consumed (skipn p q) (skipn p' q) = slice q p p'.
  Proof.
    intros p p' H1 H2. unfold consumed, slice. rewrite !skipn_length. f_equal. lia.
  Qed.

  Lemma minv_madv : forall s x t, minv s -> skipn (mpos s) q = x :: t ->
    minv (madv s) /\ mext s (madv s) /\ skipn (mpos (madv s)) q = t /\ new_toks s (madv s) = [].
  Proof.
    intros s x t (I1 & I2 & I3 & I4 & I5) H. destruct (skipn_S_tl _ _ _ H) as (A & B & C).
    repeat split; cbn; auto; try lia; try apply I4.
    unfold new_toks. cbn. apply skipn_all2. rewrite firstn_length. lia.
  Qed.

  Lemma minv_restore : forall s s', minv s -> minv s' -> mext s s' -> minv (mrestore s s').
  Proof.
    intros s s' (I1 & I2 & I3 & I4 & I5) (J1 & J2 & J3 & J4 & J5) (E1 & E2 & E3).
    repeat split; cbn; auto; try lia; try apply J4.
  Qed.

  Lemma mext_restore : forall s s', mext s s' -> mext s (mrestore s s').
  Proof. intros s s' (E1 & E2 & E3). repeat split; cbn; auto. Qed.

  Lemma new_toks_restore : forall s s', new_toks s (mrestore s s') = [].
  Proof.
    intros. unfold new_toks. cbn. apply skipn_all2. rewrite firstn_length. lia.
  Qed.

  Lemma madd_ok : forall r s s', minv s -> minv s' -> mext s s' ->
    let s'' := madd r (mpos s) s' in
    minv s'' /\ mext s s'' /\ mpos s'' = mpos s' /\
    new_toks s s'' = new_toks s s' ++ [Tok r (mpos s) (mpos s')].
  Proof.
    intros r s s' (I1 & I2 & I3 & I4 & I5) (J1 & J2 & J3 & J4 & J5) (E1 & E2 & E3) s''.
    set (t := Tok r (mpos s) (mpos s')).
    assert (Ht : tok_in t) by (unfold tok_in; cbn; lia).
    assert (Hmax : tend (mmax s') <= tend (mmax s'') /\ (tbegin t < tend t -> tend t <= tend (mmax s''))
                   /\ tok_in (mmax s'')).
    { unfold s'', madd; cbn [mmax].
      destruct (Nat.eqb_spec (mpos s) (mpos s')) as [Hq|Hq]; cbn [negb andb].
      - unfold tok_in, t in *; cbn in *; lia.
      - destruct (Nat.ltb_spec (tend (mmax s')) (mpos s')); unfold tok_in, t in *; cbn in *; lia. }
    destruct Hmax as (M1 & M2 & M3).
    split; [|split; [|split]].
    - split; [|split; [|split; [|split]]].
      + cbn. lia.
      + cbn. apply tokens_add_length. lia.
      + cbn. apply tokens_add_Forall; auto.
      + exact M3.
      + unfold s'' at 2. cbn [mtree madd]. apply tokens_add_Forall; [exact M2|].
        eapply Forall_impl; [|exact J5]. cbv beta. intros a Ha Hlt. specialize (Ha Hlt). lia.
    - repeat split; cbn; try lia. rewrite tokens_add_firstn by lia. exact E3.
    - reflexivity.
    - unfold new_toks. cbn [mtidx mtree s'' madd]. rewrite tokens_add_firstn_S by lia.
      rewrite skipn_app. f_equal. rewrite firstn_length.
      replace (mtidx s - Nat.min (mtidx s') (length (mtree s'))) with 0 by lia. reflexivity.
  Qed.

  Lemma toks_events_app : forall a b, toks_events q (a ++ b) = toks_events q a ++ toks_events q b.
  Proof. intros. unfold toks_events. apply flat_map_app. Qed.

  Definition simulates (fr : fres) (mr : mres) (s : mstate) : Prop :=
    match fr with
    | None => mr = MFuel
    | Some None => exists s', mr = MR false s' /\ minv s' /\ mext s s'
    | Some (Some (ev, rest)) =>
        exists s', mr = MR true s' /\ minv s' /\ mext s s' /\
          skipn (mpos s') q = rest /\ toks_events q (new_toks s s') = ev
    end.

  Theorem mrun_frun : forall f e s, pok e = true -> minv s ->
    simulates (frun G f e (skipn (mpos s) q)) (mrun G buf f e s) s.
  Proof.
    induction f as [|f IH]; intros e s Hok Hinv; [reflexivity|].
    pose proof (proj1 Hinv) as Hpos.
    assert (Hstay : simulates (Some (Some ([], skipn (mpos s) q))) (MR true s) s).
    { exists s. repeat split; auto; try apply Hinv; try apply mext_refl.
      rewrite new_toks_refl. reflexivity. }
    assert (Hfail : simulates (Some None) (MR false s) s).
    { exists s. repeat split; auto; try apply Hinv; try apply mext_refl. }
    destruct e; cbn [frun mrun pok] in *.
    - rewrite nth_buf by auto. destruct (skipn (mpos s) q) as [|x t] eqn:Es.
      + apply N.ltb_lt in Hok. destruct (N.eqb_spec endSymbol c); [lia|]. exact Hfail.
      + destruct (x =? c)%N; [|exact Hfail].
        destruct (minv_madv _ _ _ Hinv Es) as (A & B & C & D).
        exists (madv s). repeat split; auto; try apply A; try apply B. rewrite D. reflexivity.
    - rewrite nth_buf by auto. destruct (skipn (mpos s) q) as [|x t] eqn:Es.
      + apply N.ltb_lt in Hok. destruct (N.ltb_spec hi endSymbol); [|lia].
        rewrite orb_true_r. exact Hfail.
      + destruct ((x <? lo)%N || (hi <? x)%N); [exact Hfail|].
        destruct (minv_madv _ _ _ Hinv Es) as (A & B & C & D).
        exists (madv s). repeat split; auto; try apply A; try apply B. rewrite D. reflexivity.
    - rewrite nth_buf by auto. destruct (skipn (mpos s) q) as [|x t] eqn:Es.
      + rewrite N.eqb_refl. exact Hfail.
      + destruct (skipn_S_tl _ _ _ Es) as (_ & _ & Hx).
        destruct (N.eqb_spec x endSymbol); [lia|].
        destruct (minv_madv _ _ _ Hinv Es) as (A & B & C & D).
        exists (madv s). repeat split; auto; try apply A; try apply B. rewrite D. reflexivity.
    - (* seq *)
      apply andb_true_iff in Hok; destruct Hok as [Ha Hb].
      pose proof (IH e1 s Ha Hinv) as S1. unfold simulates in S1.
      destruct (frun G f e1 (skipn (mpos s) q)) as [[[ev1 r1]|]|].
      + destruct S1 as (s1 & -> & I1 & X1 & <- & V1).
        pose proof (IH e2 s1 Hb I1) as S2. unfold simulates in S2.
        destruct (frun G f e2 (skipn (mpos s1) q)) as [[[ev2 r2]|]|].
        * destruct S2 as (s2 & -> & I2 & X2 & <- & V2).
          exists s2. split; [reflexivity|]. split; [exact I2|].
          split; [eapply mext_trans; eauto|]. split; [reflexivity|].
          rewrite (new_toks_trans _ _ _ X1 X2), toks_events_app. congruence.
        * destruct S2 as (s2 & -> & I2 & X2).
          exists s2. split; [reflexivity|]. split; [exact I2|]. eapply mext_trans; eauto.
        * rewrite S2. reflexivity.
      + destruct S1 as (s1 & -> & I1 & X1). exists s1; auto.
      + rewrite S1. reflexivity.
    - (* alt *)
      apply andb_true_iff in Hok; destruct Hok as [Ha Hb].
      pose proof (IH e1 s Ha Hinv) as S1. unfold simulates in S1.
      destruct (frun G f e1 (skipn (mpos s) q)) as [[[ev1 r1]|]|].
      + destruct S1 as (s1 & -> & S1). exists s1. split; [reflexivity|exact S1].
      + destruct S1 as (s1 & -> & I1 & X1).
        pose proof (IH e2 (mrestore s s1) Hb (minv_restore _ _ Hinv I1 X1)) as S2.
        cbn [mpos mrestore] in S2. unfold simulates in *.
        pose proof (mext_restore _ _ X1) as Xr.
        destruct (frun G f e2 (skipn (mpos s) q)) as [[[ev2 r2]|]|].
        * destruct S2 as (s2 & E2 & I2 & X2 & <- & V2). rewrite E2.
          exists s2. split; [reflexivity|]. split; [exact I2|].
          split; [eapply mext_trans; eauto|]. split; [reflexivity|].
          rewrite (new_toks_trans _ _ _ Xr X2), toks_events_app, new_toks_restore. exact V2.
        * destruct S2 as (s2 & E2 & I2 & X2). rewrite E2.
          exists s2. split; [reflexivity|]. split; [exact I2|]. eapply mext_trans; eauto.
        * exact S2.
      + rewrite S1. reflexivity.
    - (* star *)
      pose proof (IH e s Hok Hinv) as S1. unfold simulates in S1.
      destruct (frun G f e (skipn (mpos s) q)) as [[[ev1 r1]|]|].
      + destruct S1 as (s1 & -> & I1 & X1 & <- & V1).
        pose proof (IH (PStar e) s1 Hok I1) as S2. unfold simulates in S2.
        destruct (frun G f (PStar e) (skipn (mpos s1) q)) as [[[ev2 r2]|]|].
        * destruct S2 as (s2 & -> & I2 & X2 & <- & V2).
          exists s2. split; [reflexivity|]. split; [exact I2|].
          split; [eapply mext_trans; eauto|]. split; [reflexivity|].
          rewrite (new_toks_trans _ _ _ X1 X2), toks_events_app. congruence.
        * destruct S2 as (s2 & -> & I2 & X2).
          exists s2. split; [reflexivity|]. split; [exact I2|]. eapply mext_trans; eauto.
        * rewrite S2. reflexivity.
      + destruct S1 as (s1 & -> & I1 & X1). exists (mrestore s s1).
        split; [reflexivity|]. split; [now apply minv_restore|]. split; [now apply mext_restore|].
        split; [reflexivity|]. rewrite new_toks_restore. reflexivity.
      + rewrite S1. reflexivity.
    - (* opt *)
      pose proof (IH e s Hok Hinv) as S1. unfold simulates in S1.
      destruct (frun G f e (skipn (mpos s) q)) as [[[ev1 r1]|]|].
      + destruct S1 as (s1 & -> & S1). exists s1. split; [reflexivity|exact S1].
      + destruct S1 as (s1 & -> & I1 & X1). exists (mrestore s s1).
        split; [reflexivity|]. split; [now apply minv_restore|]. split; [now apply mext_restore|].
        split; [reflexivity|]. rewrite new_toks_restore. reflexivity.
      + rewrite S1. reflexivity.
    - (* not *)
      pose proof (IH e s Hok Hinv) as S1. unfold simulates in S1.
      destruct (frun G f e (skipn (mpos s) q)) as [[[ev1 r1]|]|].
      + destruct S1 as (s1 & -> & I1 & X1 & _). exists s1. auto.
      + destruct S1 as (s1 & -> & I1 & X1). exists (mrestore s s1).
        split; [reflexivity|]. split; [now apply minv_restore|]. split; [now apply mext_restore|].
        split; [reflexivity|]. rewrite new_toks_restore. reflexivity.
      + rewrite S1. reflexivity.
    - (* cap *)
      pose proof (IH e s Hok Hinv) as S1. unfold simulates in S1.
      destruct (frun G f e (skipn (mpos s) q)) as [[[ev1 r1]|]|].
      + destruct S1 as (s1 & -> & I1 & X1 & <- & V1).
        destruct (madd_ok TPegText s s1 Hinv I1 X1) as (A & B & C & D).
        eexists. split; [reflexivity|]. split; [exact A|]. split; [exact B|].
        split; [now rewrite C|]. rewrite D, toks_events_app, V1. cbn [toks_events flat_map tok_events trule tbegin tend app].
        rewrite consumed_slice by (apply X1 || apply I1). reflexivity.
      + destruct S1 as (s1 & -> & I1 & X1). exists s1; auto.
      + rewrite S1. reflexivity.
    - (* act *)
      destruct (madd_ok (TAct n) s s Hinv Hinv (mext_refl s)) as (A & B & C & D).
      eexists. split; [reflexivity|]. split; [exact A|]. split; [exact B|].
      split; [now rewrite C|]. rewrite D, new_toks_refl. reflexivity.
    - (* rule *)
      pose proof (IH (G r) s (G_ok r) Hinv) as S1. unfold simulates in S1.
      destruct (frun G f (G r) (skipn (mpos s) q)) as [[[ev1 r1]|]|].
      + destruct S1 as (s1 & -> & I1 & X1 & <- & V1).
        destruct (madd_ok (TRule r) s s1 Hinv I1 X1) as (A & B & C & D).
        eexists. split; [reflexivity|]. split; [exact A|]. split; [exact B|].
        split; [now rewrite C|]. rewrite D, toks_events_app, V1. cbn. apply app_nil_r.
      + destruct S1 as (s1 & -> & I1 & X1). exists (mrestore s s1).
        split; [reflexivity|]. split; [now apply minv_restore|]. now apply mext_restore.
      + rewrite S1. reflexivity.
    - (* switch *)
      apply andb_true_iff in Hok; destruct Hok as [Hok Hd].
      apply andb_true_iff in Hok; destruct Hok as [Hcs Ha].
      rewrite nth_buf by auto. pose proof (IH e1 s Ha Hinv) as S1. pose proof (IH e2 s Hd Hinv) as S2.
      destruct (skipn (mpos s) q) as [|x t] eqn:Es.
      + replace (mem endSymbol cs) with false; [exact S2|].
        symmetry. unfold mem. rewrite forallb_forall in Hcs.
        destruct (existsb (N.eqb endSymbol) cs) eqn:Eb; [|reflexivity].
        apply existsb_exists in Eb. destruct Eb as (c & Hc & Ee). apply N.eqb_eq in Ee. subst c.
        specialize (Hcs _ Hc). apply N.ltb_lt in Hcs. lia.
      + destruct (mem x cs); assumption.
  Qed.

  Lemma minv_init : minv (MState 0 0 [] tok0).
  Proof. repeat split; cbn; auto; lia. Qed.
End Refine.
