(** The token array of a run is linear in the query. *)
From Verif Require Import Base Peg Grammar Node Vocab Tree Parse.
Strategy expand [parse_machine].
Strategy 1000 [parse_fuel mrun].
Local Open Scope Z_scope.

(** Each rune pays for [A] tokens.  [bt e]: tokens a successful run of [e] adds
    beyond that (negative: it leaves credit); [pk e]: how far the array can grow
    beyond the credit of the whole rest during a run of [e]. *)
Section Static.
  Variable A : Z.
  Variables eb ep : rule -> Z.
  Fixpoint bt (e : pexp) : Z :=
    match e with
    | PChar _ | PRange _ _ | PDot => - A
    | PSeq a b => bt a + bt b
    | PAlt a b | PSw _ a b => Z.max (bt a) (bt b)
    | PStar _ | PNot _ => 0
    | POpt a => Z.max 0 (bt a)
    | PCap a => bt a + 1
    | PAct _ => 1
    | PRule r => eb r
    end.
  Fixpoint pk (e : pexp) : Z :=
    match e with
    | PChar _ | PRange _ _ | PDot => 0
    | PSeq a b => Z.max (pk a) (bt a + pk b)
    | PAlt a b | PSw _ a b => Z.max (pk a) (pk b)
    | PStar a | PNot a | POpt a => Z.max 0 (pk a)
    | PCap a => Z.max (pk a) (bt a + 1)
    | PAct _ => 1
    | PRule r => ep r
    end.
  Fixpoint stars (e : pexp) : bool :=
    match e with
    | PChar _ | PRange _ _ | PDot | PAct _ | PRule _ => true
    | PSeq a b | PAlt a b | PSw _ a b => stars a && stars b
    | PStar a => stars a && (bt a <=? 0)
    | PNot a | POpt a | PCap a => stars a
    end.
  Definition rule_ok (G : rule -> pexp) (r : rule) : bool :=
    stars (G r) && (bt (G r) + 1 <=? eb r) && (pk (G r) <=? ep r) && (bt (G r) + 1 <=? ep r).
End Static.

(** the tables: 17 tokens per rune *)
Definition eb17 (r : rule) : Z :=
  match r with
  | rGrammar => 0 | rExpression => -4 | rLogicExpression => -5 | rNotExpression => -6 | rCompareExpression => -7
  | rCompareInExpression => -8 | rPredicateExpression => -9 | rBetweenExpression => -10 | rPrimaryExpression => -11
  | rArgumentList => -29 | rArgument => -3 | rReference => -13 | rIdentifierReference => -42 | rJsonReference => -61
  | rIdentifier => -14 | rCompare => -12 | rLogic => -29 | rMatch => -111 | rValue => -12 | rArray => -29
  | rLiteral => -13 | rInteger => -14 | rBoolean => -65 | rNull => -65 | rString => -31 | rSpaceComment => -14
  | r_ => 1 | r__ => -13 | rComment => -49 | rSpace => -15 | rEndOfLine => -16 | rEndOfFile => 1
  end.
Definition ep17 (r : rule) : Z :=
  match r with
  | rGrammar => 2
  | rArgumentList | rJsonReference | rIdentifier | rMatch | rValue | rArray | rLiteral | rInteger | rBoolean | rNull
  | rString | rSpaceComment | r__ | rComment | rSpace | rEndOfLine => 0
  | _ => 1
  end.
Lemma tables_ok : forall r, rule_ok 17 eb17 ep17 Ggo r = true.
Proof. destruct r; vm_compute; reflexivity. Qed.

Lemma set_nth_length : forall x l i, length (set_nth i x l) = length l.
Proof. intros x. induction l as [|y l IH]; intros [|i]; cbn; auto. Qed.
Lemma madd_length : forall r b s M, Z.of_nat (length (mtree s)) <= M -> Z.of_nat (mtidx s) + 1 <= M ->
  Z.of_nat (length (mtree (madd r b s))) <= M.
Proof.
  intros r b s M H1 H2. unfold madd, tokens_add. cbn [mtree].
  destruct (Nat.leb_spec (length (mtree s)) (mtidx s)); [rewrite app_length; cbn [length]; lia|rewrite set_nth_length; lia].
Qed.

Section Run.
  Variable G : rule -> pexp.
  Variable buf : list N.
  Variable A : Z.
  Variables eb ep : rule -> Z.
  Hypothesis A0 : 0 <= A.
  Hypothesis HG : forall r, rule_ok A eb ep G r = true.
  (** tokens so far plus the credit of the runes to come *)
  Definition pot (s : mstate) : Z := Z.of_nat (mtidx s) + A * (Z.of_nat (length buf) - Z.of_nat (mpos s)).
  Definition low (s : mstate) : Prop := (mpos s <= length buf)%nat.
  Definition size (s : mstate) : Z := Z.of_nat (length (mtree s)).
  Lemma pot_idx : forall s, low s -> Z.of_nat (mtidx s) <= pot s.
  Proof. intros s H. unfold pot, low in *. nia. Qed.
  Lemma pot_madv : forall s, pot (madv s) = pot s - A.
  Proof. intros s. unfold pot, madv. cbn [mtidx mpos]. lia. Qed.
  Lemma pot_madd : forall r b s, pot (madd r b s) = pot s + 1.
  Proof. intros. unfold pot, madd. cbn [mtidx mpos]. lia. Qed.
  Lemma pot_restore : forall s s', pot (mrestore s s') = pot s.
  Proof. reflexivity. Qed.
  Lemma nth_low : forall s x, nth_error buf (mpos s) = Some x -> low (madv s).
  Proof. intros s x H. unfold low, madv. cbn [mpos]. apply nth_error_Some. congruence. Qed.

  Lemma run_tokens : forall f e s M, stars A eb e = true -> low s -> size s <= M -> pot s + pk A eb ep e <= M ->
    match mrun G buf f e s with
    | MR true s' => low s' /\ size s' <= M /\ pot s' <= pot s + bt A eb e
    | MR false s' => size s' <= M
    | _ => True
    end.
  Proof.
    induction f as [|f IH]; intros e s M Hst Hl Hsz Hp; [exact I|].
    pose proof (pot_idx s Hl) as Hi.
    destruct e; cbn [mrun stars bt pk] in *.
    - destruct (nth_error buf (mpos s)) eqn:E; [|exact I]. destruct (n =? c)%N; [|exact Hsz].
      split; [now apply (nth_low _ _ E)|]. rewrite pot_madv. split; [exact Hsz|lia].
    - destruct (nth_error buf (mpos s)) eqn:E; [|exact I]. destruct (_ || _)%bool; [exact Hsz|].
      split; [now apply (nth_low _ _ E)|]. rewrite pot_madv. split; [exact Hsz|lia].
    - destruct (nth_error buf (mpos s)) eqn:E; [|exact I]. destruct (_ =? _)%N; [exact Hsz|].
      split; [now apply (nth_low _ _ E)|]. rewrite pot_madv. split; [exact Hsz|lia].
    - apply andb_true_iff in Hst as [S1 S2]. specialize (IH e1 s M S1 Hl Hsz ltac:(lia)) as H1.
      destruct (mrun G buf f e1 s) as [| |[|] s1]; auto. destruct H1 as (L1 & Z1 & P1).
      specialize (IH e2 s1 M S2 L1 Z1 ltac:(lia)) as H2. destruct (mrun G buf f e2 s1) as [| |[|] s2]; auto.
      destruct H2 as (L2 & Z2 & P2). repeat split; auto. lia.
    - apply andb_true_iff in Hst as [S1 S2]. specialize (IH e1 s M S1 Hl Hsz ltac:(lia)) as H1.
      destruct (mrun G buf f e1 s) as [| |[|] s1]; auto. { destruct H1 as (L1 & Z1 & P1). repeat split; auto. lia. }
      specialize (IH e2 (mrestore s s1) M S2 Hl H1 ltac:(rewrite pot_restore; lia)) as H2. rewrite pot_restore in H2.
      destruct (mrun G buf f e2 (mrestore s s1)) as [| |[|] s2]; auto. destruct H2 as (L2 & Z2 & P2). repeat split; auto. lia.
    - pose proof Hst as Hst'. apply andb_true_iff in Hst as [S1 S2]. apply Z.leb_le in S2. specialize (IH e s M S1 Hl Hsz ltac:(lia)) as H1.
      destruct (mrun G buf f e s) as [| |[|] s1]; auto; [|repeat split; auto; rewrite pot_restore; lia]. destruct H1 as (L1 & Z1 & P1).
      specialize (IH (PStar e) s1 M Hst' L1 Z1 ltac:(cbn [pk]; lia)) as H2. cbn [bt] in H2. destruct (mrun G buf f (PStar e) s1) as [| |[|] s2]; auto.
      destruct H2 as (L2 & Z2 & P2). repeat split; auto. lia.
    - specialize (IH e s M Hst Hl Hsz ltac:(lia)) as H1. destruct (mrun G buf f e s) as [| |[|] s1]; auto.
      + destruct H1 as (L1 & Z1 & P1). repeat split; auto. lia.
      + repeat split; auto. rewrite pot_restore. lia.
    - specialize (IH e s M Hst Hl Hsz ltac:(lia)) as H1. destruct (mrun G buf f e s) as [| |[|] s1]; auto.
      + apply H1.
      + repeat split; auto. rewrite pot_restore. lia.
    - specialize (IH e s M Hst Hl Hsz ltac:(lia)) as H1. destruct (mrun G buf f e s) as [| |[|] s1]; auto.
      destruct H1 as (L1 & Z1 & P1). rewrite pot_madd. repeat split; auto; [|lia]. apply madd_length; [exact Z1|]. pose proof (pot_idx s1 L1). lia.
    - rewrite pot_madd. repeat split; auto; [|lia]. apply madd_length; [exact Hsz|]. lia.
    - specialize (HG r). unfold rule_ok in HG. rewrite !andb_true_iff in HG. destruct HG as [[[S1 S2] S3] S4]. apply Z.leb_le in S2, S3, S4.
      specialize (IH (G r) s M S1 Hl Hsz ltac:(lia)) as H1. destruct (mrun G buf f (G r) s) as [| |[|] s1]; auto.
      destruct H1 as (L1 & Z1 & P1). rewrite pot_madd. repeat split; auto; [|lia]. apply madd_length; [exact Z1|]. pose proof (pot_idx s1 L1). lia.
    - apply andb_true_iff in Hst as [S1 S2]. destruct (nth_error buf (mpos s)); [|exact I]. destruct (mem n cs).
      + specialize (IH e1 s M S1 Hl Hsz ltac:(lia)) as H1. destruct (mrun G buf f e1 s) as [| |[|] s1]; auto. destruct H1 as (L1 & Z1 & P1). repeat split; auto. lia.
      + specialize (IH e2 s M S2 Hl Hsz ltac:(lia)) as H1. destruct (mrun G buf f e2 s) as [| |[|] s1]; auto. destruct H1 as (L1 & Z1 & P1). repeat split; auto. lia.
  Qed.
End Run.

(** ** Parse *)
Local Open Scope nat_scope.
Lemma init_buffer_length : forall q, length (init_buffer q) <= length q + 1.
Proof. intros [|c q]; [reflexivity|]. unfold init_buffer. destruct (_ =? _)%N; [lia|rewrite app_length; cbn; lia]. Qed.

Lemma parse_tokens : forall q f b s, mrun Ggo (init_buffer q) f (PRule rGrammar) init_state = MR b s ->
  length (mtree s) <= 17 * length q + 19 /\ (b = true -> mtidx s <= 17 * mpos s).
Proof.
  intros q f b s H. pose proof (init_buffer_length q) as HL.
  pose proof (run_tokens Ggo (init_buffer q) 17 eb17 ep17 ltac:(lia) tables_ok f (PRule rGrammar) init_state
    (Z.of_nat (17 * length q + 19)) eq_refl) as HR. unfold low, size, pot in HR. cbn [init_state mpos mtidx mtree length pk bt eb17 ep17] in HR.
  specialize (HR ltac:(lia) ltac:(lia) ltac:(lia)). rewrite H in HR. destruct b.
  - destruct HR as (_ & H1 & H2). split; [lia|]. intros _. lia.
  - split; [lia|discriminate].
Qed.
