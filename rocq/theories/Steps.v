(** Work of the generated parser: the machine's step count as a relation, and a
    static analysis that bounds it for expressions without recursion. *)
From Verif Require Import Base Peg PegSpec StepSpec PegProofs MachineProofs PegSpecProofs Grammar Node Vocab Tree Parse GrammarProofs.
Require Import Arith.
Strategy expand [parse_machine].
Strategy 1000 [parse_fuel mrun].
Local Open Scope N_scope.

Definition len (s : list N) : N := N.of_nat (length s).
Lemma len_cons : forall x t, len (x :: t) = len t + 1.
Proof. intros. unfold len. cbn [length]. lia. Qed.
Lemma len_nil : len [] = 0.
Proof. reflexivity. Qed.

Section Takes.
  Variable G : rule -> pexp.
  (** [takes e s o k]: [e] on [s] gives [o] after [k] steps. *)
  Inductive takes : pexp -> list N -> option (list N) -> N -> Prop :=
  | t_char_ok : forall c t, takes (PChar c) (c :: t) (Some t) 1
  | t_char_no : forall c x t, x <> c -> takes (PChar c) (x :: t) None 1
  | t_char_nil : forall c, takes (PChar c) [] None 1
  | t_range_ok : forall lo hi x t, lo <= x <= hi -> takes (PRange lo hi) (x :: t) (Some t) 1
  | t_range_no : forall lo hi x t, ~ (lo <= x <= hi) -> takes (PRange lo hi) (x :: t) None 1
  | t_range_nil : forall lo hi, takes (PRange lo hi) [] None 1
  | t_dot_ok : forall x t, takes PDot (x :: t) (Some t) 1
  | t_dot_nil : takes PDot [] None 1
  | t_seq_ok : forall a b s k1 s1 k2 o, takes a s (Some s1) k1 -> takes b s1 o k2 -> takes (PSeq a b) s o (1 + (k1 + k2))
  | t_seq_no : forall a b s k, takes a s None k -> takes (PSeq a b) s None (1 + (k + 0))
  | t_alt_1 : forall a b s r k, takes a s (Some r) k -> takes (PAlt a b) s (Some r) (1 + (k + 0))
  | t_alt_2 : forall a b s o k1 k2, takes a s None k1 -> takes b s o k2 -> takes (PAlt a b) s o (1 + (k1 + k2))
  | t_star_0 : forall a s k, takes a s None k -> takes (PStar a) s (Some s) (1 + (k + 0))
  | t_star_1 : forall a s s1 o k1 k2, takes a s (Some s1) k1 -> takes (PStar a) s1 o k2 -> takes (PStar a) s o (1 + (k1 + k2))
  | t_opt_1 : forall a s r k, takes a s (Some r) k -> takes (POpt a) s (Some r) (1 + k)
  | t_opt_0 : forall a s k, takes a s None k -> takes (POpt a) s (Some s) (1 + k)
  | t_not_ok : forall a s k, takes a s None k -> takes (PNot a) s (Some s) (1 + k)
  | t_not_no : forall a s r k, takes a s (Some r) k -> takes (PNot a) s None (1 + k)
  | t_cap : forall a s o k, takes a s o k -> takes (PCap a) s o (1 + k)
  | t_act : forall n s, takes (PAct n) s (Some s) 1
  | t_rule : forall r s o k, takes (G r) s o k -> takes (PRule r) s o (1 + k)
  | t_sw_in : forall cs a d x t o k, mem x cs = true -> takes a (x :: t) o k -> takes (PSw cs a d) (x :: t) o (1 + k)
  | t_sw_out : forall cs a d x t o k, mem x cs = false -> takes d (x :: t) o k -> takes (PSw cs a d) (x :: t) o (1 + k)
  | t_sw_nil : forall cs a d o k, takes d [] o k -> takes (PSw cs a d) [] o (1 + k).

  Lemma star_some : forall a s o k, takes (PStar a) s o k -> exists r, o = Some r.
  Proof. intros a s o k H. remember (PStar a) as x eqn:Hx. revert a Hx. induction H; intros a0 Hx; try discriminate; eauto. Qed.
  Lemma takes_det : forall e s o k, takes e s o k -> forall o' k', takes e s o' k' -> o' = o /\ k' = k.
  Proof.
    intros e s o k H. induction H; intros o' k' H'; inversion H'; subst; try (split; reflexivity); try congruence; try lia;
      repeat match goal with
      | IH : forall o' k', takes ?e ?s o' k' -> o' = _ /\ k' = _, K : takes ?e ?s _ _ |- _ =>
          let E := fresh in destruct (IH _ _ K) as [E ?]; clear K; first [discriminate E | injection E as ?; subst | subst]
      end; try (split; reflexivity); try congruence; auto.
  Qed.

  (** ** Length *)
  Lemma takes_le : forall e s o k, takes e s o k -> match o with Some r => len r <= len s | None => True end.
  Proof.
    intros e s o k H. induction H; auto; try (rewrite ?len_cons; lia); try (destruct o; auto; lia).
  Qed.
End Takes.

Section Run.
  Variable q : list N.
  Hypothesis q_valid : valid_runes q.
  Variable G : rule -> pexp.
  Hypothesis G_ok : forall r, pok (G r) = true.
  Let buf := q ++ [endSymbol].
  Definition mnext (f : nat) (e : pexp) (s : mstate) : Prop :=
    match mrun G buf f e s with
    | MFuel => True
    | MPanic => False
    | MR b s1 => minv q s1 /\ minv q (mrestore s s1)
    end.
  Lemma mrun_next : forall f e s, pok e = true -> minv q s -> mnext f e s.
  Proof.
    intros f e s Hok Hi. pose proof (mrun_frun G q q_valid G_ok f e s Hok Hi) as H. unfold mnext, simulates in *. fold buf in H.
    destruct (frun G f e (skipn (mpos s) q)) as [[[ev r]|]|].
    - destruct H as (s' & -> & H1 & H2 & _). split; [assumption|]. now apply minv_restore.
    - destruct H as (s' & -> & H1 & H2). split; [assumption|]. now apply minv_restore.
    - now rewrite H.
  Qed.
  Lemma mrun_takes : forall f e s, pok e = true -> minv q s ->
    match mrun G buf f e s with
    | MR true s1 => takes G e (skipn (mpos s) q) (Some (skipn (mpos s1) q)) (steps G buf f e s)
    | MR false s1 => takes G e (skipn (mpos s) q) None (steps G buf f e s)
    | _ => True
    end.
  Proof.
    induction f as [|f IH]; intros e s Hok Hinv; [exact I|].
    pose proof (proj1 Hinv) as Hpos.
    destruct e; cbn [mrun steps pok] in *.
    - unfold buf. rewrite nth_buf by auto. destruct (skipn (mpos s) q) as [|x t] eqn:Es.
      + apply N.ltb_lt in Hok. destruct (N.eqb_spec endSymbol c); [lia|]. constructor.
      + destruct (N.eqb_spec x c) as [->|Hx]; [|now constructor]. cbn [mpos madv].
        destruct (skipn_S_tl q q_valid _ _ _ Es) as (-> & _). constructor.
    - unfold buf. rewrite nth_buf by auto. destruct (skipn (mpos s) q) as [|x t] eqn:Es.
      + apply N.ltb_lt in Hok. destruct (N.ltb_spec hi endSymbol); [|lia]. rewrite orb_true_r. constructor.
      + destruct (N.ltb_spec x lo); cbn [orb]; [constructor; lia|]. destruct (N.ltb_spec hi x); [constructor; lia|].
        cbn [mpos madv]. destruct (skipn_S_tl q q_valid _ _ _ Es) as (-> & _). constructor. lia.
    - unfold buf. rewrite nth_buf by auto. destruct (skipn (mpos s) q) as [|x t] eqn:Es.
      + rewrite N.eqb_refl. constructor.
      + destruct (skipn_S_tl q q_valid _ _ _ Es) as (He & _ & Hx). destruct (N.eqb_spec x endSymbol); [lia|].
        cbn [mpos madv]. rewrite He. constructor.
    - apply andb_true_iff in Hok as [Ha Hb]. pose proof (IH e1 s Ha Hinv) as S1. pose proof (mrun_next f e1 s Ha Hinv) as N1. unfold mnext in N1.
      destruct (mrun G buf f e1 s) as [| |[|] s1]; auto.
      + destruct N1 as [N1 _]. pose proof (IH e2 s1 Hb N1) as S2.
        destruct (mrun G buf f e2 s1) as [| |[|] s2]; auto; eapply t_seq_ok; eassumption.
      + now apply t_seq_no.
    - apply andb_true_iff in Hok as [Ha Hb]. pose proof (IH e1 s Ha Hinv) as S1. pose proof (mrun_next f e1 s Ha Hinv) as N1. unfold mnext in N1.
      destruct (mrun G buf f e1 s) as [| |[|] s1]; auto.
      + now apply t_alt_1.
      + destruct N1 as [_ N1]. pose proof (IH e2 _ Hb N1) as S2.
        destruct (mrun G buf f e2 (mrestore s s1)) as [| |[|] s2]; auto; eapply t_alt_2; eassumption.
    - pose proof (IH e s Hok Hinv) as S1. pose proof (mrun_next f e s Hok Hinv) as N1. unfold mnext in N1.
      destruct (mrun G buf f e s) as [| |[|] s1]; auto.
      + destruct N1 as [N1 _]. pose proof (IH (PStar e) s1 Hok N1) as S2.
        destruct (mrun G buf f (PStar e) s1) as [| |[|] s2]; auto; eapply t_star_1; eassumption.
      + apply t_star_0 in S1. exact S1.
    - pose proof (IH e s Hok Hinv) as S1. destruct (mrun G buf f e s) as [| |[|] s1]; auto; [now apply t_opt_1|apply t_opt_0 in S1; exact S1].
    - pose proof (IH e s Hok Hinv) as S1. destruct (mrun G buf f e s) as [| |[|] s1]; auto; [eapply t_not_no; eassumption|apply t_not_ok in S1; exact S1].
    - pose proof (IH e s Hok Hinv) as S1. destruct (mrun G buf f e s) as [| |[|] s1]; auto; now apply t_cap.
    - constructor.
    - pose proof (IH (G r) s (G_ok r) Hinv) as S1. destruct (mrun G buf f (G r) s) as [| |[|] s1]; auto; now apply t_rule.
    - apply andb_true_iff in Hok as [Hok Hd]. apply andb_true_iff in Hok as [Hcs Ha].
      pose proof (IH e1 s Ha Hinv) as S1. pose proof (IH e2 s Hd Hinv) as S2.
      pose proof (nth_buf q _ Hpos) as Hb. fold buf in Hb. rewrite !Hb. destruct (skipn (mpos s) q) as [|x t] eqn:Es.
      + replace (mem endSymbol cs) with false.
        * destruct (mrun G buf f e2 s) as [| |[|] s1]; auto; now apply t_sw_nil.
        * symmetry. unfold mem. rewrite forallb_forall in Hcs. destruct (existsb (N.eqb endSymbol) cs) eqn:Eb; [|reflexivity].
          apply existsb_exists in Eb. destruct Eb as (c & Hc & Ee). apply N.eqb_eq in Ee. subst c.
          specialize (Hcs _ Hc). apply N.ltb_lt in Hcs. lia.
      + destruct (mem x cs) eqn:Hm.
        * destruct (mrun G buf f e1 s) as [| |[|] s1]; auto; now apply t_sw_in.
        * destruct (mrun G buf f e2 s) as [| |[|] s1]; auto; now apply t_sw_out.
  Qed.
End Run.

Lemma steps_mono : forall G buf f e s, steps G buf f e s <= steps G buf (S f) e s.
Proof.
  intros G buf. induction f as [|f IH]; intros e s; [cbn [steps]; lia|].
  rewrite (ltac:(reflexivity) : steps G buf (S (S f)) e s = 1 + match e with
      | PSeq a b => steps G buf (S f) a s + match mrun G buf (S f) a s with MR true s1 => steps G buf (S f) b s1 | _ => 0 end
      | PAlt a b => steps G buf (S f) a s + match mrun G buf (S f) a s with MR false s1 => steps G buf (S f) b (mrestore s s1) | _ => 0 end
      | PStar a => steps G buf (S f) a s + match mrun G buf (S f) a s with MR true s1 => steps G buf (S f) (PStar a) s1 | _ => 0 end
      | POpt a | PNot a | PCap a => steps G buf (S f) a s
      | PRule r => steps G buf (S f) (G r) s
      | PSw cs a d =>
          match nth_error buf (mpos s) with
          | Some x => if mem x cs then steps G buf (S f) a s else steps G buf (S f) d s
          | None => 0
          end
      | PChar _ | PRange _ _ | PDot | PAct _ => 0
      end).
  rewrite (ltac:(reflexivity) : steps G buf (S f) e s = 1 + match e with
      | PSeq a b => steps G buf f a s + match mrun G buf f a s with MR true s1 => steps G buf f b s1 | _ => 0 end
      | PAlt a b => steps G buf f a s + match mrun G buf f a s with MR false s1 => steps G buf f b (mrestore s s1) | _ => 0 end
      | PStar a => steps G buf f a s + match mrun G buf f a s with MR true s1 => steps G buf f (PStar a) s1 | _ => 0 end
      | POpt a | PNot a | PCap a => steps G buf f a s
      | PRule r => steps G buf f (G r) s
      | PSw cs a d =>
          match nth_error buf (mpos s) with
          | Some x => if mem x cs then steps G buf f a s else steps G buf f d s
          | None => 0
          end
      | PChar _ | PRange _ _ | PDot | PAct _ => 0
      end).
  apply N.add_le_mono_l. destruct e; try lia; try apply IH.
  - pose proof (IH e1 s). destruct (mrun G buf f e1 s) as [| |[|] s1] eqn:E1; try lia; rewrite (mrun_mono _ _ _ e1 s) by congruence; rewrite E1; try lia.
    pose proof (IH e2 s1). lia.
  - pose proof (IH e1 s). destruct (mrun G buf f e1 s) as [| |[|] s1] eqn:E1; try lia; rewrite (mrun_mono _ _ _ e1 s) by congruence; rewrite E1; try lia.
    pose proof (IH e2 (mrestore s s1)). lia.
  - pose proof (IH e s). destruct (mrun G buf f e s) as [| |[|] s1] eqn:E1; try lia; rewrite (mrun_mono _ _ _ e s) by congruence; rewrite E1; try lia.
    pose proof (IH (PStar e) s1). lia.
  - destruct (nth_error buf (mpos s)); [|lia]. destruct (mem n cs); apply IH.
Qed.
Lemma steps_mono_le : forall G buf e s f f', (f <= f')%nat -> steps G buf f e s <= steps G buf f' e s.
Proof. intros G buf e s f f' H. induction H as [|f' H IH]; [lia|]. pose proof (steps_mono G buf f' e s). lia. Qed.

(** ** Static bounds *)
(** A bound on the steps of a successful run: [Bc a]: a*(consumed+1); [Bp a d]:
    a*(length+1)^d. *)
Inductive sb : Set := Bc (a : N) | Bp (a : N) (d : nat).
Definition X (s : list N) (d : nat) : N := (len s + 1) ^ N.of_nat d.
Definition sb_ok (b : sb) (s r : list N) (k : N) : Prop :=
  match b with Bc a => k <= a * (len s - len r + 1) | Bp a d => k <= a * X s d end.
Definition fb_ok (b : N * nat) (s : list N) (k : N) : Prop := k <= fst b * X s (snd b).

Lemma X_pos : forall s d, 1 <= X s d.
Proof. intros s d. unfold X. induction d as [|d IH]; [reflexivity|]. rewrite Nat2N.inj_succ, N.pow_succ_r'. nia. Qed.
Lemma X_S : forall s d, X s (S d) = (len s + 1) * X s d.
Proof. intros. unfold X. now rewrite Nat2N.inj_succ, N.pow_succ_r'. Qed.
Lemma X_0 : forall s, X s 0 = 1.
Proof. reflexivity. Qed.
Lemma X_1 : forall s, X s 1 = len s + 1.
Proof. intro s. rewrite X_S, X_0. lia. Qed.
Lemma X_deg : forall s d e, (d <= e)%nat -> X s d <= X s e.
Proof. intros s d e H. induction H as [|e H IH]; [lia|]. rewrite X_S. pose proof (X_pos s e). nia. Qed.
Lemma X_len : forall s t d, len s <= len t -> X s d <= X t d.
Proof. intros s t d H. unfold X. apply N.pow_le_mono_l. lia. Qed.
Lemma X_le : forall s t d e, len s <= len t -> (d <= e)%nat -> X s d <= X t e.
Proof. intros s t d e H1 H2. pose proof (X_len s t d H1). pose proof (X_deg t d e H2). lia. Qed.
Lemma mulX : forall a s t d e, len s <= len t -> (d <= e)%nat -> a * X s d <= a * X t e.
Proof. intros. apply N.mul_le_mono_l. now apply X_le. Qed.

Definition padd (p p' : N * nat) : N * nat := (fst p + fst p', Nat.max (snd p) (snd p')).
Definition pinc (p : N * nat) : N * nat := (fst p + 1, snd p).
Definition toP (b : sb) : N * nat := match b with Bc a => (a, 1%nat) | Bp a d => (a, d) end.
Definition toC (b : sb) : option N := match b with Bc a => Some a | Bp a O => Some a | _ => None end.
Definition sadd (b b' : sb) : sb :=
  match b, b' with
  | Bp a O, Bp a' O => Bp (a + a' + 1) 0
  | _, _ =>
    match toC b, toC b' with
    | Some a, Some a' => Bc (a + a' + 1)
    | _, _ => Bp (fst (toP b) + fst (toP b') + 1) (Nat.max (snd (toP b)) (snd (toP b')))
    end
  end.
Lemma padd_ok : forall p p' s t t' k k', len t <= len s -> len t' <= len s ->
  fb_ok p t k -> fb_ok p' t' k' -> fb_ok (padd p p') s (k + k').
Proof.
  intros [a d] [a' d'] s t t' k k' Ht Ht' H H'. unfold fb_ok, padd in *. cbn [fst snd] in *.
  pose proof (mulX a t s d (Nat.max d d') Ht ltac:(lia)). pose proof (mulX a' t' s d' (Nat.max d d') Ht' ltac:(lia)). lia.
Qed.
Lemma padd_l : forall p p' s k, fb_ok p s k -> fb_ok (padd p p') s k.
Proof.
  intros. replace k with (k + 0) by lia. apply (padd_ok p p' s s s); auto; try lia. unfold fb_ok. lia.
Qed.
Lemma padd_r : forall p p' s k, fb_ok p' s k -> fb_ok (padd p p') s k.
Proof.
  intros. replace k with (0 + k) by lia. apply (padd_ok p p' s s s); auto; try lia. unfold fb_ok. lia.
Qed.
Lemma pinc_ok : forall p s k, fb_ok p s k -> fb_ok (pinc p) s (1 + k).
Proof. intros [a d] s k H. unfold fb_ok, pinc in *. cbn [fst snd] in *. pose proof (X_pos s d). lia. Qed.
Lemma toP_ok : forall b s r k, sb_ok b s r k -> fb_ok (toP b) s k.
Proof.
  intros [a|a d] s r k H; unfold fb_ok, sb_ok, toP in *; cbn [fst snd]; [|assumption]. rewrite X_1.
  assert (a * (len s - len r + 1) <= a * (len s + 1)) by (apply N.mul_le_mono_l; lia). lia.
Qed.
Lemma toC_ok : forall b a s r k, toC b = Some a -> sb_ok b s r k -> k <= a * (len s - len r + 1).
Proof.
  intros [a|a [|d]] a' s r k E H; cbn in E; try discriminate; injection E as <-; cbn [sb_ok] in H; [assumption|].
  rewrite X_0 in H. assert (a * 1 <= a * (len s - len r + 1)) by (apply N.mul_le_mono_l; lia). lia.
Qed.
Lemma sadd_ok : forall b b' s r s1 r1 s2 r2 k k', len s1 <= len s -> len s2 <= len s ->
  len s1 - len r1 <= len s - len r -> len s2 - len r2 <= len s - len r ->
  sb_ok b s1 r1 k -> sb_ok b' s2 r2 k' -> sb_ok (sadd b b') s r (1 + (k + k')).
Proof.
  intros b b' s r s1 r1 s2 r2 k k' L1 L2 C1 C2 H H'. unfold sadd.
  assert (HC : forall a a', toC b = Some a -> toC b' = Some a' -> sb_ok (Bc (a + a' + 1)) s r (1 + (k + k'))).
  { intros a a' E E'. pose proof (toC_ok _ _ _ _ _ E H). pose proof (toC_ok _ _ _ _ _ E' H'). cbn [sb_ok].
    assert (a * (len s1 - len r1 + 1) <= a * (len s - len r + 1)) by (apply N.mul_le_mono_l; lia).
    assert (a' * (len s2 - len r2 + 1) <= a' * (len s - len r + 1)) by (apply N.mul_le_mono_l; lia). lia. }
  assert (HP : sb_ok (Bp (fst (toP b) + fst (toP b') + 1) (Nat.max (snd (toP b)) (snd (toP b')))) s r (1 + (k + k'))).
  { pose proof (padd_ok _ _ s _ _ _ _ L1 L2 (toP_ok _ _ _ _ H) (toP_ok _ _ _ _ H')) as HH.
    apply pinc_ok in HH. exact HH. }
  destruct b as [a|a [|d]], b' as [a'|a' [|d']]; try (exact (HC _ _ eq_refl eq_refl)); try exact HP.
Qed.
Lemma sadd_l : forall b b' s r k, sb_ok b s r k -> sb_ok (sadd b b') s r (1 + k).
Proof.
  intros. replace (1 + k) with (1 + (k + 0)) by lia. apply (sadd_ok b b' s r s r s r); auto; try lia. destruct b'; apply N.le_0_l.
Qed.
Lemma sadd_r : forall b b' s r k, sb_ok b' s r k -> sb_ok (sadd b b') s r (1 + k).
Proof.
  intros. replace (1 + k) with (1 + (0 + k)) by lia. apply (sadd_ok b b' s r s r s r); auto; try lia. destruct b; apply N.le_0_l.
Qed.

Definition sstar (b : sb) (f : N * nat) : sb :=
  match toC b with
  | Some a =>
    match snd f with
    | O => Bc (2 * a + 1 + fst f + 1)
    | d => Bp (2 * a + 1 + fst f + 1) d
    end
  | None => Bp (fst (toP b) + 1 + fst f + 1) (Nat.max (S (snd (toP b))) (snd f))
  end.

Section Cost.
  Variable G : rule -> pexp.
  Hypothesis G_nl : forall r, nullable nl (G r) = true -> nl r = true.
  Lemma takes_lt : forall e s o k, takes G e s o k -> nullable nl e = false -> match o with Some r => len r < len s | None => True end.
  Proof.
    intros e s o k H. induction H; cbn [nullable]; intro Hn; auto; try discriminate; try (rewrite ?len_cons; lia);
      repeat match goal with H : takes G _ _ _ _ |- _ => apply takes_le in H end.
    all: try (apply IHtakes; destruct (nullable nl (G r)) eqn:E; [apply G_nl in E; congruence|reflexivity]).
    all: try (apply orb_false_iff in Hn as [Ha Hb]; first [exact (IHtakes2 Hb) | exact (IHtakes Hb) | exact (IHtakes Ha)]).
    all: try (exact (IHtakes Hn)).
    destruct o as [r|]; [|exact I]. apply andb_false_iff in Hn as [Hn|Hn]; [specialize (IHtakes1 Hn)|specialize (IHtakes2 Hn)]; lia.
  Qed.

  Definition bnd : Type := sb * (N * nat).
  Definition ok (e : pexp) (b : bnd) : Prop := forall s o k, takes G e s o k ->
    match o with Some r => sb_ok (fst b) s r k | None => fb_ok (snd b) s k end.

  Lemma star_ok : forall e b, ok e b -> nullable nl e = false -> ok (PStar e) (sstar (fst b) (snd b), (0, 0%nat)).
  Proof.
    intros e [b [fa fd]] He Hn s o k H. destruct (star_some _ _ _ _ _ H) as (r & ->). cbn [fst snd].
    unfold sstar. cbn [fst snd]. destruct (toC b) as [a|] eqn:EC.
    - assert (HB : k <= (2 * a + 1) * (len s - len r) + fa * X r fd + 1 /\ len r <= len s).
      { remember (PStar e) as x eqn:Ex. remember (Some r) as y eqn:Ey. revert r Ey. induction H; intros r0 Ey; try discriminate; injection Ex as ->.
        - injection Ey as <-. pose proof (He _ _ _ H) as B. cbn [fst snd] in B. unfold fb_ok in B. cbn [fst snd] in B. lia.
        - clear IHtakes1. destruct (IHtakes2 eq_refl _ Ey) as [B2 L2]. subst o. pose proof (He _ _ _ H) as B1. cbn [fst snd] in B1.
          apply (toC_ok _ _ _ _ _ EC) in B1. pose proof (takes_lt _ _ _ _ H Hn) as L1. cbn in L1. split; [|lia].
          assert (a * (len s - len s1 + 1) <= a * (2 * (len s - len s1))) by (apply N.mul_le_mono_l; lia).
          assert (E : len s - len r0 = (len s - len s1) + (len s1 - len r0)) by lia. rewrite E. nia. }
      destruct HB as [HB HL]. destruct fd as [|fd]; cbn [sb_ok].
      + rewrite X_0 in HB. nia.
      + pose proof (mulX fa r s (S fd) (S fd) HL ltac:(lia)).
        assert ((2 * a + 1) * (len s - len r) <= (2 * a + 1) * X s (S fd)).
        { apply N.mul_le_mono_l. pose proof (X_deg s 1 (S fd) ltac:(lia)) as Z. rewrite X_1 in Z. lia. }
        pose proof (X_pos s (S fd)). lia.
    - assert (HB : k <= (fst (toP b) * X s (snd (toP b)) + 1) * (len s - len r) + fa * X r fd + 1 /\ len r <= len s).
      { remember (PStar e) as x eqn:Ex. remember (Some r) as y eqn:Ey. revert r Ey. induction H; intros r0 Ey; try discriminate; injection Ex as ->.
        - injection Ey as <-. pose proof (He _ _ _ H) as B. cbn [fst snd] in B. unfold fb_ok in B. cbn [fst snd] in B. lia.
        - clear IHtakes1. destruct (IHtakes2 eq_refl _ Ey) as [B2 L2]. subst o. pose proof (He _ _ _ H) as B1. cbn [fst snd] in B1.
          apply toP_ok in B1. unfold fb_ok in B1. pose proof (takes_lt _ _ _ _ H Hn) as L1. cbn in L1. split; [|lia].
          pose proof (mulX (fst (toP b)) s1 s (snd (toP b)) (snd (toP b)) ltac:(lia) ltac:(lia)).
          assert (E : len s - len r0 = (len s - len s1) + (len s1 - len r0)) by lia. rewrite E. nia. }
      destruct HB as [HB HL]. cbn [sb_ok]. set (m := Nat.max (S (snd (toP b))) fd).
      pose proof (mulX fa r s fd m HL ltac:(unfold m; lia)).
      assert ((fst (toP b) * X s (snd (toP b)) + 1) * (len s - len r) <= (fst (toP b) + 1) * X s m).
      { pose proof (X_deg s (S (snd (toP b))) m ltac:(unfold m; lia)) as Z. rewrite X_S in Z. pose proof (X_pos s (snd (toP b))).
        assert ((fst (toP b) * X s (snd (toP b)) + 1) * (len s - len r) <= ((fst (toP b) + 1) * X s (snd (toP b))) * (len s + 1)) by (apply N.mul_le_mono; lia).
        assert ((fst (toP b) + 1) * ((len s + 1) * X s (snd (toP b))) <= (fst (toP b) + 1) * X s m) by (apply N.mul_le_mono_l; lia). lia. }
      pose proof (X_pos s m). lia.
  Qed.

  (** [bad n c e]: [e] cannot match a text beginning with [c] ([None]: an empty
      text); rules are unfolded to depth [n]. *)
  Definition still (e : pexp) : bool :=
    match e with PAct _ | PNot _ => true | _ => false end.
  Fixpoint bad (n : nat) (c : option N) : pexp -> bool :=
    fix go (e : pexp) : bool :=
    match e with
    | PChar d => match c with Some x => negb (x =? d) | None => true end
    | PRange lo hi => match c with Some x => (x <? lo) || (hi <? x) | None => true end
    | PDot => match c with Some _ => false | None => true end
    | PSeq a b => go a || ((still a || match a with POpt x => go x | _ => false end) && go b)
    | PAlt a b => go a && go b
    | PStar _ | POpt _ | PNot _ | PAct _ => false
    | PCap a => go a
    | PRule r => match n with O => false | S m => bad m c (G r) end
    | PSw cs a d => match c with Some x => if mem x cs then go a else go d | None => go d end
    end.
  Definition head (s : list N) : option N := match s with x :: _ => Some x | [] => None end.
  Lemma still_ok : forall e s r k, takes G e s (Some r) k -> still e = true -> r = s.
  Proof. intros e s r k H Hs. destruct e; try discriminate; now inversion H. Qed.
  Lemma bad_both : forall e s o k, takes G e s o k -> forall m,
    (bad m (head s) e = true -> o = None) /\ (forall x, e = POpt x -> bad m (head s) x = true -> o = Some s).
  Proof.
    clear G_nl. intros e s o k H. induction H; intro m; (split; [intro Hb|intros y Hy Hb; try discriminate]); try reflexivity;
      try (destruct m; cbn [bad head] in Hb; discriminate).
    - exfalso. assert (Z : negb (c =? c) = true) by (destruct m; exact Hb). rewrite N.eqb_refl in Z. discriminate.
    - exfalso. assert (Z : (x <? lo) || (hi <? x) = true) by (destruct m; exact Hb). apply orb_true_iff in Z as [Z|Z]; apply N.ltb_lt in Z; lia.
    - assert (Z : bad m (head s) a || ((still a || match a with POpt x => bad m (head s) x | _ => false end) && bad m (head s) b) = true) by (destruct m; exact Hb). apply orb_true_iff in Z as [Z|Z].
      + apply (proj1 (IHtakes1 m)) in Z. discriminate.
      + apply andb_true_iff in Z as [Z1 Z2]. apply orb_true_iff in Z1 as [Z1|Z1].
        * apply (still_ok _ _ _ _ H) in Z1. subst s1. exact (proj1 (IHtakes2 _) Z2).
        * destruct a; try discriminate. apply (proj2 (IHtakes1 m) _ eq_refl) in Z1. injection Z1 as ->. exact (proj1 (IHtakes2 _) Z2).
    - assert (Z : bad m (head s) a && bad m (head s) b = true) by (destruct m; exact Hb). apply andb_true_iff in Z as [Z1 Z2].
      exact (proj1 (IHtakes m) Z1).
    - assert (Z : bad m (head s) a && bad m (head s) b = true) by (destruct m; exact Hb). apply andb_true_iff in Z as [Z1 Z2].
      exact (proj1 (IHtakes2 m) Z2).
    - injection Hy as ->. apply (proj1 (IHtakes m)) in Hb. discriminate.
    - assert (Z : bad m (head s) a = true) by (destruct m; exact Hb). exact (proj1 (IHtakes m) Z).
    - destruct m as [|m]; [discriminate|]. exact (proj1 (IHtakes m) Hb).
    - assert (Z : (if mem x cs then bad m (Some x) a else bad m (Some x) d) = true) by (destruct m; exact Hb). rewrite H in Z. exact (proj1 (IHtakes m) Z).
    - assert (Z : (if mem x cs then bad m (Some x) a else bad m (Some x) d) = true) by (destruct m; exact Hb). rewrite H in Z. exact (proj1 (IHtakes m) Z).
    - assert (Z : bad m None d = true) by (destruct m; exact Hb). exact (proj1 (IHtakes m) Z).
  Qed.
  Lemma bad_ok : forall e s o k, takes G e s o k -> forall m, bad m (head s) e = true -> o = None.
  Proof. intros e s o k H m. exact (proj1 (bad_both e s o k H m)). Qed.

  (** the blank rule fails cheaply unless a comment begins *)
  Variable wo : option N.
  Hypothesis wa_ok : forall wa, wo = Some wa -> forall s r k, takes G (PRule r_) s (Some r) k -> head r <> Some 45 -> head r <> Some 47 ->
    k <= wa * (len s - len r + 1).
  Definition shrink (a b : pexp) (sa : sb) : sb :=
    match a, wo with PRule r_, Some wa => if bad 6 (Some 45) b && bad 6 (Some 47) b then Bc wa else sa | _, _ => sa end.
  Lemma shrink_ok : forall a b sa s s1 r k1 k2, takes G a s (Some s1) k1 -> takes G b s1 (Some r) k2 ->
    sb_ok sa s s1 k1 -> sb_ok (shrink a b sa) s s1 k1.
  Proof.
    intros a b sa s s1 r k1 k2 Ha Hb H. unfold shrink. destruct a; auto. destruct r0; auto. destruct wo as [wa|]; auto.
    destruct (bad 6 (Some 45) b && bad 6 (Some 47) b) eqn:E; [|assumption]. apply andb_true_iff in E as [E1 E2].
    cbn [sb_ok]. apply (wa_ok _ eq_refl); [assumption| |]; intro Hh; [rewrite <- Hh in E1; apply (bad_ok _ _ _ _ Hb) in E1|rewrite <- Hh in E2; apply (bad_ok _ _ _ _ Hb) in E2]; discriminate.
  Qed.

  (** an alternative that begins with a character fails at once where the next one matches *)
  Definition fshrink (a b : pexp) (fa : N * nat) : N * nat :=
    match a with PSeq (PChar c) _ => if bad 6 (Some c) b then (2, 0%nat) else fa | _ => fa end.
  Lemma fshrink_ok : forall a b fa s r k1 k2, takes G a s None k1 -> takes G b s (Some r) k2 ->
    fb_ok fa s k1 -> fb_ok (fshrink a b fa) s k1.
  Proof.
    intros a b fa s r k1 k2 Ha Hb H. unfold fshrink. destruct a; auto. destruct a1; auto.
    destruct (bad 6 (Some c) b) eqn:E; [|assumption]. unfold fb_ok. cbn [fst snd]. rewrite X_0.
    assert (Hh : head s <> Some c) by (intro Hh; rewrite <- Hh in E; apply (bad_ok _ _ _ _ Hb) in E; discriminate).
    inversion Ha; subst; match goal with K : takes G (PChar c) _ _ _ |- _ => inversion K; subst end; cbn [head] in Hh; try congruence; lia.
  Qed.

  Variable rc : rule -> option bnd.
  Fixpoint cst (e : pexp) : option bnd :=
    match e with
    | PChar _ | PRange _ _ | PDot | PAct _ => Some (Bp 1 0, (1, 0%nat))
    | PSeq a b =>
        match cst a, cst b with
        | Some (sa, fa), Some (sc, fc) => Some (sadd (shrink a b sa) sc, pinc (padd fa (padd (toP sa) fc)))
        | _, _ => None
        end
    | PAlt a b =>
        match cst a, cst b with
        | Some (sa, fa), Some (sc, fc) => Some (sadd sa (sadd (Bp (fst (fshrink a b fa)) (snd (fshrink a b fa))) sc), pinc (padd fa fc))
        | _, _ => None
        end
    | PStar a =>
        match cst a with
        | Some (sa, fa) => if nullable nl a then None else Some (sstar sa fa, (0, 0%nat))
        | None => None
        end
    | POpt a => match cst a with Some (sa, fa) => Some (sadd sa (Bp (fst fa) (snd fa)), (0, 0%nat)) | None => None end
    | PNot a => match cst a with Some (sa, fa) => Some (Bp (fst fa + 1) (snd fa), pinc (toP sa)) | None => None end
    | PCap a => match cst a with Some (sa, fa) => Some (sadd sa (Bp 0 0), pinc fa) | None => None end
    | PRule r => match rc r with Some (sa, fa) => Some (sadd sa (Bp 0 0), pinc fa) | None => None end
    | PSw _ a d =>
        match cst a, cst d with
        | Some (sa, fa), Some (sc, fc) => Some (sadd sa sc, pinc (padd fa fc))
        | _, _ => None
        end
    end.
  Hypothesis rc_ok : forall r b, rc r = Some b -> ok (G r) b.
  Lemma cst_ok : forall e b, cst e = Some b -> ok e b.
  Proof.
    induction e; cbn [cst]; intros [bs bf] Hb.
    - injection Hb as <- <-. intros s o k H. inversion H; subst; cbn [fst snd]; unfold fb_ok, sb_ok; cbn [fst snd]; rewrite X_0; lia.
    - injection Hb as <- <-. intros s o k H. inversion H; subst; cbn [fst snd]; unfold fb_ok, sb_ok; cbn [fst snd]; rewrite X_0; lia.
    - injection Hb as <- <-. intros s o k H. inversion H; subst; cbn [fst snd]; unfold fb_ok, sb_ok; cbn [fst snd]; rewrite X_0; lia.
    - destruct (cst e1) as [[sa fa]|]; [|discriminate]. destruct (cst e2) as [[sc fc]|]; [|discriminate]. injection Hb as <- <-.
      specialize (IHe1 _ eq_refl). specialize (IHe2 _ eq_refl). intros s o k H. inversion H; subst; cbn [fst snd].
      + match goal with K1 : takes G e1 _ _ _, K2 : takes G e2 _ _ _ |- _ =>
          pose proof (takes_le _ _ _ _ _ K1) as L1; pose proof (takes_le _ _ _ _ _ K2) as L2; pose proof (IHe1 _ _ _ K1) as B1; pose proof (IHe2 _ _ _ K2) as B2 end.
        cbn [fst snd] in *. destruct o as [r|].
        * eapply sadd_ok; [| | | |eapply shrink_ok; [eassumption|eassumption|exact B1]|exact B2]; lia.
        * apply pinc_ok. apply padd_r. eapply padd_ok; [| |eapply toP_ok; exact B1|exact B2]; lia.
      + match goal with K1 : takes G e1 _ _ _ |- _ => pose proof (IHe1 _ _ _ K1) as B1 end. cbn [fst snd] in *.
        apply pinc_ok. apply padd_l. rewrite N.add_0_r. exact B1.
    - destruct (cst e1) as [[sa fa]|]; [|discriminate]. destruct (cst e2) as [[sc fc]|]; [|discriminate]. injection Hb as <- <-.
      specialize (IHe1 _ eq_refl). specialize (IHe2 _ eq_refl). intros s o k H. inversion H; subst; cbn [fst snd].
      + match goal with K1 : takes G e1 _ _ _ |- _ => pose proof (IHe1 _ _ _ K1) as B1 end. cbn [fst snd] in *.
        rewrite N.add_0_r. now apply sadd_l.
      + match goal with K1 : takes G e1 _ _ _, K2 : takes G e2 _ _ _ |- _ => pose proof (IHe1 _ _ _ K1) as B1; pose proof (IHe2 _ _ _ K2) as B2 end.
        cbn [fst snd] in *. destruct o as [r|].
        * assert (Z : sb_ok (sadd (Bp (fst (fshrink e1 e2 fa)) (snd (fshrink e1 e2 fa))) sc) s r (1 + (k1 + k2))).
          { eapply (sadd_ok _ _ s r s r s r); try lia; [eapply fshrink_ok; eassumption|exact B2]. }
          apply (sadd_r sa) in Z. destruct (sadd sa _); cbn [sb_ok] in *; lia.
        * apply pinc_ok. eapply padd_ok; [| |exact B1|exact B2]; lia.
    - destruct (cst e) as [[sa fa]|]; [|discriminate]. destruct (nullable nl e) eqn:Hn; [discriminate|]. injection Hb as <- <-.
      exact (star_ok e _ (IHe _ eq_refl) Hn).
    - destruct (cst e) as [[sa fa]|]; [|discriminate]. injection Hb as <- <-. specialize (IHe _ eq_refl). intros s o k H. inversion H; subst; cbn [fst snd];
        match goal with K1 : takes G e _ _ _ |- _ => pose proof (IHe _ _ _ K1) as B1 end; cbn [fst snd] in *.
      + now apply sadd_l.
      + apply sadd_r. exact B1.
    - destruct (cst e) as [[sa fa]|]; [|discriminate]. injection Hb as <- <-. specialize (IHe _ eq_refl). intros s o k H. inversion H; subst; cbn [fst snd];
        match goal with K1 : takes G e _ _ _ |- _ => pose proof (IHe _ _ _ K1) as B1 end; cbn [fst snd] in *.
      + apply pinc_ok in B1. exact B1.
      + apply pinc_ok. eapply toP_ok. exact B1.
    - destruct (cst e) as [[sa fa]|]; [|discriminate]. injection Hb as <- <-. specialize (IHe _ eq_refl). intros s o k H. inversion H; subst; cbn [fst snd];
        match goal with K1 : takes G e _ _ _ |- _ => pose proof (IHe _ _ _ K1) as B1 end; cbn [fst snd] in *.
      destruct o; [now apply sadd_l|now apply pinc_ok].
    - injection Hb as <- <-. intros s o k H. inversion H; subst; cbn [fst snd]; unfold fb_ok, sb_ok; cbn [fst snd]; rewrite X_0; lia.
    - destruct (rc r) as [[sa fa]|] eqn:Er; [|discriminate]. injection Hb as <- <-. apply rc_ok in Er. intros s o k H. inversion H; subst; cbn [fst snd];
        match goal with K1 : takes G _ _ _ _ |- _ => pose proof (Er _ _ _ K1) as B1 end; cbn [fst snd] in *.
      destruct o; [now apply sadd_l|now apply pinc_ok].
    - destruct (cst e1) as [[sa fa]|]; [|discriminate]. destruct (cst e2) as [[sc fc]|]; [|discriminate]. injection Hb as <- <-.
      specialize (IHe1 _ eq_refl). specialize (IHe2 _ eq_refl). intros s o k H. inversion H; subst; cbn [fst snd];
        first [match goal with K1 : takes G e1 _ _ _ |- _ => pose proof (IHe1 _ _ _ K1) as B1 end | match goal with K1 : takes G e2 _ _ _ |- _ => pose proof (IHe2 _ _ _ K1) as B1 end];
        cbn [fst snd] in *; destruct o; first [now apply sadd_l | now apply sadd_r | apply pinc_ok; first [now apply padd_l|now apply padd_r]].
  Qed.
End Cost.



Ltac inv H := inversion H; clear H; subst.
(** Invert runs of character tests, choices, sequences, ...; not loops and rules. *)
Ltac tsteps := repeat
  match goal with
  | H : takes _ (PChar _) _ _ _ |- _ => inv H
  | H : takes _ (PRange _ _) _ _ _ |- _ => inv H
  | H : takes _ PDot _ _ _ |- _ => inv H
  | H : takes _ (PSeq _ _) _ _ _ |- _ => inv H
  | H : takes _ (PAlt _ _) _ _ _ |- _ => inv H
  | H : takes _ (POpt _) _ _ _ |- _ => inv H
  | H : takes _ (PNot _) _ _ _ |- _ => inv H
  | H : takes _ (PCap _) _ _ _ |- _ => inv H
  | H : takes _ (PAct _) _ _ _ |- _ => inv H
  | H : takes _ (PSw _ _ _) _ _ _ |- _ => inv H
  end.
Ltac rinv H := inversion H; clear H; subst; match goal with K : takes _ (Ggo _) _ _ _ |- _ => cbn [Ggo Gpeg] in K; rename K into H end.
(** ** The blank rules *)
Lemma eol_fail : forall s o k, takes Ggo (PRule rEndOfLine) s o k -> k <= 10.
Proof. intros s o k H. rinv H. tsteps; lia. Qed.
Lemma space_fail : forall s o k, takes Ggo (PRule rSpace) s o k -> k <= 20.
Proof.
  intros s o k H. rinv H. tsteps; try lia; match goal with K : takes _ (PRule rEndOfLine) _ _ _ |- _ => apply eol_fail in K; lia end.
Qed.
Lemma sc_fail : forall s k, takes Ggo (PRule rSpaceComment) s None k -> head s <> Some 45 -> head s <> Some 47 -> k <= 40.
Proof.
  intros s k H H1 H2. rinv H. inv H. apply space_fail in H4. rinv H8. inv H8.
  - exfalso. cbn [lit] in *. tsteps; cbn in *; congruence.
  - cbn [lit] in *. tsteps; unfold head in *; try congruence; try (exfalso; congruence); lia.
Qed.
Fixpoint rcn (n : nat) (r : rule) : option bnd :=
  match n with O => None | S m => cst Ggo None (rcn m) (Ggo r) end.
Lemma rcn_ok : forall n r b, rcn n r = Some b -> ok Ggo (Ggo r) b.
Proof.
  induction n as [|n IH]; cbn [rcn]; intros r b H; [discriminate|]. eapply cst_ok; [apply nl_go| |exact IH|exact H]. discriminate.
Qed.
Lemma sc_cost : forall s r k, takes Ggo (PRule rSpaceComment) s (Some r) k -> k <= 121 * (len s - len r + 1).
Proof.
  intros s r k H. rinv H. destruct (rcn 8 rSpaceComment) as [[b f]|] eqn:E; [|vm_compute in E; discriminate].
  pose proof (rcn_ok _ _ _ E _ _ _ H) as B. cbn [fst snd] in B. vm_compute in E. injection E as <- <-. cbn [sb_ok] in B. lia.
Qed.
Lemma wa_go : forall s r k, takes Ggo (PRule r_) s (Some r) k -> head r <> Some 45 -> head r <> Some 47 ->
  k <= 250 * (len s - len r + 1).
Proof.
  intros s r k H H1 H2. rinv H. enough (Z : k0 <= 243 * (len s - len r) + 41 /\ len r <= len s) by lia.
  remember (PStar (PRule rSpaceComment)) as e eqn:Ee. remember (Some r) as o eqn:Eo. revert H1 H2. revert r Eo.
  induction H; intros r0 Eo D1 D2; try discriminate; injection Ee as ->.
  - injection Eo as <-. apply sc_fail in H; auto. lia.
  - subst o. destruct (IHtakes2 eq_refl _ eq_refl D1 D2) as [B L]. pose proof (takes_lt _ nl_go _ _ _ _ H eq_refl) as L1. cbn in L1.
    apply sc_cost in H. lia.
Qed.

(** ** -> paths *)
Fixpoint rcw (n : nat) (r : rule) : option bnd :=
  match n with O => None | S m => cst Ggo (Some 250) (rcw m) (Ggo r) end.
Lemma rcw_ok : forall n r b, rcw n r = Some b -> ok Ggo (Ggo r) b.
Proof.
  induction n as [|n IH]; cbn [rcw]; intros r b H; [discriminate|]. eapply cst_ok; [apply nl_go| |exact IH|exact H].
  intros wa Hw. injection Hw as <-. exact wa_go.
Qed.
Lemma ident_cost : forall s o k, takes Ggo (PRule rIdentifier) s o k ->
  match o with Some r => k <= 60 * (len s - len r + 1) | None => k <= 90 * (len s + 1) end.
Proof.
  intros s o k H. rinv H. destruct (rcw 8 rIdentifier) as [[b f]|] eqn:E; [|vm_compute in E; discriminate].
  pose proof (rcw_ok _ _ _ E _ _ _ H) as B. cbn [fst snd] in B. vm_compute in E. injection E as <- <-.
  destruct o; cbn [sb_ok] in B; unfold fb_ok in B; cbn [fst snd] in B; rewrite ?X_1 in B; lia.
Qed.
Lemma lit2 : forall G a b s o k, takes G (PSeq (PChar a) (PChar b)) s o k -> k <= 3 /\ match o with Some r => len s = len r + 2 | None => True end.
Proof. intros G a b s o k H. tsteps; rewrite ?len_cons; split; auto; lia. Qed.
Lemma json_cost : forall n s o k oi ki, len s <= n -> takes Ggo (PRule rJsonReference) s o k -> takes Ggo (PRule rIdentifier) s oi ki ->
  k + ki <= 400 * (len s + 1).
Proof.
  induction n as [|n IH] using N.peano_ind; intros s o k oi ki Hn H Hi.
  - destruct s as [|x t]; [|rewrite len_cons in Hn; lia]. pose proof (ident_cost _ _ _ Hi) as Ci.
    assert (oi = None) by exact (bad_ok _ _ _ _ _ Hi 6%nat eq_refl). subst oi.
    rinv H. inv H; match goal with K : takes _ (PRule rIdentifier) _ _ _ |- _ => destruct (takes_det _ _ _ _ _ Hi _ _ K) as [Z ?]; try discriminate Z; subst end.
    rewrite len_nil in *. lia.
  - pose proof (ident_cost _ _ _ Hi) as Ci.
    rinv H. inv H; match goal with K : takes _ (PRule rIdentifier) _ _ _ |- _ => destruct (takes_det _ _ _ _ _ Hi _ _ K) as [Z ?]; subst end; [|lia].
    pose proof (takes_lt _ nl_go _ _ _ _ Hi eq_refl) as L1. cbn in L1.
    match goal with K : takes _ (PSeq _ _) _ _ _ |- _ => rename K into H end.
    inv H; match goal with K : takes _ (PSeq (PChar _) _) _ _ _ |- _ => apply lit2 in K as [C2 L2] end; [|lia].
    match goal with K : takes _ (PAlt _ _) _ _ _ |- _ => rename K into H end. inv H.
    + match goal with K : takes _ (PRule rJsonReference) _ _ _ |- _ => pose proof K as HJ; rename K into H end.
      rinv HJ. assert (Hi' : exists oi ki, takes Ggo (PRule rIdentifier) s2 oi ki) by (inv HJ; eauto).
      destruct Hi' as (oi' & ki' & Hi'). pose proof (IH s2 _ _ _ _ ltac:(lia) H Hi'). lia.
    + match goal with K : takes _ (PRule rJsonReference) _ _ _, K' : takes _ (PRule rIdentifier) s2 _ _ |- _ => pose proof (IH s2 _ _ _ _ ltac:(lia) K K') end. lia.
Qed.

(** ** All rules without recursion through Expression *)
Fixpoint rcj (n : nat) (r : rule) : option bnd :=
  match n with
  | O => None
  | S m => match r with rJsonReference => Some (Bp 400 1, (400, 1%nat)) | _ => cst Ggo (Some 250) (rcj m) (Ggo r) end
  end.
Lemma rcj_ok : forall n r b, rcj n r = Some b -> ok Ggo (Ggo r) b.
Proof.
  induction n as [|n IH]; cbn [rcj]; intros r b H; [discriminate|].
  assert (HC : cst Ggo (Some 250) (rcj n) (Ggo r) = Some b -> ok Ggo (Ggo r) b).
  { intro HC. eapply cst_ok; [apply nl_go| |exact IH|exact HC]. intros wa Hw. injection Hw as <-. exact wa_go. }
  destruct r; auto. injection H as <-. clear HC. intros s o k H. pose proof (t_rule _ _ _ _ _ H) as H'. cbn [Ggo Gpeg] in H.
  assert (Hi : exists oi ki, takes Ggo (PRule rIdentifier) s oi ki) by (inv H; eauto).
  destruct Hi as (oi & ki & Hi). pose proof (json_cost _ _ _ _ _ _ (N.le_refl _) H' Hi).
  destruct o; cbn [fst snd sb_ok]; unfold fb_ok; cbn [fst snd]; rewrite X_1; lia.
Qed.
(** linear with coefficient at most [a] *)
Definition linear (a : N) (e : pexp) : bool :=
  match cst Ggo (Some 250) (rcj 8) e with
  | Some (b, f) => (fst (toP b) <=? a) && Nat.leb (snd (toP b)) 1 && (fst f <=? a) && Nat.leb (snd f) 1
  | None => false
  end.
Lemma linear_ok : forall a e s o k, linear a e = true -> takes Ggo e s o k -> k <= a * (len s + 1).
Proof.
  intros a e s o k H Ht. unfold linear in H. destruct (cst Ggo (Some 250) (rcj 8) e) as [[b f]|] eqn:E; [|discriminate].
  apply andb_true_iff in H as [H Hf2]. apply andb_true_iff in H as [H Hf1]. apply andb_true_iff in H as [Hb1 Hb2].
  apply N.leb_le in Hb1, Hf1. apply Nat.leb_le in Hb2, Hf2.
  assert (B : ok Ggo e (b, f)).
  { eapply cst_ok; [apply nl_go| |apply rcj_ok|exact E]. intros wa Hw. injection Hw as <-. exact wa_go. }
  apply B in Ht. cbn [fst snd] in Ht. assert (Z : forall p, fb_ok p s k -> fst p <= a -> (snd p <= 1)%nat -> k <= a * (len s + 1)).
  { intros [c d] Hp Hc Hd. unfold fb_ok in Hp. cbn [fst snd] in *. pose proof (X_deg s d 1 Hd) as Y. rewrite X_1 in Y.
    assert (c * X s d <= a * (len s + 1)) by (apply N.mul_le_mono; lia). lia. }
  destruct o as [r|]; [apply toP_ok in Ht|]; eapply Z; eauto.
Qed.
