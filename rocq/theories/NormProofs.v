(** NormalizeOperation, and the operations of parsed trees. *)
From Verif Require Import Base Peg PegProofs Grammar Node Vocab Tree Parse GrammarProofs Syntax
  Blank Lex Ops Complete CompleteMain Sound ParseProofs Unique PegSpecProofs ParserFacts ParserFacts2.
Require Import Arith.

(** ** Trimming *)
Lemma trim_left_all : forall w s, forallb unicode_space w = true -> trim_left (w ++ s) = trim_left s.
Proof. induction w as [|c w IH]; intros s H; [reflexivity|]. cbn in *. apply andb_true_iff in H as [-> H]. now apply IH. Qed.
Lemma trim_left_split : forall s, exists w, s = w ++ trim_left s /\ forallb unicode_space w = true.
Proof.
  induction s as [|c s (w & H1 & H2)]; [exists []; auto|]. cbn. destruct (unicode_space c) eqn:Hc; [|exists []; auto].
  exists (c :: w). cbn. rewrite Hc. split; [congruence|exact H2].
Qed.
Lemma trim_left_head : forall s, trim_left s = [] \/ exists c t, trim_left s = c :: t /\ unicode_space c = false.
Proof. induction s as [|c s IH]; [now left|]. cbn. destruct (unicode_space c) eqn:Hc; [exact IH|]. right. eauto. Qed.
Lemma trim_left_stop : forall c t, unicode_space c = false -> trim_left (c :: t) = c :: t.
Proof. intros c t H. cbn. now rewrite H. Qed.
Lemma trim_left_nil : forall s, trim_left s = [] -> forallb unicode_space s = true.
Proof. induction s as [|c s IH]; [reflexivity|]. cbn. destruct (unicode_space c); [exact IH|discriminate]. Qed.
Definition trim_right (s : list N) : list N := rev (trim_left (rev s)).
Lemma trim_space_eq : forall s, trim_space s = trim_right (trim_left s).
Proof. reflexivity. Qed.
Lemma forallb_rev : forall (p : N -> bool) l, forallb p (rev l) = forallb p l.
Proof. intros p l. induction l as [|x l IH]; [reflexivity|]. cbn. rewrite forallb_app, IH. cbn. rewrite andb_true_r. apply andb_comm. Qed.
Lemma trim_right_all : forall w s, forallb unicode_space w = true -> trim_right (s ++ w) = trim_right s.
Proof. intros w s H. unfold trim_right. rewrite rev_app_distr. f_equal. apply trim_left_all. now rewrite forallb_rev. Qed.
Lemma trim_right_head : forall c s, unicode_space c = false -> exists t, trim_right (c :: s) = c :: t.
Proof.
  intros c s H. unfold trim_right. cbn [rev]. destruct (trim_left_head (rev s)) as [Hn|(d & t & Ht & _)].
  - apply trim_left_nil in Hn. rewrite trim_left_all by exact Hn. cbn. rewrite H. exists []. reflexivity.
  - destruct (trim_left_split (rev s)) as (w & Hw & Hs). rewrite Hw, <- app_assoc, trim_left_all by exact Hs. rewrite Ht. cbn [app]. 
    assert (HD : unicode_space d = false).
    { destruct (trim_left_head (rev s)) as [K|(d' & t' & K & K2)]; rewrite K in Ht; congruence. }
    rewrite trim_left_stop by exact HD. cbn [rev]. rewrite rev_app_distr. cbn. eauto.
Qed.
Lemma trim_left_idem : forall s, trim_left (trim_left s) = trim_left s.
Proof. intro s. destruct (trim_left_head s) as [->|(c & t & -> & H)]; [reflexivity|]. now apply trim_left_stop. Qed.
Lemma trim_right_idem : forall s, trim_right (trim_right s) = trim_right s.
Proof. intro s. unfold trim_right. now rewrite rev_involutive, trim_left_idem. Qed.
(** a text that starts and ends with a non-blank is not changed *)
Lemma trim_space_ends : forall s, trim_space s = s <-> trim_left s = s /\ trim_right s = s.
Proof.
  intro s. rewrite trim_space_eq. split.
  - intro H. assert (HL : trim_left s = s).
    { destruct (trim_left_head s) as [Hn|(c & t & Ht & Hc)]; [rewrite Hn in H; cbn in H; congruence|].
      rewrite Ht in H. destruct (trim_right_head c t Hc) as (u & Hu). rewrite Hu in H. rewrite <- H. now apply trim_left_stop. }
    rewrite HL in H. auto.
  - intros [-> H]. exact H.
Qed.
Lemma trim_space_idem : forall s, trim_space (trim_space s) = trim_space s.
Proof.
  intro s. apply trim_space_ends. rewrite trim_space_eq. split; [|apply trim_right_idem].
  destruct (trim_left_head s) as [->|(c & t & -> & Hc)]; [reflexivity|]. destruct (trim_right_head c t Hc) as (u & ->). now apply trim_left_stop.
Qed.
Lemma trim_pad : forall w s w', forallb unicode_space w = true -> forallb unicode_space w' = true -> trim_space (w ++ s ++ w') = trim_space s.
Proof.
  intros w s w' H H'. rewrite !trim_space_eq, trim_left_all by exact H.
  destruct (trim_left_split s) as (v & Hv & Hs). destruct (trim_left_head s) as [Hn|(c & t & Ht & Hc)].
  - rewrite Hn. apply trim_left_nil in Hn. rewrite trim_left_all by exact Hn.
    rewrite <- (app_nil_r w'). rewrite trim_left_all by exact H'. reflexivity.
  - assert (HX : trim_left (s ++ w') = trim_left s ++ w').
    { rewrite Hv at 1. rewrite <- app_assoc, trim_left_all by exact Hs. rewrite Ht. cbn. now rewrite Hc. }
    rewrite HX. now apply trim_right_all.
Qed.

(** ** Collapsing *)
Local Arguments re_space : simpl never.
Lemma collapse_run : forall w b y, w <> [] -> forallb re_space w = true -> collapse b (w ++ y) = (if b then [] else [32%N]) ++ collapse true y.
Proof.
  induction w as [|c w IH]; intros b y Hn H; [congruence|]. cbn [forallb] in H. apply andb_true_iff in H as [Hc H]. cbn [app collapse]. rewrite Hc.
  destruct w as [|d w]; [destruct b; reflexivity|]. rewrite IH by (auto; discriminate). destruct b; reflexivity.
Qed.
Lemma collapse_mid : forall x w w' y b, w <> [] -> w' <> [] -> forallb re_space w = true -> forallb re_space w' = true ->
  collapse b (x ++ w ++ y) = collapse b (x ++ w' ++ y).
Proof.
  induction x as [|c x IH]; intros w w' y b H1 H2 H3 H4.
  - cbn [app]. now rewrite !collapse_run.
  - cbn [app collapse]. destruct (re_space c); [destruct b; [|f_equal]|f_equal]; now apply IH.
Qed.
Lemma re_unicode : forall c, re_space c = true -> unicode_space c = true.
Proof.
  intros c H. unfold re_space, mem in H. cbn in H. unfold unicode_space, mem. cbn.
  repeat match goal with H : context [(c =? ?k)%N] |- _ => destruct (N.eqb_spec c k); [subst; reflexivity|] end. discriminate.
Qed.
Lemma re_unicode_all : forall w, forallb re_space w = true -> forallb unicode_space w = true.
Proof. intros w H. rewrite forallb_forall in *. intros c Hc. now apply re_unicode, H. Qed.
Lemma re_lower : forall lo c, re_space c = true -> to_lower_rune lo c = c.
Proof.
  intros lo c H. unfold re_space, mem in H. cbn in H.
  repeat match goal with H : context [(c =? ?k)%N] |- _ => destruct (N.eqb_spec c k); [subst; reflexivity|] end. discriminate.
Qed.

(** ** C15 *)
Section Norm.
  Variable lo : N -> N.
  Lemma norm_pad : forall w s w', forallb unicode_space w = true -> forallb unicode_space w' = true ->
    normalize_operation lo (w ++ s ++ w') = normalize_operation lo s.
  Proof. intros w s w' H H'. unfold normalize_operation. now rewrite trim_pad. Qed.
  Lemma trim_mid : forall a w b, forallb unicode_space w = true ->
    (trim_space (a ++ w ++ b) = trim_space a /\ forallb unicode_space b = true) \/
    (trim_space (a ++ w ++ b) = trim_space b /\ forallb unicode_space a = true) \/
    (trim_space (a ++ w ++ b) = trim_left a ++ w ++ trim_right b /\ forallb unicode_space a = false /\ forallb unicode_space b = false).
  Proof.
    intros a w b Hw. destruct (forallb unicode_space b) eqn:Hb; [left; split; [|reflexivity]|right].
    { assert (X : forallb unicode_space (w ++ b) = true) by (rewrite forallb_app, Hw; exact Hb).
      rewrite <- (trim_pad [] a (w ++ b) eq_refl X). reflexivity. }
    destruct (forallb unicode_space a) eqn:Ha; [left; split; [|reflexivity]|right].
    { assert (X : forallb unicode_space (a ++ w) = true) by (rewrite forallb_app, Ha; exact Hw).
      rewrite <- (trim_pad (a ++ w) b [] X eq_refl). now rewrite app_nil_r, <- app_assoc. }
    split; [|split; reflexivity]. rewrite trim_space_eq.
    destruct (trim_left_split a) as (v & Hv & Hs). destruct (trim_left_head a) as [Hn|(c & t & Ht & Hc)]; [apply trim_left_nil in Hn; congruence|].
    assert (X1 : trim_left (a ++ w ++ b) = trim_left a ++ w ++ b).
    { rewrite Hv at 1. rewrite <- app_assoc, trim_left_all by exact Hs. rewrite Ht. cbn. now rewrite Hc. }
    rewrite X1. unfold trim_right. rewrite !rev_app_distr.
    destruct (trim_left_split (rev b)) as (v' & Hv' & Hs'). destruct (trim_left_head (rev b)) as [Hn|(d & u & Hu & Hd)].
    { apply trim_left_nil in Hn. rewrite forallb_rev in Hn. congruence. }
    rewrite Hv' at 1. rewrite <- !app_assoc, trim_left_all by exact Hs'. rewrite Hu. cbn [app]. rewrite trim_left_stop by exact Hd.
    cbn [rev]. rewrite !rev_app_distr, !rev_involutive, <- !app_assoc. reflexivity.
  Qed.
  Lemma map_re : forall w, forallb re_space w = true -> map (to_lower_rune lo) w = w.
  Proof.
    induction w as [|c w IH]; intro H; [reflexivity|]. cbn [forallb map] in *. apply andb_true_iff in H as [Hc H]. now rewrite re_lower, IH.
  Qed.
  Lemma norm_blank : forall a w w' b, w <> [] -> w' <> [] -> forallb re_space w = true -> forallb re_space w' = true ->
    normalize_operation lo (a ++ w ++ b) = normalize_operation lo (a ++ w' ++ b).
  Proof.
    intros a w w' b H1 H2 H3 H4. unfold normalize_operation.
    destruct (trim_mid a w b (re_unicode_all _ H3)) as [[X Xb]|[[X Xa]|[X [Xa Xb]]]];
    destruct (trim_mid a w' b (re_unicode_all _ H4)) as [[Y Yb]|[[Y Ya]|[Y [Ya Yb]]]]; rewrite X, Y; try congruence.
    - assert (HA : trim_space a = []). { replace a with (a ++ [] ++ []) by apply app_nil_r. now rewrite trim_pad. }
      assert (HB : trim_space b = []). { replace b with (b ++ [] ++ []) by apply app_nil_r. now rewrite trim_pad. }
      now rewrite HA, HB.
    - assert (HA : trim_space a = []). { replace a with (a ++ [] ++ []) by apply app_nil_r. now rewrite trim_pad. }
      assert (HB : trim_space b = []). { replace b with (b ++ [] ++ []) by apply app_nil_r. now rewrite trim_pad. }
      now rewrite HA, HB.
    - rewrite !map_app, (map_re w), (map_re w') by assumption. now rewrite (collapse_mid _ w w').
  Qed.
  Lemma lower_space : forall c, unicode_space (ascii_lower c) = unicode_space c.
  Proof.
    intro c. unfold ascii_lower. destruct ((65 <=? c) && (c <=? 90))%N eqn:H; [|reflexivity]. apply andb_true_iff in H as [H1 H2]. apply N.leb_le in H1, H2.
    unfold unicode_space, mem. cbn [existsb].
    repeat match goal with |- context [(?k =? ?j)%N] => destruct (N.eqb_spec k j); [lia|] end.
    destruct (N.leb_spec 8192 (c + 32)); [lia|]. destruct (N.leb_spec 8192 c); [lia|]. reflexivity.
  Qed.
  Lemma lower_trim_left : forall s, map ascii_lower (trim_left s) = trim_left (map ascii_lower s).
  Proof. induction s as [|c s IH]; [reflexivity|]. cbn. rewrite lower_space. destruct (unicode_space c); [exact IH|reflexivity]. Qed.
  Lemma lower_trim : forall s, map ascii_lower (trim_space s) = trim_space (map ascii_lower s).
  Proof. intro s. unfold trim_space. now rewrite map_rev, lower_trim_left, map_rev, lower_trim_left. Qed.
  Lemma lower_rune : forall c, to_lower_rune lo (ascii_lower c) = to_lower_rune lo c.
  Proof.
    intro c. unfold to_lower_rune, lower_ascii, ascii_lower. destruct ((65 <=? c) && (c <=? 90))%N eqn:H; [|rewrite H; reflexivity].
    apply andb_true_iff in H as [H1 H2]. apply N.leb_le in H1, H2. destruct (N.ltb_spec (c + 32) 128); [|lia]. destruct (N.ltb_spec c 128); [|lia].
    destruct (N.leb_spec 65 (c + 32)); [|lia]. destruct (N.leb_spec (c + 32) 90); [lia|]. reflexivity.
  Qed.
  Lemma norm_lower : forall s, normalize_operation lo (map ascii_lower s) = normalize_operation lo s.
  Proof.
    intro s. unfold normalize_operation. rewrite <- lower_trim, map_map. now rewrite (map_ext _ _ lower_rune).
  Qed.
  Lemma norm_case : forall s s', map ascii_lower s = map ascii_lower s' -> normalize_operation lo s = normalize_operation lo s'.
  Proof. intros s s' H. now rewrite <- norm_lower, H, norm_lower. Qed.

  (** idempotence: what is needed of unicode.ToLower on runes above 127 *)
  Hypothesis lower_idem : forall c, to_lower_rune lo (to_lower_rune lo c) = to_lower_rune lo c.
  Hypothesis lower_nospace : forall c, unicode_space c = false -> unicode_space (to_lower_rune lo c) = false.
  Lemma collapse_in : forall s b c, In c (collapse b s) -> c = 32%N \/ (In c s /\ re_space c = false).
  Proof.
    induction s as [|x s IH]; intros b c H; [destruct H|]. cbn in H. destruct (re_space x) eqn:Hx.
    - destruct b; [destruct (IH _ _ H) as [|[? ?]]; auto; right; split; [now right|assumption]|].
      destruct H as [<-|H]; [now left|]. destruct (IH _ _ H) as [|[? ?]]; auto; right; split; [now right|assumption].
    - destruct H as [<-|H]; [right; split; [now left|exact Hx]|]. destruct (IH _ _ H) as [|[? ?]]; auto; right; split; [now right|assumption].
  Qed.
  (** no blank other than 32, no two of them adjacent, none at the front when [b] *)
  Fixpoint thin (b : bool) (s : list N) : bool :=
    match s with
    | [] => true
    | c :: t => if re_space c then (c =? 32)%N && negb b && thin true t else thin false t
    end.
  Lemma collapse_thin : forall s b, thin b (collapse b s) = true.
  Proof.
    induction s as [|c s IH]; intro b; [reflexivity|]. cbn. destruct (re_space c) eqn:Hc; [destruct b; [apply IH|cbn; apply IH]|]. cbn. rewrite Hc. apply IH.
  Qed.
  Lemma thin_collapse : forall s b, thin b s = true -> collapse b s = s.
  Proof.
    induction s as [|c s IH]; intros b H; [reflexivity|]. cbn in *. destruct (re_space c).
    - apply andb_true_iff in H as [H H3]. apply andb_true_iff in H as [H1 H2]. apply N.eqb_eq in H1. subst. destruct b; [discriminate|]. now rewrite IH.
    - now rewrite IH.
  Qed.
  Lemma collapse_ends : forall s, trim_space s = s -> trim_space (collapse false s) = collapse false s.
  Proof.
    intros s H. apply trim_space_ends in H as [HL HR]. apply trim_space_ends.
    assert (X : forall s b, trim_right s = s -> s <> [] -> exists m c, unicode_space c = false /\ collapse b s = m ++ [c]).
    { clear. intros s. induction s as [|x s IH] using rev_ind; [congruence|]. intros b H _. unfold trim_right in H.
      rewrite rev_app_distr in H. cbn in H. destruct (unicode_space x) eqn:Hx.
      - exfalso. apply (f_equal (@length _)) in H. rewrite rev_length, app_length in H. cbn in H.
        destruct (trim_left_split (rev s)) as (w & Hw & _). apply (f_equal (@length _)) in Hw. rewrite app_length, rev_length in Hw. lia.
      - assert (HR : re_space x = false) by (destruct (re_space x) eqn:K; [apply re_unicode in K; congruence|reflexivity]).
        clear IH H. exists (collapse b s), x. split; [exact Hx|]. revert b. induction s as [|c s IHs]; intro b; [cbn; now rewrite HR|].
        cbn. destruct (re_space c); [destruct b; [apply IHs|cbn; f_equal; apply IHs]|cbn; f_equal; apply IHs]. }
    destruct s as [|c s]; [split; reflexivity|]. split.
    - cbn in HL. destruct (unicode_space c) eqn:Hc.
      + exfalso. destruct (trim_left_split s) as (w & Hw & _). apply (f_equal (@length _)) in Hw. rewrite app_length, HL in Hw. cbn in Hw. lia.
      + cbn. destruct (re_space c) eqn:K; [apply re_unicode in K; congruence|]. now apply trim_left_stop.
    - destruct (X (c :: s) false HR ltac:(discriminate)) as (m & d & Hd & ->). unfold trim_right. rewrite rev_app_distr. cbn [rev app].
      rewrite trim_left_stop by exact Hd. cbn. now rewrite rev_involutive.
  Qed.
  Lemma trim_left_lower : forall s, trim_left s = s -> trim_left (map (to_lower_rune lo) s) = map (to_lower_rune lo) s.
  Proof.
    intros s H. destruct s as [|c s]; [reflexivity|]. cbn in H. destruct (unicode_space c) eqn:Hc.
    - exfalso. destruct (trim_left_split s) as (w & Hw & _). apply (f_equal (@length _)) in Hw. rewrite app_length, H in Hw. cbn in Hw. lia.
    - cbn [map]. apply trim_left_stop. now apply lower_nospace.
  Qed.
  Lemma trim_lower : forall s, trim_space s = s -> trim_space (map (to_lower_rune lo) s) = map (to_lower_rune lo) s.
  Proof.
    intros s H. apply trim_space_ends in H as [HL HR]. apply trim_space_ends. split; [now apply trim_left_lower|].
    unfold trim_right in *. assert (HR' : trim_left (rev s) = rev s) by (rewrite <- HR at 2; now rewrite rev_involutive).
    rewrite <- map_rev. rewrite trim_left_lower by exact HR'. now rewrite map_rev, rev_involutive.
  Qed.
  Lemma assoc_in : forall A k (m : list (list N * A)) v, assoc k m = Some v -> In (k, v) m.
  Proof.
    intros A k m v. induction m as [|[k' v'] m IH]; [discriminate|]. cbn. destruct (streq_spec k k') as [->|]; intro H; [injection H as ->; now left|]. right. auto.
  Qed.
  Lemma norm_values : forall k v, In (k, v) normalize_map -> normalize_operation lo v = v.
  Proof. intros k v H. cbn in H. decompose [or] H; try contradiction; match goal with H : _ = _ |- _ => injection H as <- <-; reflexivity end. Qed.
  Lemma norm_idem : forall s, normalize_operation lo (normalize_operation lo s) = normalize_operation lo s.
  Proof.
    intro s. set (s3 := collapse false (map (to_lower_rune lo) (trim_space s))).
    assert (H3 : normalize_operation lo s = match assoc s3 normalize_map with Some v => v | None => s3 end) by reflexivity.
    rewrite H3. destruct (assoc s3 normalize_map) as [v|] eqn:HA.
    - apply assoc_in in HA. eapply norm_values. exact HA.
    - unfold normalize_operation.
      assert (T : trim_space s3 = s3) by (apply collapse_ends, trim_lower, trim_space_idem).
      assert (L : map (to_lower_rune lo) s3 = s3).
      { rewrite <- (map_id s3) at 2. apply map_ext_in. intros c Hc. apply collapse_in in Hc as [->|[Hc _]]; [reflexivity|].
        apply in_map_iff in Hc as (d & <- & _). apply lower_idem. }
      rewrite T, L. unfold s3 at 1 2. rewrite thin_collapse by apply collapse_thin. fold s3. now rewrite HA.
  Qed.
End Norm.

(** ** The code's name of an operation is the specified one *)
Fixpoint ends_ok (s : list N) : bool :=
  match s with [] => true | [c] => negb (white c) | _ :: t => ends_ok t end.
Lemma ends_tail : forall c t, ends_ok (c :: t) = true -> ends_ok t = true.
Proof. intros c [|d t] H; [reflexivity|exact H]. Qed.
Lemma pieces_collapse : forall s, ends_ok s = true ->
  (forall acc, acc <> [] -> join_with #" " (pieces acc s) = acc ++ collapse false s /\ pieces acc s <> []) /\
  (s <> [] -> join_with #" " (pieces [] s) = collapse true s /\ pieces [] s <> []).
Proof.
  induction s as [|c s IH]; intro H.
  - split; [|congruence]. intros [|a acc] Hn; [congruence|]. cbn. split; [now rewrite app_nil_r|discriminate].
  - destruct (IH (ends_tail _ _ H)) as [I1 I2]. clear IH.
    assert (W : white c = true -> s <> []). { intros Hw ->. cbn [ends_ok] in H. rewrite Hw in H. discriminate. }
    cbn [pieces collapse]. change (re_space c) with (white c). destruct (white c) eqn:Hc.
    + specialize (I2 (W eq_refl)) as [J1 J2]. split; [|intros _; auto].
      intros [|a acc] Hn; [congruence|]. split; [|discriminate]. cbn [join_with]. destruct (pieces [] s) eqn:E; [congruence|]. now rewrite J1.
    + split.
      * intros acc Hn. destruct (I1 (acc ++ [c])) as [J1 J2]; [now destruct acc|]. split; [|exact J2]. now rewrite J1, <- app_assoc.
      * intros _. destruct (I1 ([] ++ [c])) as [J1 J2]; [discriminate|]. split; [exact J1|exact J2].
Qed.
Lemma pieces_one : forall c s, white c = false -> ends_ok (c :: s) = true -> join_with #" " (pieces [] (c :: s)) = collapse false (c :: s).
Proof.
  intros c s Hc H. destruct (pieces_collapse _ (ends_tail _ _ H)) as [I _]. cbn [pieces collapse]. change (re_space c) with (white c). rewrite Hc.
  apply (I ([] ++ [c])). discriminate.
Qed.
Lemma symbols_table : forall s, find (fun k => streq (fst k) s) symbol_names = match assoc s normalize_map with Some v => Some (s, v) | None => None end.
Proof.
  intro s.
  assert (N : forall a, a <> s -> streq a s = false /\ streq s a = false).
  { intros a H. split; [destruct (streq_spec a s)|destruct (streq_spec s a)]; congruence. }
  unfold symbol_names, normalize_map. cbn [find fst assoc].
  repeat match goal with |- context [streq ?k s] => destruct (streq_spec k s) as [<-|?]; [reflexivity|] end.
  repeat match goal with H : ?k <> s |- _ => apply N in H as [_ ->] end.
  reflexivity.
Qed.

Definition edge (c : N) : bool := ((33 <=? c) && (c <? 127))%N.
Definition edged (o : list N) : Prop := edge (hd 0%N o) = true /\ edge (last o 0%N) = true.
Lemma edge_lower : forall c, edge (ascii_lower c) = edge c.
Proof.
  intro c. unfold ascii_lower. destruct ((65 <=? c) && (c <=? 90))%N eqn:H; [|reflexivity]. apply andb_true_iff in H as [H1 H2]. apply N.leb_le in H1, H2.
  unfold edge. destruct (N.leb_spec 33 (c + 32)); [|lia]. destruct (N.ltb_spec (c + 32) 127); [|lia].
  destruct (N.leb_spec 33 c); [|lia]. destruct (N.ltb_spec c 127); [|lia]. reflexivity.
Qed.
Lemma edge_facts : forall lo c, edge c = true -> unicode_space c = false /\ white (lower lo c) = false.
Proof.
  intros lo c H. rewrite <- edge_lower in H. assert (Hc : (c < 127)%N).
  { rewrite edge_lower in H. unfold edge in H. apply andb_true_iff in H as [_ H]. now apply N.ltb_lt. }
  unfold lower. destruct (N.ltb_spec c 128); [|lia]. rewrite <- lower_space. set (d := ascii_lower c) in *. clearbody d. clear Hc H0 c.
  unfold edge in H. apply andb_true_iff in H as [H1 H2]. apply N.leb_le in H1. apply N.ltb_lt in H2.
  unfold unicode_space, white, mem. cbn [existsb].
  repeat match goal with |- context [(?k =? ?j)%N] => destruct (N.eqb_spec k j); [lia|] end.
  destruct (N.leb_spec 8192 d); [lia|]. split; reflexivity.
Qed.
Lemma ends_last : forall s, s <> [] -> ends_ok s = negb (white (last s 0%N)).
Proof.
  induction s as [|c s IH]; intro H; [congruence|]. destruct s as [|d s]; [reflexivity|]. apply IH. discriminate.
Qed.
Lemma last_map : forall (f : N -> N) s d, s <> [] -> last (map f s) d = f (last s d).
Proof. induction s as [|c s IH]; intros d H; [congruence|]. destruct s as [|e s]; [reflexivity|]. apply IH. discriminate. Qed.
Lemma last_rev : forall (s : list N) d, hd d (rev s) = last s d.
Proof. intros s d. induction s as [|x s IH] using rev_ind; [reflexivity|]. rewrite rev_app_distr, last_last. reflexivity. Qed.
Lemma norm_core : forall lo o, o <> [] -> unicode_space (hd 0%N o) = false -> unicode_space (last o 0%N) = false ->
  white (lower lo (hd 0%N o)) = false -> white (lower lo (last o 0%N)) = false -> normalize_operation lo o = op_name lo o.
Proof.
  intros lo o Hn S1 S2 W1 W2. destruct o as [|c o]; [congruence|]. cbn [hd] in S1, W1.
  unfold normalize_operation. assert (T : trim_space (c :: o) = c :: o).
  { apply trim_space_ends. split; [now apply trim_left_stop|]. unfold trim_right. rewrite <- last_rev in S2.
    destruct (rev (c :: o)) as [|d r] eqn:E; [apply (f_equal (@rev N)) in E; rewrite rev_involutive in E; discriminate|].
    cbn [hd] in S2. rewrite trim_left_stop by exact S2. rewrite <- E. apply rev_involutive. }
  rewrite T. unfold op_name. change (to_lower_rune lo) with (lower lo). rewrite symbols_table.
  assert (J : join_with #" " (pieces [] (map (lower lo) (c :: o))) = collapse false (map (lower lo) (c :: o))).
  { cbn [map]. apply pieces_one; [exact W1|]. rewrite ends_last by discriminate. change (lower lo c :: map (lower lo) o) with (map (lower lo) (c :: o)).
    rewrite last_map by discriminate. now rewrite W2. }
  rewrite J. destruct (assoc _ normalize_map); reflexivity.
Qed.
Lemma norm_name : forall lo o, edged o -> normalize_operation lo o = op_name lo o.
Proof.
  intros lo o [H1 H2]. destruct (edge_facts lo _ H1) as [S1 W1]. destruct (edge_facts lo _ H2) as [S2 W2].
  apply norm_core; auto. intros ->. discriminate.
Qed.
(** C15: the whole function *)
Lemma norm_exact : forall lo, (forall c, spacing c = false -> white (lower lo c) = false) -> forall w m w',
  forallb spacing w = true -> forallb spacing w' = true -> (m <> [] -> spacing (hd 0%N m) = false /\ spacing (last m 0%N) = false) ->
  normalize_operation lo (w ++ m ++ w') = op_name lo m.
Proof.
  intros lo HL w m w' H H' Hm. rewrite norm_pad by assumption. destruct m as [|c m]; [reflexivity|].
  destruct (Hm ltac:(discriminate)) as [S1 S2]. apply norm_core; auto. discriminate.
Qed.

Lemma edged_ci : forall w o, ci w o -> edged w -> edged o.
Proof.
  intros w o H [H1 H2]. unfold ci in H. subst w. destruct o as [|c o]; [exact (conj H1 H2)|]. rewrite last_map in H2 by discriminate.
  cbn [map hd] in H1. rewrite edge_lower in H1, H2. split; assumption.
Qed.
Lemma edged_join : forall a g b, edged a -> edged b -> edged (a ++ g ++ b).
Proof.
  intros a g b [H1 H2] [H3 H4]. split; [destruct a; [discriminate|exact H1]|]. rewrite app_assoc. destruct b as [|c b]; [discriminate|].
  assert (L : forall x y : list N, y <> [] -> last (x ++ y) 0%N = last y 0%N).
  { induction x as [|k x IH]; intros y Hy; [reflexivity|]. cbn [app last]. rewrite IH by exact Hy. destruct (x ++ y) eqn:E; [destruct x; [now cbn in E|discriminate]|reflexivity]. }
  rewrite L by discriminate. exact H4.
Qed.
Lemma edged_not : forall x o, not_then x o -> edged x -> edged o.
Proof. intros x o (n & g & Hn & _ & ->) Hx. apply edged_join; [|exact Hx]. eapply edged_ci; [exact Hn|]. split; reflexivity. Qed.
Ltac edged_word := first [split; reflexivity | eapply edged_ci; [eassumption|split; reflexivity]].
Lemma edged_between : forall o, op_between o -> edged o.
Proof. intros o [->|H]; [edged_word|]. apply (edged_not _ _ H). edged_word. Qed.
Lemma edged_tfn : forall x, tfn x -> edged x.
Proof. intros x H. unfold tfn in H. cbn in H. destruct H as [<-|[<-|[<-|[]]]]; edged_word. Qed.
Lemma edged_match : forall o, op_match o -> edged o.
Proof.
  intros o [->|[->|[(g & x & _ & Hx & ->)|(g & g' & x & _ & _ & Hx & ->)]]]; [edged_word|edged_word| |].
  - apply edged_join; [edged_word|now apply edged_tfn].
  - apply edged_join; [edged_word|]. apply edged_join; [edged_word|now apply edged_tfn].
Qed.
Lemma edged_in : forall o, op_in o -> edged o.
Proof. intros o [H|(x & Hx & H)]; [edged_word|]. apply (edged_not _ _ H). edged_word. Qed.
Lemma edged_cmp : forall o, op_cmp o -> edged o.
Proof.
  intros o [H|[H|[H|[H|[H|[H|(x & Hx & H)]]]]]]; try edged_word.
  - cbn in H. decompose [or] H; subst; try contradiction; edged_word.
  - apply (edged_not _ _ H). edged_word.
Qed.
Lemma edged_logic : forall o, op_logic o -> edged o.
Proof. intros o [H|[H|[ -> | -> ]]]; edged_word. Qed.

Lemma ntree_tree : forall lo e t, lay e t -> ntree lo e = tree_of lo e.
Proof.
  intro lo. refine (lay_mind (fun e t _ => ntree lo e = tree_of lo e) (fun es t _ => map (ntree lo) es = map (tree_of lo) es)
    _ _ _ _ _ _ _ _ _ _ _ _ _ _ _ _ _ _); intros; try reflexivity; cbn [ntree tree_of map]; unfold opn.
  - now rewrite H.
  - now rewrite H.
  - now rewrite H.
  - now rewrite H, norm_name by now apply edged_between.
  - now rewrite H, norm_name by now apply edged_between.
  - now rewrite H, norm_name by now apply edged_match.
  - now rewrite H, norm_name by now apply edged_in.
  - now rewrite H, H0, norm_name by now apply edged_cmp.
  - now rewrite H.
  - now rewrite H, H0, norm_name by now apply edged_logic.
  - now rewrite H.
  - now rewrite H, H0.
Qed.
Lemma ntree_reads : forall lo q e, reads q e -> ntree lo e = tree_of lo e.
Proof. intros lo q e (w1 & t & w2 & _ & _ & _ & H). eapply ntree_tree. exact H. Qed.

(** ** C16: the operations of a parsed tree *)

(** the pointer fields of a node *)
Definition children (n : node) : list (option node) :=
  nArray n ++ [nExpression n; nLeft n; nOp n; nRight n] ++ nParams n.
Inductive reach : node -> node -> Prop :=
| reach_refl : forall n, reach n n
| reach_step : forall n k m, In (Some k) (children n) -> reach k m -> reach n m.
Definition is_operation (n : node) : bool := match nType n with NOperation => true | _ => false end.

Definition vocabulary : list (list N) :=
  [#"between"; #"not between"; #"is null"; #"is not null"; #"is true"; #"is not true"; #"is false"; #"is not false";
   #"in"; #"not in"; #"gt"; #"gte"; #"lt"; #"lte"; #"eq"; #"neq"; #"like"; #"not like"; #"and"; #"or"].

(** a text without comment markers *)
Definition marker_free (t : list N) : Prop := forall a m b, m = #"--" \/ m = #"//" -> t <> a ++ m ++ b.

Lemma mf_app : forall x y, marker_free (x ++ y) -> marker_free x /\ marker_free y.
Proof.
  intros x y H. split; intros a m b Hm E; subst.
  - apply (H a m (b ++ y) Hm). now rewrite <- !app_assoc.
  - apply (H (x ++ a) m b Hm). now rewrite <- !app_assoc.
Qed.
Ltac mfs := repeat match goal with H : marker_free (_ ++ _) |- _ => apply mf_app in H as [? ?] end.

Lemma blank_mf : forall w, blank w -> marker_free w -> forallb re_space w = true.
Proof.
  induction 1 as [|c w Hc _ IH|m body c w Hm _ _ _ _]; intro H; [reflexivity| |].
  - cbn [forallb]. apply andb_true_iff. split.
    + unfold mem in Hc. cbn in Hc. unfold re_space, mem. cbn.
      repeat match goal with H : context [(c =? ?k)%N] |- _ => destruct (N.eqb_spec c k); [subst; reflexivity|] end. discriminate.
    + apply IH. intros a m b Hm E. subst. now apply (H (c :: a) m b Hm).
  - exfalso. now apply (H [] m (body ++ c :: w) Hm).
Qed.

Section Vocab.
  Variable lo : N -> N.
  Let nm := normalize_operation lo.
  Lemma gap_norm : forall a g b, gap1 g -> marker_free g -> nm (a ++ g ++ b) = nm (a ++ #" " ++ b).
  Proof. intros a g b [Hg Hn] H. apply norm_blank; auto; [discriminate|now apply blank_mf]. Qed.
  Lemma ci_app : forall w o x, ci w o -> map ascii_lower (o ++ x) = w ++ map ascii_lower x.
  Proof. intros w o x H. now rewrite map_app, H. Qed.
  Lemma norm_ci : forall w o, ci w o -> nm o = nm w.
  Proof.
    intros w o H. unfold ci in H. apply norm_case. rewrite <- H. rewrite map_map. apply map_ext. intro c. unfold ascii_lower.
    destruct ((65 <=? c) && (c <=? 90))%N eqn:K; [|now rewrite K]. apply andb_true_iff in K as [K1 K2]. apply N.leb_le in K1, K2.
    destruct (N.leb_spec 65 (c + 32)); [|reflexivity]. destruct (N.leb_spec (c + 32) 90); [lia|reflexivity].
  Qed.
  Lemma norm_not : forall x w o, not_then x o -> ci w x -> marker_free o -> nm o = nm (#"not " ++ w).
  Proof.
    intros x w o (n & g & Hn & Hg & ->) Hx H. mfs. rewrite gap_norm by assumption.
    apply norm_ci. unfold ci in *. now rewrite !map_app, Hn, Hx.
  Qed.
  Lemma voc_between : forall o, op_between o -> marker_free o -> In (nm o) vocabulary.
  Proof.
    intros o [->|H] M; [cbn; tauto|]. rewrite (norm_not _ #"between" _ H eq_refl M). cbn. tauto.
  Qed.
  Lemma voc_match : forall o, op_match o -> marker_free o -> In (nm o) vocabulary.
  Proof.
    intros o [->|[->|[(g & x & Hg & Hx & ->)|(g & g' & x & Hg & Hg' & Hx & ->)]]] M; [cbn; tauto|cbn; tauto| |].
    - mfs. rewrite gap_norm by assumption. unfold tfn in Hx. cbn in Hx. decompose [or] Hx; try contradiction; subst; cbn; tauto.
    - mfs. rewrite gap_norm by assumption.
      replace (#"is" ++ #" " ++ #"not" ++ g' ++ x) with ((#"is" ++ #" " ++ #"not") ++ g' ++ x) by reflexivity.
      rewrite gap_norm by assumption. unfold tfn in Hx. cbn in Hx. decompose [or] Hx; try contradiction; subst; cbn; tauto.
  Qed.
  Lemma voc_in : forall o, op_in o -> marker_free o -> In (nm o) vocabulary.
  Proof.
    intros o [H|(x & Hx & H)] M; [rewrite (norm_ci _ _ H); cbn; tauto|]. rewrite (norm_not _ #"in" _ H Hx M). cbn. tauto.
  Qed.
  Lemma voc_cmp : forall o, op_cmp o -> marker_free o -> In (nm o) vocabulary.
  Proof.
    intros o H M. destruct H as [H|[H|[H|[H|[H|[H|(x & Hx & H)]]]]]].
    - unfold cmp_symbols in H. cbn in H. decompose [or] H; try contradiction; subst; cbn; tauto.
    - rewrite (norm_ci _ _ H); cbn; tauto.
    - rewrite (norm_ci _ _ H); cbn; tauto.
    - rewrite (norm_ci _ _ H); cbn; tauto.
    - rewrite (norm_ci _ _ H); cbn; tauto.
    - rewrite (norm_ci _ _ H); cbn; tauto.
    - rewrite (norm_not _ #"like" _ H Hx M). cbn. tauto.
  Qed.
  Lemma voc_logic : forall o, op_logic o -> marker_free o -> In (nm o) vocabulary.
  Proof.
    intros o [H|[H|[->| ->]]] M; [rewrite (norm_ci _ _ H); cbn; tauto|rewrite (norm_ci _ _ H); cbn; tauto|cbn; tauto|cbn; tauto].
  Qed.

  (** every operation below [n] is the normal form of an operator written in [t] *)
  Definition any_operator (o : list N) : Prop := op_between o \/ op_match o \/ op_in o \/ op_cmp o \/ op_logic o.
  Definition opsrc (t : list N) (m : node) : Prop :=
    is_operation m = true -> exists a o b, t = a ++ o ++ b /\ any_operator o /\ nOperation m = nm o.
  Definition under (t : list N) (x : option node) : Prop :=
    match x with None => True | Some n => forall m, reach n m -> opsrc t m end.
  Lemma under_node : forall t n, opsrc t n -> Forall (under t) (children n) -> under t (Some n).
  Proof.
    intros t n H HF m Hr. inversion Hr as [|? k ? Hk Hkm]; subst; [exact H|]. rewrite Forall_forall in HF. now apply (HF _ Hk).
  Qed.
  Lemma under_app : forall a t b x, under t x -> under (a ++ t ++ b) x.
  Proof.
    intros a t b [n|] H; [|exact I]. intros m Hr Ho. destruct (H m Hr Ho) as (a' & o & b' & -> & H1 & H2).
    exists (a ++ a'), o, (b' ++ b). rewrite <- !app_assoc. auto.
  Qed.
  Lemma unders_app : forall a t b l, Forall (under t) l -> Forall (under (a ++ t ++ b)) l.
  Proof. intros a t b l H. eapply Forall_impl; [|exact H]. intros x Hx. now apply under_app. Qed.
  Lemma under_opn : forall a o b, any_operator o -> under (a ++ o ++ b) (opn lo o).
  Proof. intros a o b H. apply under_node; [|repeat constructor]. intros _. exists a, o, b. auto. Qed.
  Lemma noop : forall t n, is_operation n = false -> opsrc t n.
  Proof. intros t n H H'. congruence. Qed.
  Lemma under_lit : forall t l, under t (Some (lnode l)).
  Proof. intros t l. apply under_node; [apply noop; now destruct l|]. destruct l; repeat constructor. Qed.
  Lemma under_val : forall t v, under t (Some (vnode v)).
  Proof.
    intros t [l|p ls]; [apply under_lit|]. apply under_node; [now apply noop|]. cbn [vnode children mk_array nArray nExpression nLeft nOp nRight nParams].
    apply Forall_app. split; [|repeat constructor]. apply Forall_forall. intros x Hx. apply in_map_iff in Hx as (l & <- & _). apply under_lit.
  Qed.
  Lemma last_under : forall t l, Forall (under t) l -> under t (last l None).
  Proof. intros t l H. induction H as [|x l Hx Hl IH]; [exact I|]. destruct l; [exact Hx|exact IH]. Qed.
  Lemma removelast_under : forall t l, Forall (under t) l -> Forall (under t) (removelast l).
  Proof. intros t l H. induction H as [|x l Hx Hl IH]; [constructor|]. destruct l; [constructor|]. constructor; [exact Hx|exact IH]. Qed.
  Lemma red1_under : forall t f l, (forall x, under t x -> under t (Some (f x))) -> Forall (under t) l -> Forall (under t) (red1 f l).
  Proof. intros t f l Hf H. unfold red1. apply Forall_app. split; [now apply removelast_under|]. constructor; [|constructor]. now apply Hf, last_under. Qed.
  Lemma red3_under : forall t f l, (forall x y z, under t x -> under t y -> under t z -> under t (Some (f x y z))) ->
    Forall (under t) l -> Forall (under t) (red3 f l).
  Proof.
    intros t f l Hf H. unfold red3. pose proof (removelast_under _ _ H) as H1. pose proof (removelast_under _ _ H1) as H2.
    apply Forall_app. split; [now apply removelast_under|]. constructor; [|constructor]. apply Hf; now apply last_under.
  Qed.
  Ltac und := apply under_node; [now apply noop|]; cbn [children mk_compare mk_logic mk_not mk_paren mk_predicate mk_between mk_function mk_reference nArray nExpression nLeft nOp nRight nParams app];
    repeat (apply Forall_cons || apply Forall_nil); try exact I; auto.
  Lemma idents_under : forall t xs, Forall (under t) (map (fun x => Some (mk_ident x)) xs).
  Proof. intros t xs. apply Forall_forall. intros x Hx. apply in_map_iff in Hx as (y & <- & _). und. Qed.
  Lemma stk_under_mut :
    (forall e t, lay e t -> Forall (under t) (stk lo e)) /\
    (forall es t, lays es t -> Forall (under t) (concat (map (stk lo) es))).
  Proof.
    apply lay_lays_ind; intros; cbn [stk map concat].
    - constructor; [apply under_lit|constructor].
    - constructor; [apply (under_val _ (VArr p ls))|constructor].
    - constructor; [und|constructor].
    - constructor; [und|constructor].
    - apply (idents_under _ (x :: y :: xs)).
    - constructor; [und|constructor].
    - constructor; [|constructor]. apply under_node; [now apply noop|]. cbn [children mk_function nArray nExpression nLeft nOp nRight nParams app].
      repeat apply Forall_cons; try exact I. replace (f ++ #"(" ++ w1 ++ t ++ w2 ++ #")") with ((f ++ #"(" ++ w1) ++ t ++ w2 ++ #")") by now rewrite <- !app_assoc.
      now apply unders_app.
    - constructor; [|constructor]. apply under_node; [now apply noop|]. cbn [children mk_function nArray nExpression nLeft nOp nRight nParams app].
      repeat apply Forall_cons; try exact I. replace (f ++ #"(" ++ w1 ++ t ++ w2 ++ #"," ++ w3 ++ #")") with ((f ++ #"(" ++ w1) ++ t ++ w2 ++ #"," ++ w3 ++ #")") by now rewrite <- !app_assoc.
      now apply unders_app.
    - apply red1_under; [intros x Hx; und|]. replace (#"(" ++ w1 ++ t ++ w2 ++ #")") with ((#"(" ++ w1) ++ t ++ w2 ++ #")") by now rewrite <- !app_assoc.
      now apply unders_app.
    - apply red1_under; [|apply (unders_app [] t); assumption]. intros x Hx. und.
      + rewrite app_assoc. apply under_opn. now left.
      + apply under_val.
      + apply under_val.
    - apply red1_under; [|apply (unders_app [] t); assumption]. intros x Hx. und.
      + rewrite app_assoc. apply under_opn. now left.
      + apply under_val.
      + apply under_val.
    - apply red1_under; [|apply (unders_app [] t); assumption]. intros x Hx. und.
      rewrite <- (app_nil_r o) at 1. rewrite app_assoc. apply under_opn. right. now left.
    - apply red1_under; [|apply (unders_app [] t); assumption]. intros x Hx. und.
      + rewrite app_assoc. apply under_opn. right. right. now left.
      + apply (under_val _ (VArr p ls)).
    - apply red3_under; [intros x y z Hx Hy Hz; und|]. apply Forall_app. split; [apply (unders_app [] tl); assumption|].
      constructor; [rewrite app_assoc; apply under_opn; right; right; right; now left|].
      replace (tl ++ w1 ++ o ++ w2 ++ tr) with ((tl ++ w1 ++ o ++ w2) ++ tr ++ []) by (rewrite app_nil_r; now rewrite <- !app_assoc). now apply unders_app.
    - apply red1_under; [intros x Hx; und|]. replace (n ++ g ++ t) with ((n ++ g) ++ t ++ []) by (rewrite app_nil_r; now rewrite <- !app_assoc). now apply unders_app.
    - apply red3_under; [intros x y z Hx Hy Hz; und|]. apply Forall_app. split; [apply (unders_app [] tl); assumption|].
      constructor; [rewrite app_assoc; apply under_opn; right; right; right; now right|].
      replace (tl ++ w1 ++ o ++ w2 ++ tr) with ((tl ++ w1 ++ o ++ w2) ++ tr ++ []) by (rewrite app_nil_r; now rewrite <- !app_assoc). now apply unders_app.
    - rewrite app_nil_r. assumption.
    - apply Forall_app. split; [apply (unders_app [] t); assumption|].
      replace (t ++ w1 ++ #"," ++ w2 ++ ts) with ((t ++ w1 ++ #"," ++ w2) ++ ts ++ []) by (rewrite app_nil_r; now rewrite <- !app_assoc). now apply unders_app.
  Qed.
  Lemma parse_ops : forall q n m, valid_runes q -> parse lo q = Ok (Some n) -> reach n m -> is_operation m = true ->
    exists a o b, q = a ++ o ++ b /\ any_operator o /\ nOperation m = nm o.
  Proof.
    intros q n m HQ HP Hr Ho. destruct (parse_ok_inv _ _ _ HQ HP) as (e & (w1 & t & w2 & -> & _ & _ & Hl) & _ & Hn).
    assert (HU : under t (Some n)) by (rewrite Hn; apply last_under; now apply stk_under_mut).
    destruct (HU m Hr Ho) as (a & o & b & -> & H1 & H2). exists (w1 ++ a), o, (b ++ w2). rewrite <- !app_assoc. auto.
  Qed.
  Lemma voc_any : forall o, any_operator o -> marker_free o -> In (nm o) vocabulary.
  Proof.
    intros o [H|[H|[H|[H|H]]]] M; [now apply voc_between|now apply voc_match|now apply voc_in|now apply voc_cmp|now apply voc_logic].
  Qed.
  Lemma parse_vocab : forall q n m, valid_runes q -> parse lo q = Ok (Some n) -> marker_free q -> reach n m -> is_operation m = true ->
    In (nOperation m) vocabulary.
  Proof.
    intros q n m HQ HP M Hr Ho. destruct (parse_ops _ _ _ HQ HP Hr Ho) as (a & o & b & -> & H1 & ->). mfs. now apply voc_any.
  Qed.
End Vocab.
