(** Proofs for C85: a derivation of the text with names, carried over to the text
    with queries. *)
From Verif Require Import Base Node Vocab Syntax ParseProofs Blank InsertSpec.

(** ** Texts with holes, labelled by names *)
Definition piece : Set := (N + list N)%type.
Definition put (g : list N -> list N) (T : list piece) : list N :=
  flat_map (fun p => match p with inl c => [c] | inr x => g x end) T.
Definition labels (T : list piece) : list (list N) := flat_map (fun p => match p with inl _ => [] | inr x => [x] end) T.
Definition plain (s : list N) : list piece := map inl s.
Notation self := (fun x : list N => x).

Lemma put_app : forall g A B, put g (A ++ B) = put g A ++ put g B.
Proof. intros. apply flat_map_app. Qed.
Lemma put_plain : forall g s, put g (plain s) = s.
Proof. intros g s. induction s as [|c s IH]; [reflexivity|]. cbn. now f_equal. Qed.
Lemma labels_app : forall A B, labels (A ++ B) = labels A ++ labels B.
Proof. intros. apply flat_map_app. Qed.
Lemma labels_plain : forall s, labels (plain s) = [].
Proof. induction s as [|c s IH]; [reflexivity|exact IH]. Qed.
Lemma in_labels : forall x T, In x (labels T) -> exists A B, T = A ++ inr x :: B.
Proof.
  induction T as [|[c|y] T IH]; cbn [labels flat_map app]; intros H; [destruct H| |].
  - destruct (IH H) as (A & B & ->). now exists (inl c :: A), B.
  - destruct H as [->|H]; [now exists [], T|]. destruct (IH H) as (A & B & ->). now exists (inr y :: A), B.
Qed.

(** The places of the labels are determined by the text. *)
Section Same.
  Variable s : list N.
  Lemma label_place : forall x A B A' B', once x s -> s = put self (A ++ inr x :: B) -> s = put self (A' ++ inr x :: B') -> put self A = put self A'.
  Proof.
    intros x A B A' B' (u & _ & U) H1 H2. rewrite put_app in H1, H2. cbn [put flat_map] in H1, H2.
    now rewrite (U _ _ H1), (U _ _ H2).
  Qed.
  Definition fine (x : list N) : Prop := once x s /\ x <> [].
  (** the next piece of one is a label, so it is the same label in the other *)
  Lemma label_next : forall A x T' P', s = put self (A ++ inr x :: T') -> s = put self (A ++ P') -> In x (labels (A ++ P')) ->
    (forall y, In y (labels (A ++ inr x :: T')) -> fine y) -> (forall y, In y (labels (A ++ P')) -> fine y) -> exists P'', P' = inr x :: P''.
  Proof.
    intros A x T' P' HT HP Hin FT FP.
    assert (Fx : fine x) by (apply FT; rewrite labels_app; apply in_or_app; right; now left).
    rewrite labels_app in Hin. apply in_app_or in Hin as [Hin|Hin].
    - exfalso. apply in_labels in Hin as (A1 & A2 & ->). rewrite <- app_assoc in HP. cbn [app] in HP.
      pose proof (label_place x _ _ _ _ (proj1 Fx) HT HP) as E. rewrite put_app in E. cbn [put flat_map] in E.
      apply (f_equal (@length N)) in E. rewrite !app_length in E. destruct x; [now apply (proj2 Fx)|]. cbn [length] in E. unfold put in E. lia.
    - apply in_labels in Hin as (B1 & B2 & ->). rewrite app_assoc in HP.
      pose proof (label_place x _ _ _ _ (proj1 Fx) HT HP) as E. rewrite put_app in E.
      apply (f_equal (@length N)) in E. rewrite !app_length in E.
      destruct B1 as [|[c|y] B1]; [now exists B2|exfalso..].
      + cbn [put flat_map app length] in E. unfold put in E. lia.
      + assert (Fy : fine y) by (apply FP; rewrite labels_app; apply in_or_app; right; now left).
        destruct y; [now apply (proj2 Fy)|]. cbn [put flat_map app length] in E. unfold put in E. lia.
  Qed.
  Lemma same_pieces : forall P' T' A, s = put self (A ++ T') -> s = put self (A ++ P') ->
    (forall x, In x (labels (A ++ T')) <-> In x (labels (A ++ P'))) ->
    (forall y, In y (labels (A ++ P')) -> fine y) -> T' = P'.
  Proof.
    induction P' as [|p P' IH]; intros T' A HT HP Hl Fi.
    - destruct T' as [|[c|x] T']; [reflexivity|exfalso..].
      + rewrite HT, app_nil_r, put_app in HP. cbn [put flat_map app] in HP. apply (f_equal (@length N)) in HP. rewrite app_length in HP. cbn [length] in HP. unfold put in HP. lia.
      + assert (Fx : fine x) by (apply Fi, Hl; rewrite labels_app; apply in_or_app; right; now left).
        rewrite HT, app_nil_r, put_app in HP. cbn [put flat_map app] in HP. apply (f_equal (@length N)) in HP. rewrite !app_length in HP.
        destruct x; [now apply (proj2 Fx)|]. cbn [length] in HP. unfold put in HP. lia.
    - assert (FT : forall y, In y (labels (A ++ T')) -> fine y) by (intros y Hy; now apply Fi, Hl).
      assert (K : exists T'', T' = p :: T'').
      { destruct p as [c|x].
        - destruct T' as [|[c'|x] T'].
          + exfalso. rewrite HT, app_nil_r, put_app in HP. cbn [put flat_map app] in HP. apply (f_equal (@length N)) in HP. rewrite app_length in HP. cbn [length] in HP. unfold put in HP. lia.
          + rewrite HT, !put_app in HP. apply app_inv_head in HP. cbn [put flat_map app] in HP. injection HP as -> _. now exists T'.
          + exfalso. destruct (label_next A x T' (inl c :: P') HT HP) as (P'' & E); try assumption; [|discriminate E].
            apply Hl. rewrite labels_app. apply in_or_app. right. now left.
        - apply (label_next A x P' T' HP HT); try assumption. apply Hl. rewrite labels_app. apply in_or_app. right. now left. }
      destruct K as (T'' & ->). f_equal.
      assert (EQ : forall X, (A ++ [p]) ++ X = A ++ p :: X) by (intros; now rewrite <- app_assoc).
      apply (IH T'' (A ++ [p])); [rewrite EQ; exact HT|rewrite EQ; exact HP|intro x; rewrite !EQ; apply Hl|intro y; rewrite EQ; apply Fi].
  Qed.
End Same.

(** ** What replacing names keeps *)
Lemma inside_operands : forall e, (forall x, In x (operands_of e) -> In x (operands e)).
Proof. destruct e; cbn; auto. Qed.

Section Keep.
  Variable m : subst.
  (** only expressions of level 0 are put in the place of the operands [l] *)
  Definition suits (l : list (list N)) : Prop := forall x d, In x l -> assoc x m = Some d -> level d = 0.
  Lemma suits_app : forall a b, suits (a ++ b) -> suits a /\ suits b.
  Proof. intros a b H. split; intros x d I; apply H; apply in_or_app; auto. Qed.

  Lemma swap_level : forall e, suits (operands e) -> level (swap m e) = level e.
  Proof.
    destruct e; try reflexivity. cbn [operands swap]. intros H. destruct (assoc x m) as [d|] eqn:E; [|reflexivity].
    apply (H x d); [now left|exact E].
  Qed.
  Lemma zero_ends : forall d, level d = 0 -> ends_bracket d = false.
  Proof. intros [] H; try discriminate H; reflexivity. Qed.
  Lemma swap_ident : forall e, ends_ident (swap m e) = true -> ends_ident e = true.
  Proof. induction e using expr_ind2; cbn [swap ends_ident]; auto. Qed.
  Lemma swap_bracket : forall e, suits (operands e) -> ends_bracket (swap m e) = true -> ends_bracket e = true.
  Proof.
    induction e using expr_ind2; cbn [swap ends_bracket operands]; auto.
    - intros H. destruct (assoc x m) as [d|] eqn:E; [|auto]. rewrite zero_ends; [easy|]. apply (H x d); [now left|exact E].
    - intros [_ H]%suits_app. auto.
    - intros [_ H]%suits_app. auto.
  Qed.
  Lemma bracketless_ends : forall e, bracketless e = true -> ends_bracket e = false.
  Proof.
    induction e using expr_ind2; cbn [bracketless ends_bracket]; auto.
    - intros [_ H]%andb_true_iff. destruct b; [|reflexivity]. destruct lo, hi; try reflexivity. discriminate H.
    - intros [_ H]%andb_true_iff. auto.
    - intros [_ H]%andb_true_iff. auto.
  Qed.
  Lemma swap_starts : forall e, (forall x d, assoc x m = Some d -> bare_value d = false) -> suits (operands e) ->
    starts_val (swap m e) = true -> starts_val e = true.
  Proof.
    intros e HB. induction e using expr_ind2; cbn [swap starts_val operands]; auto.
    - intros H. destruct (assoc x m) as [d|] eqn:E; [|auto]. assert (L : level d = 0) by (apply (H x d); [now left|exact E]).
      specialize (HB x d E). destruct d; try discriminate L; cbn in *; try easy. now destruct d as [[]| | | | | | | | | | |].
    - intros _. destruct e; cbn [swap]; auto. destruct (assoc x m) as [d|] eqn:E; [|auto]. specialize (HB x d E).
      destruct d as [[]| | | | | | | | | | |]; cbn in *; easy.
    - intros [H _]%suits_app. auto.
    - intros [H _]%suits_app. auto.
  Qed.
  Lemma blank_ends : forall w c t, blank (c :: w) -> idchar c = false \/ t = c.
  Proof.
    intros w c t H. left. inversion H as [|c' w' Hc Hw|k body c' w' [->| ->] Hb Hc Hw]; subst.
    - unfold mem in Hc. cbn in Hc. repeat (apply orb_true_iff in Hc as [Hc|Hc]; [apply N.eqb_eq in Hc; now subst|]). discriminate Hc.
    - reflexivity.
    - reflexivity.
  Qed.
  Lemma seam_swap : forall e w r, blank w -> seam e r -> seam (swap m e) (w ++ r).
  Proof.
    intros e w r Hw HS HE. destruct w as [|c w]; [now apply HS, swap_ident|]. cbn [app].
    destruct (blank_ends _ _ 0%N Hw) as [E|E]; [exact E|]. subst c. now inversion Hw.
  Qed.
  Lemma clash_swap : forall l o r, (bracketless l = true \/ forall x d, assoc x m = Some d -> bare_value d = false) ->
    suits (operands l) -> suits (operands r) -> ~ bracket_clash l o r -> ~ bracket_clash (swap m l) o (swap m r).
  Proof.
    intros l o r H Sl Sr HN (H1 & H2 & H3). apply HN. apply swap_bracket in H1; [|exact Sl]. split; [exact H1|]. split; [exact H2|].
    destruct H as [H|H]; [apply bracketless_ends in H; congruence|]. now apply swap_starts.
  Qed.
End Keep.

(** ** The derivation *)
Section Weave.
  Variable m : subst.
  Variable g : list N -> list N.
  Hypothesis G : forall x d, assoc x m = Some d -> reads (g x) d.
  Let NB : Prop := forall x d, assoc x m = Some d -> bare_value d = false.
  Definition marked (e : expr) : list (list N) := filter (fun x => match assoc x m with Some _ => true | None => false end) (mentions e).
  Definition woven (e : expr) (t : list N) : Prop := exists T, put self T = t /\ labels T = marked e /\ reads (put g T) (swap m e).
  Definition wovens (es : list expr) (t : list N) : Prop := exists T, put self T = t /\ labels T = concat (map marked es) /\
    exists w1 t' w2, put g T = w1 ++ t' ++ w2 /\ blank w1 /\ blank w2 /\ lays (map (swap m) es) t'.

  Lemma marked_app : forall a b, filter (fun x => match assoc x m with Some _ => true | None => false end) (a ++ b) =
    filter (fun x => match assoc x m with Some _ => true | None => false end) a ++ filter (fun x => match assoc x m with Some _ => true | None => false end) b.
  Proof. intros. apply filter_app. Qed.
  Lemma marked_call : forall f es, marked (ECall f es) = concat (map marked es).
  Proof.
    intros f es. unfold marked. cbn [mentions]. induction es as [|e es IH]; [reflexivity|]. cbn [map concat]. rewrite marked_app, IH. reflexivity.
  Qed.
  (** nothing replaced *)
  Lemma woven_same : forall e t, marked e = [] -> swap m e = e -> lay e t -> woven e t.
  Proof.
    intros e t H1 H2 H. exists (plain t). rewrite put_plain, labels_plain, put_plain, H1, H2. split; [reflexivity|]. split; [reflexivity|].
    exists [], t, []. rewrite app_nil_r. repeat split; [constructor|constructor|exact H].
  Qed.
  Lemma suits_inside : forall e, suits m (operands e) -> suits m (operands_of e).
  Proof. intros e H x d I. apply H. now apply inside_operands. Qed.
  Definition safe (e : expr) : Prop := bracketless e = true \/ NB.
  Lemma safe_two : forall a b, bracketless a && bracketless b = true \/ NB -> safe a /\ safe b.
  Proof. intros a b [[H1 H2]%andb_true_iff|H]; split; unfold safe; auto. Qed.

  Ltac pieces := repeat (first [rewrite put_app|rewrite put_plain|rewrite labels_app|rewrite labels_plain]).
  Ltac blanks := repeat (first [assumption|apply blank_app]); try constructor.

  Lemma weave_both :
    (forall e t, lay e t -> safe e -> suits m (operands_of e) -> woven e t) /\
    (forall es t, lays es t -> Forall safe es -> Forall (fun e => suits m (operands_of e)) es -> wovens es t).
  Proof.
    apply lay_lays_ind.
    - intros. apply woven_same; [reflexivity|reflexivity|now constructor].
    - intros. apply woven_same; [reflexivity|reflexivity|now apply (lay_arr p c)].
    - intros x Hx Hw _ _. unfold woven, marked. cbn [mentions swap filter]. destruct (assoc x m) as [d|] eqn:E.
      + exists [inr x]. split; [cbn; now rewrite app_nil_r|]. split; [reflexivity|]. cbn. rewrite app_nil_r. now apply G.
      + exists (plain x). rewrite !put_plain, labels_plain. split; [reflexivity|]. split; [reflexivity|].
        exists [], x, []. rewrite app_nil_r. repeat split; [constructor|constructor|now constructor].
    - intros. apply woven_same; [reflexivity|reflexivity|now constructor].
    - intros. apply woven_same; [reflexivity|reflexivity|now constructor].
    - intros. apply woven_same; [reflexivity|reflexivity|now constructor].
    - intros f args t w1 w2 Hf Hw L IH B1 B2 HS HO.
      assert (SA : Forall safe args) by (apply Forall_forall; intros a I; destruct HS as [HS|HS]; [left|now right]; cbn in HS; rewrite forallb_forall in HS; auto).
      assert (OA : Forall (fun e => suits m (operands_of e)) args).
      { apply Forall_forall. intros a I x d J. apply HO. cbn [operands_of operands]. apply in_concat. exists (operands_of a). split; [|exact J]. apply in_map_iff. now exists a. }
      destruct (IH SA OA) as (T & <- & ET & u1 & t' & u2 & E & U1 & U2 & L').
      exists (plain (f ++ #"(" ++ w1) ++ T ++ plain (w2 ++ #")")). split; [pieces; now rewrite <- !app_assoc|]. split; [pieces; rewrite app_nil_r, marked_call; exact ET|].
      pieces. rewrite E. exists [], (f ++ #"(" ++ (w1 ++ u1) ++ t' ++ (u2 ++ w2) ++ #")"), []. split; [now rewrite app_nil_r, <- !app_assoc|].
      split; [constructor|]. split; [constructor|]. cbn [swap]. apply lay_call; blanks.
    - intros f args t w1 w2 w3 Hf Hw L IH B1 B2 B3 HS HO.
      assert (SA : Forall safe args) by (apply Forall_forall; intros a I; destruct HS as [HS|HS]; [left|now right]; cbn in HS; rewrite forallb_forall in HS; auto).
      assert (OA : Forall (fun e => suits m (operands_of e)) args).
      { apply Forall_forall. intros a I x d J. apply HO. cbn [operands_of operands]. apply in_concat. exists (operands_of a). split; [|exact J]. apply in_map_iff. now exists a. }
      destruct (IH SA OA) as (T & <- & ET & u1 & t' & u2 & E & U1 & U2 & L').
      exists (plain (f ++ #"(" ++ w1) ++ T ++ plain (w2 ++ #"," ++ w3 ++ #")")). split; [pieces; now rewrite <- !app_assoc|]. split; [pieces; rewrite app_nil_r, marked_call; exact ET|].
      pieces. rewrite E. exists [], (f ++ #"(" ++ (w1 ++ u1) ++ t' ++ (u2 ++ w2) ++ #"," ++ w3 ++ #")"), []. split; [now rewrite app_nil_r, <- !app_assoc|].
      split; [constructor|]. split; [constructor|]. cbn [swap]. apply lay_callc; blanks.
    - intros e t w1 w2 L IH B1 B2 HS HO. destruct (IH HS HO) as (T & <- & ET & u1 & t' & u2 & E & U1 & U2 & L').
      exists (plain (#"(" ++ w1) ++ T ++ plain (w2 ++ #")")). split; [pieces; now rewrite <- !app_assoc|]. split; [pieces; rewrite app_nil_r; exact ET|].
      pieces. rewrite E. exists [], (#"(" ++ (w1 ++ u1) ++ t' ++ (u2 ++ w2) ++ #")"), []. split; [now rewrite app_nil_r, <- !app_assoc|].
      split; [constructor|]. split; [constructor|]. cbn [swap]. apply lay_paren; blanks.
    - intros e t w1 o w2 lo tlo w3 a w4 hi thi Lv L IH B1 Ho B2 V1 B3 Ha B4 V2 HSm HS HO.
      assert (HS' : safe e) by (destruct HS as [HS|HS]; [left; cbn in HS; now apply andb_true_iff in HS as [HS _]|now right]).
      cbn [operands_of operands] in HO.
      destruct (IH HS' (suits_inside _ HO)) as (T & <- & ET & u1 & t' & u2 & E & U1 & U2 & L').
      exists (T ++ plain (w1 ++ o ++ w2 ++ tlo ++ w3 ++ a ++ w4 ++ thi)). split; [now pieces|]. split; [pieces; rewrite app_nil_r; exact ET|].
      pieces. rewrite E. exists u1, (t' ++ (u2 ++ w1) ++ o ++ w2 ++ tlo ++ w3 ++ a ++ w4 ++ thi), []. split; [now rewrite app_nil_r, <- !app_assoc|].
      split; [exact U1|]. split; [constructor|]. cbn [swap]. apply lay_between; try assumption; [now rewrite swap_level|blanks|].
      rewrite <- app_assoc. now apply seam_swap.
    - intros e t w1 o w2 w3 lo tlo w4 w5 hi thi w6 Lv L IH B1 Ho B2 B3 V1 B4 B5 V2 B6 HSm HS HO.
      assert (HS' : safe e) by (destruct HS as [HS|HS]; [left; cbn in HS; now apply andb_true_iff in HS as [HS _]|now right]).
      cbn [operands_of operands] in HO.
      destruct (IH HS' (suits_inside _ HO)) as (T & <- & ET & u1 & t' & u2 & E & U1 & U2 & L').
      exists (T ++ plain (w1 ++ o ++ w2 ++ #"[" ++ w3 ++ tlo ++ w4 ++ #"," ++ w5 ++ thi ++ w6 ++ #"]")). split; [now pieces|]. split; [pieces; rewrite app_nil_r; exact ET|].
      pieces. rewrite E. exists u1, (t' ++ (u2 ++ w1) ++ o ++ w2 ++ #"[" ++ w3 ++ tlo ++ w4 ++ #"," ++ w5 ++ thi ++ w6 ++ #"]"), []. split; [now rewrite app_nil_r, <- !app_assoc|].
      split; [exact U1|]. split; [constructor|]. cbn [swap]. apply lay_between_br; try assumption; [now rewrite swap_level|blanks|].
      rewrite <- app_assoc. now apply seam_swap.
    - intros e t w o Lv L IH B Ho HS HO. cbn [operands_of operands] in HO.
      destruct (IH HS (suits_inside _ HO)) as (T & <- & ET & u1 & t' & u2 & E & U1 & U2 & L').
      exists (T ++ plain (w ++ o)). split; [now pieces|]. split; [pieces; rewrite app_nil_r; exact ET|].
      pieces. rewrite E. exists u1, (t' ++ (u2 ++ w) ++ o), []. split; [now rewrite app_nil_r, <- !app_assoc|].
      split; [exact U1|]. split; [constructor|]. cbn [swap]. apply lay_pred; try assumption; [now rewrite swap_level|].
      destruct B as [B1 B2]. split; [blanks|]. destruct u2; [exact B2|discriminate].
    - intros e t w1 o w2 p c ls ta Lv L IH B1 Ho B2 HA HSm HS HO. cbn [operands_of operands] in HO.
      destruct (IH HS (suits_inside _ HO)) as (T & <- & ET & u1 & t' & u2 & E & U1 & U2 & L').
      exists (T ++ plain (w1 ++ o ++ w2 ++ ta)). split; [now pieces|]. split; [pieces; rewrite app_nil_r; exact ET|].
      pieces. rewrite E. exists u1, (t' ++ (u2 ++ w1) ++ o ++ w2 ++ ta), []. split; [now rewrite app_nil_r, <- !app_assoc|].
      split; [exact U1|]. split; [constructor|]. cbn [swap]. apply (lay_in _ _ _ _ _ _ c); try assumption; [now rewrite swap_level|blanks|].
      rewrite <- app_assoc. now apply seam_swap.
    - intros l tl w1 o w2 r tr Ll Lr L IHl B1 Ho B2 R IHr HSm HS HO. cbn [operands_of operands] in HO.
      apply safe_two in HS as [SL SR]. apply suits_app in HO as [OL OR].
      destruct (IHl SL (suits_inside _ OL)) as (T & <- & ET & u1 & t' & u2 & E & U1 & U2 & L').
      destruct (IHr SR (suits_inside _ OR)) as (T2 & <- & ET2 & v1 & t2 & v2 & E2 & V1 & V2 & R').
      exists (T ++ plain (w1 ++ o ++ w2) ++ T2). split; [pieces; now rewrite <- !app_assoc|]. split; [pieces; unfold marked in *; cbn [mentions app]; now rewrite filter_app, ET, ET2|].
      pieces. rewrite E, E2. exists u1, (t' ++ (u2 ++ w1) ++ o ++ (w2 ++ v1) ++ t2), v2. split; [now rewrite <- !app_assoc|].
      split; [exact U1|]. split; [exact V2|]. cbn [swap]. apply lay_cmp; try assumption; [now rewrite swap_level|now rewrite swap_level|blanks|blanks|].
      rewrite <- app_assoc. now apply seam_swap.
    - intros n gp e t Hn Hg Lv L IH HS HO. cbn [operands_of operands] in HO.
      destruct (IH HS (suits_inside _ HO)) as (T & <- & ET & u1 & t' & u2 & E & U1 & U2 & L').
      exists (plain (n ++ gp) ++ T). split; [pieces; now rewrite <- !app_assoc|]. split; [pieces; exact ET|].
      pieces. rewrite E. exists [], (n ++ (gp ++ u1) ++ t'), u2. split; [now rewrite <- !app_assoc|].
      split; [constructor|]. split; [exact U2|]. cbn [swap]. apply lay_not; try assumption; [|now rewrite swap_level].
      destruct Hg as [B1 B2]. split; [blanks|]. destruct gp; [now elim B2|discriminate].
    - intros l tl w1 o w2 r tr Lr L IHl B1 Ho B2 R IHr HSm HC HS HO. cbn [operands_of operands] in HO.
      apply safe_two in HS as [SL SR]. apply suits_app in HO as [OL OR].
      destruct (IHl SL (suits_inside _ OL)) as (T & <- & ET & u1 & t' & u2 & E & U1 & U2 & L').
      destruct (IHr SR (suits_inside _ OR)) as (T2 & <- & ET2 & v1 & t2 & v2 & E2 & V1 & V2 & R').
      exists (T ++ plain (w1 ++ o ++ w2) ++ T2). split; [pieces; now rewrite <- !app_assoc|]. split; [pieces; unfold marked in *; cbn [mentions app]; now rewrite filter_app, ET, ET2|].
      pieces. rewrite E, E2. exists u1, (t' ++ (u2 ++ w1) ++ o ++ (w2 ++ v1) ++ t2), v2. split; [now rewrite <- !app_assoc|].
      split; [exact U1|]. split; [exact V2|]. cbn [swap]. apply lay_logic; try assumption; [now rewrite swap_level|blanks|blanks| |].
      + rewrite <- app_assoc. now apply seam_swap.
      + now apply clash_swap.
    - intros e t L IH HS HO. inversion HS as [|? ? S1 _]; inversion HO as [|? ? O1 _]; subst.
      destruct (IH S1 O1) as (T & <- & ET & u1 & t' & u2 & E & U1 & U2 & L').
      exists T. split; [reflexivity|]. split; [cbn; now rewrite app_nil_r|]. exists u1, t', u2. repeat split; try assumption. cbn. now constructor.
    - intros e t w1 w2 es ts L IH B1 B2 Ls IHs HS HO. inversion HS as [|? ? S1 S2]; inversion HO as [|? ? O1 O2]; subst.
      destruct (IH S1 O1) as (T & <- & ET & u1 & t' & u2 & E & U1 & U2 & L').
      destruct (IHs S2 O2) as (T2 & <- & ET2 & v1 & t2 & v2 & E2 & V1 & V2 & R').
      exists (T ++ plain (w1 ++ #"," ++ w2) ++ T2). split; [pieces; now rewrite <- !app_assoc|]. split; [pieces; cbn [map concat app]; now rewrite ET, ET2|].
      pieces. rewrite E, E2. exists u1, (t' ++ (u2 ++ w1) ++ #"," ++ (w2 ++ v1) ++ t2), v2. split; [now rewrite <- !app_assoc|].
      split; [exact U1|]. split; [exact V2|]. cbn [map]. apply lays_cons; blanks.
  Qed.
End Weave.

(** ** Templates *)
Lemma lay_named : (forall e t, lay e t -> forall x, In x (mentions e) -> x <> []) /\ (forall es t, lays es t -> forall x, In x (concat (map mentions es)) -> x <> []).
Proof.
  apply lay_lays_ind; cbn [mentions map concat]; intros; auto; try contradiction.
  - destruct H as [<-|[]]. destruct i as [(c & r & -> & _) _]. discriminate.
  - apply in_app_or in H1 as [?|?]; auto.
  - apply in_app_or in H1 as [?|?]; auto.
  - rewrite app_nil_r in H0. auto.
  - apply in_app_or in H1 as [?|?]; auto.
Qed.
Lemma reads_named : forall q e x, reads q e -> In x (mentions e) -> x <> [].
Proof. intros q e x (w1 & t & w2 & _ & _ & _ & L). exact (proj1 lay_named e t L x). Qed.

Fixpoint pcs (h : list (list N)) (b : list N) (xs : list (list N)) : list piece :=
  match h, xs with
  | a :: h', x :: xs' => plain a ++ inr x :: pcs h' b xs'
  | _, _ => plain b
  end.
Lemma put_pcs : forall h b xs, put self (pcs h b xs) = insert h b xs.
Proof.
  induction h as [|a h IH]; intros b [|x xs]; cbn [pcs insert]; rewrite ?put_plain; try reflexivity.
  rewrite put_app, put_plain. cbn [put flat_map]. now rewrite <- IH.
Qed.
Lemma labels_pcs : forall h b xs, length h = length xs -> labels (pcs h b xs) = xs.
Proof.
  induction h as [|a h IH]; intros b [|x xs] E; try discriminate E; cbn [pcs]; [apply labels_plain|].
  rewrite labels_app, labels_plain. cbn. f_equal. apply IH. now injection E.
Qed.
Lemma labels_nodup : forall s P A, s = put self (A ++ P) -> (forall y, In y (labels P) -> fine s y) -> NoDup (labels P).
Proof.
  intros s. induction P as [|[c|x] P IH]; intros A HP HF; cbn [labels flat_map app]; [constructor| |].
  - apply (IH (A ++ [inl c])); [now rewrite <- app_assoc|exact HF].
  - constructor.
    + intros I. apply in_labels in I as (B & C & ->). assert (F : fine s x) by (apply HF; now left).
      assert (HP2 : s = put self ((A ++ inr x :: B) ++ inr x :: C)) by (now rewrite <- app_assoc).
      pose proof (label_place s x _ _ _ _ (proj1 F) HP HP2) as E. rewrite put_app in E.
      apply (f_equal (@length N)) in E. rewrite app_length in E. destruct x; [now apply (proj2 F)|]. cbn [put flat_map app length] in E. unfold put in E. lia.
    + apply (IH (A ++ [inr x])); [now rewrite <- app_assoc|]. intros y I. apply HF. now right.
Qed.
Lemma put_ext : forall g g' T, (forall x, In x (labels T) -> g x = g' x) -> put g T = put g' T.
Proof.
  induction T as [|[c|x] T IH]; intros H; cbn [put flat_map]; [reflexivity| |].
  - f_equal. now apply IH.
  - f_equal; [apply H; now left|]. apply IH. intros y I. apply H. now right.
Qed.
Lemma assoc_in : forall A x (m : list (list N * A)) d, assoc x m = Some d -> In (x, d) m.
Proof.
  induction m as [|[y v] m IH]; cbn [assoc]; intros d E; [discriminate|]. destruct (streq x y) eqn:Q; [|right; now apply IH].
  apply streq_eq in Q. subst y. injection E as ->. now left.
Qed.
Definition given (xs qs : list (list N)) (x : list N) : list N := match assoc x (combine xs qs) with Some q => q | None => x end.
Lemma put_given : forall h b xs qs, length h = length xs -> length qs = length xs -> NoDup xs -> put (given xs qs) (pcs h b xs) = insert h b qs.
Proof.
  induction h as [|a h IH]; intros b [|x xs] [|q qs] E1 E2 ND; try discriminate; cbn [pcs insert]; [apply put_plain|].
  inversion ND as [|? ? NI ND']; subst. injection E1 as E1. injection E2 as E2.
  rewrite put_app, put_plain. cbn [put flat_map]. f_equal. f_equal.
  - unfold given. cbn [combine assoc]. now rewrite streq_refl.
  - rewrite <- (IH b xs qs E1 E2 ND'). apply put_ext. rewrite labels_pcs by exact E1. intros y I. unfold given. cbn [combine assoc].
    destruct (streq y x) eqn:Q; [|reflexivity]. apply streq_eq in Q. now subst.
Qed.
Lemma assoc_both : forall A B (R : A -> B -> Prop) xs qs ds x d, Forall2 R qs ds -> assoc x (combine xs ds) = Some d ->
  exists q, assoc x (combine xs qs) = Some q /\ R q d.
Proof.
  intros A B R xs qs ds x d F. revert xs. induction F as [|q k qs ds H F IH]; intros [|y xs]; cbn [combine assoc]; try discriminate.
  destruct (streq x y); [|apply IH]. intros E. injection E as ->. now exists q.
Qed.
Lemma assoc_some : forall A xs (ds : list A) x, length ds = length xs -> In x xs -> exists d, assoc x (combine xs ds) = Some d.
Proof.
  induction xs as [|y xs IH]; intros [|d ds] x E I; try discriminate E; [destruct I|]. cbn [combine assoc].
  destruct (streq x y) eqn:Q; [now exists d|]. injection E as E. apply IH; [exact E|]. destruct I as [->|I]; [now rewrite streq_refl in Q|exact I].
Qed.

Theorem insert_reads : forall h b xs e ds qs, accepts h b xs e ds -> Forall2 reads qs ds -> reads (insert h b qs) (swap (combine xs ds) e).
Proof.
  intros h b xs e ds qs [Hh Hd HR HO HP HC] HQ. set (m := combine xs ds). set (s := insert h b xs) in *.
  assert (FI : forall x, In x xs -> fine s x).
  { intros x I. rewrite Forall_forall in HO. destruct (HO x I) as [O M]. split; [exact O|]. exact (reads_named _ _ _ HR M). }
  assert (LQ : length qs = length xs) by (rewrite <- Hd; clear -HQ; induction HQ; cbn; congruence).
  assert (ND : NoDup xs).
  { rewrite <- (labels_pcs h b xs Hh). apply (labels_nodup s _ []); [symmetry; apply put_pcs|]. now rewrite labels_pcs. }
  assert (G : forall x d, assoc x m = Some d -> reads (given xs qs x) d).
  { intros x d E. destruct (assoc_both _ _ _ _ _ _ _ _ HQ E) as (q & Eq & R). unfold given. now rewrite Eq. }
  assert (SU : suits m (operands_of e)).
  { intros x d I E. rewrite Forall_forall in HP. exact (HP (x, d) (assoc_in _ _ _ _ E) I). }
  assert (SA : bracketless e = true \/ (forall x d, assoc x m = Some d -> bare_value d = false)).
  { destruct HC as [HC|HC]; [now left|right]. intros x d E. rewrite Forall_forall in HC. apply HC. apply assoc_in in E. now apply in_combine_r in E. }
  pose proof HR as (w1 & t & w2 & Es & B1 & B2 & L).
  destruct (proj1 (weave_both m (given xs qs) G) e t L SA SU) as (T & ET & EL & u1 & t' & u2 & E & U1 & U2 & L').
  assert (K : plain w1 ++ T ++ plain w2 = pcs h b xs).
  { apply (same_pieces s _ _ []); cbn [app].
    - now rewrite !put_app, !put_plain, ET.
    - symmetry. apply put_pcs.
    - intros x. rewrite !labels_app, !labels_plain, app_nil_r, EL, labels_pcs by exact Hh. cbn [app]. unfold marked. rewrite filter_In. split.
      + intros [_ H]. destruct (assoc x m) as [d|] eqn:A; [|discriminate]. apply assoc_in in A. now apply in_combine_l in A.
      + intros I. destruct (assoc_some _ xs ds x Hd I) as (d & A). unfold m. rewrite A. split; [|reflexivity]. rewrite Forall_forall in HO. now apply HO.
    - intros y. rewrite labels_pcs by exact Hh. apply FI. }
  rewrite <- (put_given h b xs qs Hh LQ ND), <- K, !put_app, !put_plain, E.
  exists (w1 ++ u1), t', (u2 ++ w2). split; [now rewrite <- !app_assoc|]. split; [now apply blank_app|]. split; [now apply blank_app|exact L'].
Qed.
