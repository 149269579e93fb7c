(** The tree Parse returns has fewer nodes than twice the runes of the query. *)
From Verif Require Import Base Peg Node Vocab Tree Parse Syntax Lex ParseProofs Complete NormProofs Unique ParserFacts SizeSpec.

Definition osz (x : option node) : nat := match x with Some m => nsize m | None => 0 end.
Definition ssz (l : list (option node)) : nat := list_sum (map osz l).
Lemma nsize_eq : forall n, nsize n = S (ssz (nArray n) + osz (nExpression n) + osz (nLeft n) + osz (nOp n) + osz (nRight n) + ssz (nParams n)).
Proof. destruct n; reflexivity. Qed.
Lemma ssz_app : forall a b, ssz (a ++ b) = ssz a + ssz b.
Proof. intros a b. unfold ssz. rewrite map_app. apply list_sum_app. Qed.
Lemma ssz_last : forall l, ssz l = ssz (removelast l) + osz (last l None).
Proof.
  intros l. destruct l as [|x l]; [reflexivity|]. rewrite (app_removelast_last (l := x :: l) None) at 1 by discriminate.
  rewrite ssz_app. f_equal. unfold ssz. cbn. lia.
Qed.
Lemma red1_sz : forall f l c, (forall x, nsize (f x) = osz x + c) -> ssz (red1 f l) = ssz l + c.
Proof. intros f l c H. unfold red1. rewrite ssz_app, (ssz_last l). unfold ssz at 2. cbn [map osz list_sum fold_right]. rewrite H. lia. Qed.
Lemma red3_sz : forall f l, (forall x y z, nsize (f x y z) = S (osz x + osz y + osz z)) -> ssz (red3 f l) = ssz l + 1.
Proof.
  intros f l H. unfold red3. rewrite ssz_app, (ssz_last l), (ssz_last (removelast l)), (ssz_last (removelast (removelast l))).
  unfold ssz at 2. cbn [map osz list_sum fold_right]. rewrite H. lia.
Qed.

Lemma ident_len : forall x, ident x -> 1 <= length x.
Proof. intros x [(c & r & -> & _) _]. cbn. lia. Qed.
Lemma lit_len : forall l t, lit_text l t -> 1 <= length t.
Proof.
  intros l t H. inversion H; subst; cbn [length]; try lia; cbn in *;
    repeat match goal with K : _ \/ _ |- _ => destruct K as [<-|K] end; cbn; try lia; contradiction.
Qed.
Lemma lits_len : forall ls t, lits_text ls t -> length ls <= length t.
Proof.
  intros ls t H. induction H as [l t H|l t w1 w2 ls ts H _ _ _ IH]; [apply lit_len in H; cbn; lia|].
  apply lit_len in H. rewrite !app_length. cbn [length]. lia.
Qed.
Lemma arr_len : forall p c ls t, arr_text p c ls t -> length ls + 2 <= length t.
Proof.
  intros p c ls t H. assert (HO : length (opening p) = 1 /\ length (closing p) = 1) by (destruct p; split; reflexivity).
  destruct H as [w _|ls t w1 w2 H _ _|ls t w1 w2 w3 H _ _ _]; try apply lits_len in H; rewrite !app_length; cbn [length]; lia.
Qed.
Lemma lnode_sz : forall l, nsize (lnode l) = 1.
Proof. now destruct l. Qed.
Lemma vnode_sz : forall v t, val_text v t -> nsize (vnode v) + 1 <= 2 * length t.
Proof.
  intros v t H. destruct H as [l t H|p c ls t H].
  - cbn [vnode]. rewrite lnode_sz. apply lit_len in H. lia.
  - apply arr_len in H. rewrite nsize_eq. cbn [vnode mk_array nArray nExpression nLeft nOp nRight nParams osz].
    assert (E : ssz (map (fun l => Some (lnode l)) ls) = length ls).
    { clear H. unfold ssz. induction ls as [|l ls IH]; [reflexivity|]. cbn [map osz list_sum fold_right length] in *. rewrite lnode_sz. unfold list_sum in IH. lia. }
    rewrite E. unfold ssz. cbn. lia.
Qed.
Lemma ci_len : forall w x, ci w x -> length x = length w.
Proof. intros w x H. unfold ci in H. subst w. now rewrite map_length. Qed.
Lemma op_cmp_len : forall o, op_cmp o -> 1 <= length o.
Proof.
  intros o [H|[H|[H|[H|[H|[H|(x & H & K)]]]]]]; try (apply ci_len in H; cbn in H; lia).
  - cbn in H. repeat (destruct H as [<-|H]; [cbn; lia|]). destruct H.
  - destruct K as (n & g & Hn & Hg & ->). rewrite !app_length. apply ci_len in H. cbn in H. lia.
Qed.
Lemma op_logic_len : forall o, op_logic o -> 1 <= length o.
Proof. intros o [H|[H|[-> | ->]]]; try (apply ci_len in H; cbn in H; lia); cbn; lia. Qed.
Lemma op_in_len : forall o, op_in o -> 1 <= length o.
Proof.
  intros o [H|(x & H & K)]; [apply ci_len in H; cbn in H; lia|].
  destruct K as (n & g & Hn & Hg & ->). rewrite !app_length. apply ci_len in H. cbn in H. lia.
Qed.
Lemma op_match_len : forall o, op_match o -> 1 <= length o.
Proof. intros o [-> | [-> | [(g & x & _ & _ & ->)|(g & g' & x & _ & _ & _ & ->)]]]; rewrite ?app_length; cbn; lia. Qed.
Lemma join_len : forall sep xs, Forall ident xs -> length xs <= length (join_with sep xs).
Proof.
  intros sep xs H. induction H as [|x xs Hx _ IH]; [cbn; lia|]. apply ident_len in Hx.
  destruct xs as [|y xs]; [cbn in *; lia|]. change (join_with sep (x :: y :: xs)) with (x ++ sep ++ join_with sep (y :: xs)).
  rewrite !app_length. cbn [length] in *. lia.
Qed.

Section Sizes.
  Variable lo : N -> N.
  Lemma opn_sz : forall o, osz (opn lo o) = 1.
  Proof. reflexivity. Qed.
  Ltac sz := rewrite nsize_eq; cbn [nArray nExpression nLeft nOp nRight nParams mk_compare mk_logic mk_not mk_paren mk_predicate mk_between osz]; unfold ssz; cbn [map list_sum fold_right]; rewrite ?opn_sz; cbn [osz]; try lia.
  Lemma stk_sz :
    (forall e t, lay e t -> ssz (stk lo e) + 1 <= 2 * length t) /\
    (forall es t, lays es t -> ssz (concat (map (stk lo) es)) + 1 <= 2 * length t).
  Proof.
    assert (HS : forall x, ssz [x] = osz x) by (intro x; unfold ssz; cbn; lia).
    assert (HN : forall x l, ssz (x :: l) = osz x + ssz l) by reflexivity.
    assert (K1 : length #"(" = 1) by reflexivity. assert (K2 : length #")" = 1) by reflexivity. assert (K3 : length #"," = 1) by reflexivity.
    apply lay_lays_ind; intros; cbn [stk map concat]; rewrite ?HS; cbn [osz].
    - cbn [vnode]. rewrite lnode_sz. match goal with H : lit_text _ _ |- _ => apply lit_len in H end. lia.
    - match goal with H : arr_text _ _ _ _ |- _ => apply vt_arr in H; apply vnode_sz in H end. assumption.
    - match goal with H : ident _ |- _ => apply ident_len in H end. sz. cbn. lia.
    - match goal with H : Forall ident _ |- _ => apply (join_len #".") in H end. cbn [length] in *. change (nsize (mk_reference (x :: y :: xs))) with 1. lia.
    - match goal with H : Forall ident _ |- _ => apply (join_len #"->") in H end. 
      assert (E : forall xs, ssz (map (fun x => Some (mk_ident x)) xs) = length xs).
      { induction xs0 as [|z zs IH]; [reflexivity|]. cbn [map length]. rewrite HN, IH. reflexivity. }
      change (ssz (map (fun x => Some (mk_ident x)) (x :: y :: xs)) + 1 <= 2 * length (join_with #"->" (x :: y :: xs))). rewrite E. cbn [length] in *. lia.
    - rewrite !app_length. sz. cbn. match goal with H : ident _ |- _ => apply ident_len in H end. lia.
    - rewrite !app_length. rewrite nsize_eq. cbn [mk_function nArray nExpression nLeft nOp nRight nParams osz]. change (ssz []) with 0. cbn [length].
      match goal with H : ident _ |- _ => apply ident_len in H end. lia.
    - rewrite !app_length. rewrite nsize_eq. cbn [mk_function nArray nExpression nLeft nOp nRight nParams osz]. change (ssz []) with 0. cbn [length].
      match goal with H : ident _ |- _ => apply ident_len in H end. lia.
    - rewrite (red1_sz _ _ 1) by (intro x; sz). rewrite !app_length. cbn [length]. lia.
    - match goal with H : val_text lo0 _ |- _ => apply vnode_sz in H end. match goal with H : val_text hi _ |- _ => apply vnode_sz in H end.
      rewrite (red1_sz _ _ (2 + nsize (vnode lo0) + nsize (vnode hi))) by (intro x; sz). rewrite !app_length. lia.
    - match goal with H : val_text lo0 _ |- _ => apply vnode_sz in H end. match goal with H : val_text hi _ |- _ => apply vnode_sz in H end.
      rewrite (red1_sz _ _ (2 + nsize (vnode lo0) + nsize (vnode hi))) by (intro x; sz). rewrite !app_length. lia.
    - match goal with H : op_match _ |- _ => apply op_match_len in H end. rewrite (red1_sz _ _ 2) by (intro x; sz). rewrite !app_length. lia.
    - match goal with H : op_in _ |- _ => apply op_in_len in H end. match goal with H : arr_text _ _ _ _ |- _ => apply vt_arr in H; apply vnode_sz in H end.
      rewrite (red1_sz _ _ (2 + nsize (vnode (VArr p ls)))) by (intro x; sz). rewrite !app_length. lia.
    - match goal with H : op_cmp _ |- _ => apply op_cmp_len in H end. rewrite red3_sz by (intros x y z; sz). rewrite ssz_app, HN, opn_sz. rewrite !app_length. lia.
    - match goal with H : ci _ _ |- _ => apply ci_len in H; cbn in H end. rewrite (red1_sz _ _ 1) by (intro x; sz). rewrite !app_length. lia.
    - match goal with H : op_logic _ |- _ => apply op_logic_len in H end. rewrite red3_sz by (intros x y z; sz). rewrite ssz_app, HN, opn_sz. rewrite !app_length. lia.
    - rewrite app_nil_r. assumption.
    - rewrite ssz_app. rewrite !app_length. cbn [length]. lia.
  Qed.
  Lemma parse_size : forall q n, valid_runes q -> parse lo q = Ok (Some n) -> nsize n < 2 * length q.
  Proof.
    intros q n Hq H. destruct (parse_ok_inv lo _ _ Hq H) as (e & (w1 & t & w2 & -> & _ & _ & Hl) & _ & Hn).
    apply (proj1 stk_sz) in Hl. rewrite (ssz_last (stk lo e)) in Hl. rewrite <- Hn in Hl. cbn [osz] in Hl. rewrite !app_length. lia.
  Qed.
End Sizes.
