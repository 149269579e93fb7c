(** The parser facts with the specified trees ([tree_of]) in place of the
    code's own operation names, and the rejections as errors of Parse. *)
From Verif Require Import Base Peg Node Vocab Tree Parse Syntax ParseProofs NormProofs Unique ParserFacts ParserFacts2 ParserMain.

Section TF.
  Variable lo : N -> N.
  Lemma opn_spec : forall o, any_operator o -> opn lo o = Some (mk_op (op_name lo o)).
  Proof.
    intros o H. unfold opn. f_equal. f_equal. apply norm_name.
    destruct H as [H|[H|[H|[H|H]]]]; auto using edged_between, edged_match, edged_in, edged_cmp, edged_logic.
  Qed.
  Lemma parse_spec : forall q e, valid_runes q -> reads q e -> fits e = true -> json_free e = true -> parse lo q = Ok (tree_of lo e).
  Proof. intros q e Hq He Hf Hj. rewrite <- (ntree_reads lo q e He). now apply parse_tree. Qed.
  Lemma links_spec : forall ks e, links_ok e ks -> forall n,
    fold_left (fun n k => Some (mk_logic n (opn lo (lop k)) (ntree lo (lexp k)))) ks n =
    fold_left (fun n k => Some (mk_logic n (Some (mk_op (op_name lo (lop k)))) (tree_of lo (lexp k)))) ks n.
  Proof.
    induction ks as [|k ks IH]; intros e H n; [reflexivity|]. destruct H as (K1 & K2 & K3 & K4 & K5 & K6 & K7 & K8). cbn [fold_left].
    rewrite (ntree_tree lo _ _ K4), opn_spec by (unfold any_operator; tauto). now apply (IH (lexp k)).
  Qed.
  Lemma chain_spec : forall e0 t0 ks, lay e0 t0 -> links_ok e0 ks ->
    valid_runes (t0 ++ concat (map link_text ks)) ->
    json_free e0 = true -> forallb (fun k => json_free (lexp k)) ks = true ->
    fits e0 = true -> forallb (fun k => fits (lexp k)) ks = true ->
    parse lo (t0 ++ concat (map link_text ks)) =
      Ok (fold_left (fun n k => Some (mk_logic n (Some (mk_op (op_name lo (lop k)))) (tree_of lo (lexp k)))) ks (tree_of lo e0)).
  Proof.
    intros e0 t0 ks Hl Hk HV J0 J F0 F. rewrite <- (links_spec ks e0 Hk), <- (ntree_tree lo _ _ Hl). now apply chain_parse.
  Qed.
  Lemma groups_spec : forall q1 q2 e1 e2 w1 o w2, valid_runes (#"(" ++ q1 ++ #")" ++ w1 ++ o ++ w2 ++ #"(" ++ q2 ++ #")") ->
    reads q1 e1 -> reads q2 e2 -> json_free e1 = true -> json_free e2 = true -> fits e1 = true -> fits e2 = true ->
    blank w1 -> blank w2 ->
    (op_logic o -> parse lo (#"(" ++ q1 ++ #")" ++ w1 ++ o ++ w2 ++ #"(" ++ q2 ++ #")") =
       Ok (Some (mk_logic (Some (mk_paren (tree_of lo e1))) (Some (mk_op (op_name lo o))) (Some (mk_paren (tree_of lo e2)))))) /\
    (op_cmp o -> parse lo (#"(" ++ q1 ++ #")" ++ w1 ++ o ++ w2 ++ #"(" ++ q2 ++ #")") =
       Ok (Some (mk_compare (Some (mk_paren (tree_of lo e1))) (Some (mk_op (op_name lo o))) (Some (mk_paren (tree_of lo e2)))))).
  Proof.
    intros q1 q2 e1 e2 w1 o w2 HV H1 H2 J1 J2 F1 F2 B1 B2.
    destruct (paren_groups lo q1 q2 e1 e2 w1 o w2 HV H1 H2 J1 J2 F1 F2 B1 B2) as [G1 G2].
    rewrite (ntree_reads lo _ _ H1), (ntree_reads lo _ _ H2) in *. split; intro Ho; rewrite <- opn_spec by (unfold any_operator; tauto); auto.
  Qed.
  Lemma in_spec : forall e t w1 o w2 p c ls ta, level e <= 2 -> lay e t -> blank w1 -> op_in o ->
    blank w2 -> arr_text p c ls ta -> seam e (w1 ++ o) -> valid_runes (t ++ w1 ++ o ++ w2 ++ ta) ->
    json_free e = true -> fits e = true -> forallb lit_fits ls = true ->
    parse lo (t ++ w1 ++ o ++ w2 ++ ta) =
      Ok (Some (mk_compare (tree_of lo e) (Some (mk_op (op_name lo o))) (Some (mk_array (map (fun l => Some (lit_node l)) ls))))).
  Proof.
    intros e t w1 o w2 p c ls ta L H B1 Ho B2 A S V J F FL. rewrite <- (ntree_tree lo _ _ H), <- opn_spec by (unfold any_operator; tauto).
    now apply (in_parse lo e t w1 o w2 p c ls ta).
  Qed.
  Lemma cmp_spec : forall w c o l tl w1 w2 r tr, In (w, c) canonical -> spelled w o ->
    level l <= 4 -> level r <= 3 -> lay l tl -> lay r tr -> blank w1 -> blank w2 -> seam l (w1 ++ o) ->
    valid_runes (tl ++ w1 ++ o ++ w2 ++ tr) -> json_free l = true -> json_free r = true -> fits l = true -> fits r = true ->
    parse lo (tl ++ w1 ++ o ++ w2 ++ tr) = Ok (Some (mk_compare (tree_of lo l) (Some (mk_op c)) (tree_of lo r))).
  Proof.
    intros w c o l tl w1 w2 r tr HI HS L1 L2 Hl Hr B1 B2 Hs HV J1 J2 F1 F2. rewrite <- (ntree_tree lo _ _ Hl), <- (ntree_tree lo _ _ Hr).
    now apply (cmp_canonical lo w).
  Qed.
  Lemma whole_spec : forall q e, valid_runes q -> reads q e -> json_free e = true -> fits e = true ->
    exists n, final_stack lo q = Some [Some n] /\ parse lo q = Ok (Some n) /\ tree_of lo e = Some n.
  Proof. intros q e Hq He Hj Hf. rewrite <- (ntree_reads lo q e He). now apply whole_tree. Qed.
  Lemma ops_spec : forall q n m, valid_runes q -> parse lo q = Ok (Some n) -> reach n m -> is_operation m = true ->
    exists a o b, q = a ++ o ++ b /\ any_operator o /\ nOperation m = op_name lo o.
  Proof.
    intros q n m Hq Hp Hr Ho. destruct (parse_ops lo q n m Hq Hp Hr Ho) as (a & o & b & H1 & H2 & H3). exists a, o, b.
    split; [exact H1|]. split; [exact H2|]. pose proof (opn_spec o H2) as H. unfold opn in H. injection H as H. congruence.
  Qed.

  (** ** Rejections *)
  Definition rejected (q : list N) : Prop := exists b f, parse lo q = Err (PESyntax b f).
  Lemma rejects : forall q, valid_runes q -> (forall e, ~ reads q e) -> rejected q.
  Proof. intros q Hq H. now apply (parse_rejects lo q Hq). Qed.
  Lemma lead_spec : forall q w n, valid_runes (w ++ q) -> blank w -> parse lo (w ++ q) = Ok n <-> parse lo q = Ok n.
  Proof.
    intros q w n Hv Hw. assert (Hq : valid_runes q) by (apply Forall_app in Hv; apply Hv).
    assert (S : forall e, reads q e -> parse lo (w ++ q) = parse lo q).
    { intros e He. rewrite <- (app_nil_r q) at 1. apply parse_pad; [now rewrite app_nil_r|exact Hw|constructor|eauto]. }
    split; intro H.
    - destruct (proj1 (parse_ok_iff lo _ Hv) (ex_intro _ n H)) as (e & He & _). apply reads_lead in He; [|exact Hw]. now rewrite <- (S e He).
    - destruct (proj1 (parse_ok_iff lo _ Hq) (ex_intro _ n H)) as (e & He & _). now rewrite (S e He).
  Qed.
  Lemma zero_rejected : forall w c r, valid_runes (w ++ 48%N :: c :: r) -> blank w -> is_digit c = true -> rejected (w ++ 48%N :: c :: r).
  Proof. intros w c r Hv Hw Hc. apply rejects; [exact Hv|]. now apply leading_zero. Qed.
  Lemma not_rejected : forall w n c r, valid_runes (w ++ n ++ c :: r) -> blank w -> ci #"not" n -> idchar c = true -> rejected (w ++ n ++ c :: r).
  Proof. intros w n c r Hv Hw Hn Hc. apply rejects; [exact Hv|]. now apply not_prefix. Qed.
  Lemma word_rejected : forall b w c r, valid_runes (b ++ w ++ c :: r) -> blank b -> In w literal_words -> idchar c = true ->
    rejected (b ++ w ++ c :: r) \/ exists o z, c :: r = o ++ z /\ any_op o.
  Proof.
    intros b w c r Hv Hb Hw Hc. destruct (parse_cases lo _ Hv) as [(e & He & _)|[(e & ds & He & _)|(H & _)]].
    - right. eapply word_prefix; eassumption.
    - right. eapply word_prefix; eassumption.
    - left. now apply rejects.
  Qed.
  Lemma word_refuted : exists w c r n, In w literal_words /\ idchar c = true /\ parse lo (w ++ c :: r) = Ok (Some n).
  Proof. exists #"true", 105%N, #"n (1)". eexists. split; [cbn; tauto|]. split; [reflexivity|]. vm_compute. reflexivity. Qed.
  Lemma cols_refuted : ~ forall x, (exists c r, x = c :: r /\ letter c = true /\ forallb idchar r = true) -> exists n, parse lo (x ++ #" = 1") = Ok n.
  Proof.
    intro H. destruct (H #"notes") as (n & Hn); [exists 110%N, #"otes"; auto|]. vm_compute in Hn. discriminate.
  Qed.
  Lemma lg_spec : forall b l tl w1 z, valid_runes (b ++ tl ++ w1 ++ #"<>" ++ z) -> blank b -> level l <= 4 -> lay l tl -> blank w1 ->
    rejected (b ++ tl ++ w1 ++ #"<>" ++ z).
  Proof. intros b l tl w1 z Hv Hb L Hl Hw. apply rejects; [exact Hv|]. now apply (lg_rejected b l). Qed.
  Lemma xte_spec : forall k b l tl w1 o g v tv z, valid_runes (b ++ tl ++ w1 ++ o ++ g ++ tv ++ z) -> k = #"gt" \/ k = #"lt" -> ci (k ++ #"e") o ->
    blank b -> level l <= 4 -> lay l tl -> blank w1 -> seam l (w1 ++ o) -> gap1 g -> val_text v tv ->
    rejected (b ++ tl ++ w1 ++ o ++ g ++ tv ++ z).
  Proof. intros k b l tl w1 o g v tv z Hv Hk Ho Hb L Hl Hw Hs Hg Ht. apply rejects; [exact Hv|]. now apply (xte_rejected lo k b l tl w1 o g v tv z). Qed.
End TF.
