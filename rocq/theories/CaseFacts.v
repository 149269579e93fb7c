(** Letter case of the keywords, and the tables of unicode.ToLower. *)
From Verif Require Import Base Peg PegSpec PegProofs MachineProofs Grammar Node Vocab Tree Parse GrammarProofs Syntax
  Blank Lex Ops Complete CompleteMain Sound ParseProofs Unique PegSpecProofs ParserFacts NormProofs CaseSpec.
Require Import Arith.
Strategy expand [parse_machine].
Strategy 1000 [parse_fuel mrun].

(** ** Case *)
Section ExprInd.
  Variable P : expr -> Prop.
  Hypothesis HVal : forall v, P (EVal v).
  Hypothesis HName : forall x, P (EName x).
  Hypothesis HRef : forall xs, P (ERef xs).
  Hypothesis HJson : forall xs, P (EJson xs).
  Hypothesis HCall : forall f args, Forall P args -> P (ECall f args).
  Hypothesis HParen : forall e, P e -> P (EParen e).
  Hypothesis HBetween : forall e o b l h, P e -> P (EBetween e o b l h).
  Hypothesis HPred : forall e o, P e -> P (EPred e o).
  Hypothesis HIn : forall e o p ls, P e -> P (EIn e o p ls).
  Hypothesis HCmp : forall l o r, P l -> P r -> P (ECmp l o r).
  Hypothesis HNot : forall e, P e -> P (ENot e).
  Hypothesis HLogic : forall l o r, P l -> P r -> P (ELogic l o r).
  Fixpoint expr_all (e : expr) : P e :=
    match e with
    | EVal v => HVal v
    | EName x => HName x
    | ERef xs => HRef xs
    | EJson xs => HJson xs
    | ECall f args => HCall f args ((fix go (l : list expr) : Forall P l :=
        match l with [] => Forall_nil P | a :: l' => Forall_cons a (expr_all a) (go l') end) args)
    | EParen e => HParen e (expr_all e)
    | EBetween e o b l h => HBetween e o b l h (expr_all e)
    | EPred e o => HPred e o (expr_all e)
    | EIn e o p ls => HIn e o p ls (expr_all e)
    | ECmp l o r => HCmp l o r (expr_all l) (expr_all r)
    | ENot e => HNot e (expr_all e)
    | ELogic l o r => HLogic l o r (expr_all l) (expr_all r)
    end.
End ExprInd.

Section Case.
  Variable lo : N -> N.
  Lemma al_idem : forall c, ascii_lower (ascii_lower c) = ascii_lower c.
  Proof.
    intro c. unfold ascii_lower. destruct (N.leb_spec 65 c); destruct (N.leb_spec c 90); cbn [andb];
      repeat match goal with |- context [(?x <=? ?y)%N] => destruct (N.leb_spec x y) end; cbn [andb]; lia.
  Qed.
  Lemma mal_idem : forall o, map ascii_lower (map ascii_lower o) = map ascii_lower o.
  Proof. intro o. rewrite map_map. apply map_ext. apply al_idem. Qed.
  Lemma opn_lower : forall o, opn lo (map ascii_lower o) = opn lo o.
  Proof. intro o. unfold opn. rewrite (norm_case lo (map ascii_lower o) o); [reflexivity|]. apply mal_idem. Qed.
  Lemma stk_lower : forall e, stk lo (lower_ops e) = stk lo e.
  Proof.
    induction e using expr_all; cbn [lower_ops stk]; rewrite ?opn_lower; try congruence.
    - f_equal. f_equal. f_equal. f_equal. rewrite map_map. apply map_ext_in. rewrite Forall_forall in H. exact H.
  Qed.
  Lemma errs_lower : forall e, errs (lower_ops e) = errs e.
  Proof.
    induction e using expr_all; cbn [lower_ops errs]; try congruence.
    f_equal. rewrite map_map. apply map_ext_in. rewrite Forall_forall in H. exact H.
  Qed.
  Lemma recase_parse : forall q q' e e', valid_runes q -> valid_runes q' -> reads q e -> reads q' e' -> lower_ops e = lower_ops e' -> parse lo q = parse lo q'.
  Proof.
    intros q q' e e' Hq Hq' He He' H. rewrite (parse_reads lo q e Hq He), (parse_reads lo q' e' Hq' He').
    rewrite <- (errs_lower e), <- (errs_lower e'), <- (stk_lower e), <- (stk_lower e'), H. reflexivity.
  Qed.
End Case.

(** ** Every change of case can be written *)
Lemma level_lower : forall e, level (lower_ops e) = level e.
Proof. destruct e; reflexivity. Qed.
Lemma ends_ident_lower : forall e, ends_ident (lower_ops e) = ends_ident e.
Proof. induction e using expr_all; cbn; auto. Qed.
Lemma ends_bracket_lower : forall e, ends_bracket (lower_ops e) = ends_bracket e.
Proof. induction e using expr_all; cbn; auto. Qed.
Lemma starts_val_lower : forall e, starts_val (lower_ops e) = starts_val e.
Proof. induction e using expr_all; cbn; auto. destruct e; cbn in *; auto. Qed.
Lemma idchar_lower : forall c, idchar (ascii_lower c) = idchar c.
Proof.
  intro c. unfold idchar, letter, is_digit, ascii_lower.
  destruct (N.leb_spec 65 c); destruct (N.leb_spec c 90); cbn [andb];
    repeat match goal with |- context [(?x <=? ?y)%N] => destruct (N.leb_spec x y); try lia end; try reflexivity.
Qed.
Lemma ci_same : forall w o o', ci w o -> map ascii_lower o' = map ascii_lower o -> ci w o'.
Proof. unfold ci. congruence. Qed.
Lemma map_split : forall (f : N -> N) o a b, map f o = a ++ b -> exists x y, o = x ++ y /\ map f x = a /\ map f y = b.
Proof. intros f o a b H. apply map_eq_app in H. destruct H as (x & y & -> & <- & <-). eauto. Qed.
Lemma al_fixed : forall c c', ascii_lower c' = ascii_lower c -> letter c = false -> c' = c.
Proof.
  intros c c' H L. unfold letter in L. apply orb_false_iff in L as [L1 L2]. apply andb_false_iff in L1, L2. rewrite !N.leb_gt in *.
  unfold ascii_lower in H. destruct (N.leb_spec 65 c); destruct (N.leb_spec c 90); cbn [andb] in H;
  destruct (N.leb_spec 65 c'); destruct (N.leb_spec c' 90); cbn [andb] in H; lia.
Qed.
Lemma mal_fixed : forall o o', map ascii_lower o' = map ascii_lower o -> forallb (fun c => negb (letter c)) o = true -> o' = o.
Proof.
  intros o o' H L. revert o' H. induction o as [|c o IH]; intros [|c' o'] H; try discriminate; [reflexivity|].
  cbn in *. apply andb_true_iff in L as [L1 L2]. apply negb_true_iff in L1. injection H as H1 H2. f_equal; [now apply al_fixed|now apply IH].
Qed.
Ltac msplit H :=
  let x := fresh "x" in let y := fresh "y" in let E := fresh "E" in let H1 := fresh "M" in let H2 := fresh "M" in
  rewrite map_app in H; apply map_split in H; destruct H as (x & y & E & H1 & H2).
Lemma line_end_letter : forall c, line_end c = true -> letter c = false.
Proof. intros c H. unfold line_end in H. apply orb_true_iff in H as [H|H]; apply N.eqb_eq in H; subst; reflexivity. Qed.
Lemma line_end_case : forall c c', ascii_lower c' = ascii_lower c -> line_end c' = line_end c.
Proof.
  intros c c' H. destruct (line_end c) eqn:E.
  - rewrite (al_fixed c c' H (line_end_letter c E)). exact E.
  - destruct (line_end c') eqn:E'; [|reflexivity]. rewrite (al_fixed c' c (eq_sym H) (line_end_letter c' E')) in E. congruence.
Qed.
Lemma blank_case : forall w, blank w -> forall w', map ascii_lower w' = map ascii_lower w -> blank w'.
Proof.
  induction 1 as [|c w Hc Hw IH|m body c w Hm Hb Hc Hw IH]; intros w' E.
  - destruct w'; [constructor|discriminate].
  - destruct w' as [|c' w']; [discriminate|]. injection E as E1 E2. rewrite (al_fixed c c' E1).
    + constructor; auto.
    + unfold mem in Hc. cbn in Hc. repeat (apply orb_true_iff in Hc as [Hc|Hc]; [apply N.eqb_eq in Hc; subst; reflexivity|]). discriminate.
  - msplit E. subst w'. apply mal_fixed in M; [|destruct Hm as [->| ->]; reflexivity]. subst x.
    msplit M0. subst y. destruct y0 as [|c' y0]; [discriminate|]. injection M1 as E1 E2. apply (blank_comment m x c' y0); auto.
    + clear - M Hb. revert x M. induction body as [|b body IHb]; intros [|b' x] M; try discriminate; [reflexivity|]. cbn in *.
      apply andb_true_iff in Hb as [H1 H2]. injection M as M1 M2. rewrite (line_end_case b b' M1), H1. cbn. now apply IHb.
    + now rewrite (line_end_case c c' E1).
Qed.
Lemma gap1_case : forall w w', gap1 w -> map ascii_lower w' = map ascii_lower w -> gap1 w'.
Proof.
  intros w w' [H1 H2] E. split; [eapply blank_case; eauto|]. intros ->. destruct w; [congruence|discriminate].
Qed.
Lemma not_then_case : forall x o o', not_then x o -> map ascii_lower o' = map ascii_lower o ->
  exists x', map ascii_lower x' = map ascii_lower x /\ not_then x' o'.
Proof.
  intros x o o' (n & g & Hn & Hg & ->) E. msplit E. subst o'. msplit M0. subst y. exists y0. split; [exact M2|].
  exists x0, x1. split; [eapply ci_same; eauto|]. split; [eapply gap1_case; eauto|reflexivity].
Qed.
Lemma op_in_case : forall o o', op_in o -> map ascii_lower o' = map ascii_lower o -> op_in o'.
Proof.
  intros o o' [H|(x & H1 & H2)] E; [left; eapply ci_same; eauto|]. right.
  destruct (not_then_case _ _ _ H2 E) as (x' & Hx & H3). exists x'. split; [eapply ci_same; eauto|exact H3].
Qed.
Lemma op_cmp_case : forall o o', op_cmp o -> map ascii_lower o' = map ascii_lower o -> op_cmp o'.
Proof.
  intros o o' H E. destruct H as [H|[H|[H|[H|[H|[H|(x & H1 & H2)]]]]]]; [|right|do 2 right|do 3 right|do 4 right|do 5 right|do 6 right].
  - left. cbn [cmp_symbols In] in H. repeat (destruct H as [<-|H]; [apply mal_fixed in E; [subst; cbn; tauto|reflexivity]|]). contradiction.
  - left. eapply ci_same; eauto.
  - left. eapply ci_same; eauto.
  - left. eapply ci_same; eauto.
  - left. eapply ci_same; eauto.
  - left. eapply ci_same; eauto.
  - destruct (not_then_case _ _ _ H2 E) as (x' & Hx & H3). exists x'. split; [eapply ci_same; eauto|exact H3].
Qed.
Lemma op_logic_case : forall o o', op_logic o -> map ascii_lower o' = map ascii_lower o -> op_logic o'.
Proof.
  intros o o' [H|[H|[-> | ->]]] E.
  - left. eapply ci_same; eauto.
  - right. left. eapply ci_same; eauto.
  - right. right. left. now apply mal_fixed in E.
  - right. right. right. now apply mal_fixed in E.
Qed.
Definition same_case (e e' : expr) : Prop := lower_ops e' = lower_ops e.
Lemma seam_case : forall e e' r r', same_case e e' -> map ascii_lower r' = map ascii_lower r -> seam e r -> seam e' r'.
Proof.
  intros e e' r r' H E S K. rewrite <- ends_ident_lower, H, ends_ident_lower in K. specialize (S K).
  destruct r as [|c r]; destruct r' as [|c' r']; try discriminate; auto. injection E as E1 _. now rewrite <- idchar_lower, E1, idchar_lower.
Qed.
Lemma level_case : forall e e', same_case e e' -> level e' = level e.
Proof. intros e e' H. now rewrite <- level_lower, H, level_lower. Qed.
Lemma clash_case : forall l l' o o' r r', same_case l l' -> same_case r r' -> map ascii_lower o' = map ascii_lower o ->
  ~ bracket_clash l o r -> ~ bracket_clash l' o' r'.
Proof.
  intros l l' o o' r r' H1 H2 E H (A & B & C). apply H. split; [now rewrite <- ends_bracket_lower, <- H1, ends_bracket_lower|].
  split; [unfold ci in *; congruence|]. now rewrite <- starts_val_lower, <- H2, starts_val_lower.
Qed.
Fixpoint all_fixed (l : list expr) : Prop := match l with [] => True | a :: l' => fixed_ops a /\ all_fixed l' end.
Lemma fixed_call : forall f args, fixed_ops (ECall f args) -> all_fixed args.
Proof. intros f args H. cbn in H. induction args as [|a args IH]; cbn in *; [exact I|]. destruct H. split; auto. Qed.

Ltac inv_case e' H :=
  unfold same_case in H; destruct e'; try discriminate H; cbn [lower_ops] in H; injection H; clear H; intros; subst.
Lemma lay_case :
  (forall e t, lay e t -> forall e', same_case e e' -> fixed_ops e' -> exists t', lay e' t' /\ map ascii_lower t' = map ascii_lower t) /\
  (forall es t, lays es t -> forall es', map lower_ops es' = map lower_ops es -> all_fixed es' ->
     exists t', lays es' t' /\ map ascii_lower t' = map ascii_lower t).
Proof.
  apply lay_lays_ind.
  - intros l t H e' E F. inv_case e' E. exists t. split; [exact (lay_lit _ _ H)|reflexivity].
  - intros p c ls t H N e' E F. inv_case e' E. exists t. split; [exact (lay_arr _ _ _ _ H N)|reflexivity].
  - intros x H N e' E F. inv_case e' E. eexists. split; [exact (lay_name _ H N)|reflexivity].
  - intros x y xs H N e' E F. inv_case e' E. eexists. split; [exact (lay_ref _ _ _ H N)|reflexivity].
  - intros x y xs H N e' E F. inv_case e' E. eexists. split; [exact (lay_json _ _ _ H N)|reflexivity].
  - intros f w H N B e' E F. unfold same_case in E. destruct e'; try discriminate E. injection E as E1 E2. subst. destruct args; [|discriminate].
    eexists. split; [exact (lay_call0 _ _ H N B)|reflexivity].
  - intros f args t w1 w2 H N L IH B1 B2 e' E F. unfold same_case in E. destruct e'; try discriminate E. injection E as E1 E2. subst.
    destruct (IH args0 E2 (fixed_call _ _ F)) as (t' & Lt & Et). eexists. split; [exact (lay_call _ _ _ _ _ H N Lt B1 B2)|]. rewrite !map_app. congruence.
  - intros f args t w1 w2 w3 H N L IH B1 B2 B3 e' E F. unfold same_case in E. destruct e'; try discriminate E. injection E as E1 E2. subst.
    destruct (IH args0 E2 (fixed_call _ _ F)) as (t' & Lt & Et). eexists. split; [exact (lay_callc _ _ _ _ _ _ H N Lt B1 B2 B3)|]. rewrite !map_app. congruence.
  - intros e t w1 w2 L IH B1 B2 e' E F. unfold same_case in E. destruct e'; try discriminate E. injection E as E1. cbn in F.
    destruct (IH e' E1 F) as (t' & Lt & Et). eexists. split; [exact (lay_paren _ _ _ _ Lt B1 B2)|]. rewrite !map_app. congruence.
  - intros e t w1 o w2 l tl w3 a w4 h th Hl L IH B1 Ho B2 Vl B3 Ha B4 Vh S e' E F. unfold same_case in E. destruct e'; try discriminate E. injection E as E1 E2 E3 E4 E5. subst. destruct F as [F1 F2].
    destruct (IH e' E1 F2) as (t' & Lt & Et). eexists. split; [eapply (lay_between e' t' w1 _ w2 _ tl w3 a w4 _ th); try eassumption; [now rewrite (level_case e)|]|rewrite !map_app; congruence].
    eapply seam_case; [exact E1| |exact S]. rewrite !map_app. congruence.
  - intros e t w1 o w2 w3 l tl w4 w5 h th w6 Hl L IH B1 Ho B2 B3 Vl B4 B5 Vh B6 S e' E F. unfold same_case in E. destruct e'; try discriminate E. injection E as E1 E2 E3 E4 E5. subst. destruct F as [F1 F2].
    destruct (IH e' E1 F2) as (t' & Lt & Et). eexists. split; [eapply lay_between_br; [| |exact B1| |exact B2|exact B3|exact Vl|exact B4|exact B5|exact Vh|exact B6|]; try eassumption; [now rewrite (level_case e)|]|rewrite !map_app; congruence].
    eapply seam_case; [exact E1| |exact S]. rewrite !map_app. congruence.
  - intros e t w o Hl L IH B Ho e' E F. unfold same_case in E. destruct e'; try discriminate E. injection E as E1 E2. destruct F as [F1 F2].
    destruct (IH e' E1 F2) as (t' & Lt & Et). eexists. split; [eapply (lay_pred e' t' w); try eassumption; now rewrite (level_case e)|rewrite !map_app; congruence].
  - intros e t w1 o w2 p c ls ta Hl L IH B1 Ho B2 Ta S e' E F. unfold same_case in E. destruct e'; try discriminate E. injection E as E1 E2 E3 E4. subst. cbn in F.
    destruct (IH e' E1 F) as (t' & Lt & Et). eexists. split; [eapply lay_in; [now rewrite (level_case e)|exact Lt|exact B1|eapply op_in_case; eassumption|exact B2|exact Ta|]|rewrite !map_app; congruence].
    eapply seam_case; [exact E1| |exact S]. rewrite !map_app. congruence.
  - intros l tl w1 o w2 r tr H1 H2 Ll IHl B1 Ho B2 Lr IHr S e' E F. unfold same_case in E. destruct e'; try discriminate E. injection E as E1 E2 E3. destruct F as [F1 F2].
    destruct (IHl e'1 E1 F1) as (t1 & L1 & Et1). destruct (IHr e'2 E3 F2) as (t2 & L2 & Et2). eexists.
    split; [eapply lay_cmp; [now rewrite (level_case l)|now rewrite (level_case r)|exact L1|exact B1|eapply op_cmp_case; eassumption|exact B2|exact L2|]|rewrite !map_app; congruence].
    eapply seam_case; [exact E1| |exact S]. rewrite !map_app. congruence.
  - intros n g e t Hn Hg Hl L IH e' E F. unfold same_case in E. destruct e'; try discriminate E. injection E as E1. cbn in F.
    destruct (IH e' E1 F) as (t' & Lt & Et). eexists. split; [eapply (lay_not n g e' t'); try eassumption; now rewrite (level_case e)|]. rewrite !map_app. congruence.
  - intros l tl w1 o w2 r tr H2 Ll IHl B1 Ho B2 Lr IHr S C e' E F. unfold same_case in E. destruct e'; try discriminate E. injection E as E1 E2 E3. destruct F as [F1 F2].
    destruct (IHl e'1 E1 F1) as (t1 & L1 & Et1). destruct (IHr e'2 E3 F2) as (t2 & L2 & Et2). eexists.
    split; [eapply lay_logic; [now rewrite (level_case r)|exact L1|exact B1|eapply op_logic_case; eassumption|exact B2|exact L2| |]|rewrite !map_app; congruence].
    + eapply seam_case; [exact E1| |exact S]. rewrite !map_app. congruence.
    + exact (clash_case _ _ _ _ _ _ E1 E3 E2 C).
  - intros e t L IH es' E F. destruct es' as [|e' [|? ?]]; try discriminate. injection E as E1. destruct F as [F1 _].
    destruct (IH e' E1 F1) as (t' & Lt & Et). exists t'. split; [now constructor|exact Et].
  - intros e t w1 w2 es ts L IH B1 B2 Ls IHs es' E F. destruct es' as [|e' es']; try discriminate. injection E as E1 E2. destruct F as [F1 F2].
    destruct (IH e' E1 F1) as (t' & Lt & Et). destruct (IHs es' E2 F2) as (ts' & Lts & Ets). eexists. split; [eapply lays_cons; [exact Lt|exact B1|exact B2|exact Lts]|]. rewrite !map_app. congruence.
Qed.
Lemma recase_reads : forall q e e', reads q e -> lower_ops e' = lower_ops e -> fixed_ops e' ->
  exists q', reads q' e' /\ map ascii_lower q' = map ascii_lower q.
Proof.
  intros q e e' (w1 & t & w2 & -> & B1 & B2 & L) E F. destruct (proj1 lay_case e t L e' E F) as (t' & L' & Et).
  exists (w1 ++ t' ++ w2). split; [exists w1, t', w2; auto|]. rewrite !map_app. congruence.
Qed.

(** ** unicode.ToLower *)
Definition ascii_text (o : list N) : Prop := Forall (fun c => (c < 128)%N) o.
Lemma trim_left_in : forall s c, In c (trim_left s) -> In c s.
Proof. induction s as [|x s IH]; intros c H; [exact H|]. cbn in H. destruct (unicode_space x); [right; auto|exact H]. Qed.
Lemma norm_ascii : forall lo lo' o, ascii_text o -> normalize_operation lo o = normalize_operation lo' o.
Proof.
  intros lo lo' o H. unfold normalize_operation.
  replace (map (to_lower_rune lo) (trim_space o)) with (map (to_lower_rune lo') (trim_space o)); [reflexivity|].
  apply map_ext_in. intros c Hc. unfold to_lower_rune. destruct (N.ltb_spec c 128); [reflexivity|].
  unfold trim_space in Hc. rewrite <- in_rev in Hc. apply trim_left_in in Hc. rewrite <- in_rev in Hc. apply trim_left_in in Hc.
  unfold ascii_text in H. rewrite Forall_forall in H. apply H in Hc. lia.
Qed.
Lemma at_app : forall a b, ascii_text a -> ascii_text b -> ascii_text (a ++ b).
Proof. intros. apply Forall_app. auto. Qed.
Lemma at_ci : forall w o, ci w o -> ascii_text w -> ascii_text o.
Proof.
  unfold ci. intros w o <- H. unfold ascii_text in *. rewrite Forall_forall in *. intros c Hc. specialize (H (ascii_lower c) (in_map _ _ _ Hc)).
  unfold ascii_lower in H. destruct (_ && _); lia.
Qed.
Lemma at_blank : forall w, blank w -> marker_free w -> ascii_text w.
Proof.
  intros w H M. pose proof (blank_mf w H M) as K. unfold ascii_text. rewrite Forall_forall. rewrite forallb_forall in K. intros c Hc. apply K in Hc.
  unfold re_space, mem in Hc. cbn in Hc. repeat (apply orb_true_iff in Hc as [Hc|Hc]; [apply N.eqb_eq in Hc; subst; reflexivity|]). discriminate.
Qed.
Ltac word := repeat constructor; reflexivity.
Lemma at_not : forall x o, not_then x o -> marker_free o -> ascii_text x -> ascii_text o.
Proof.
  intros x o (n & g & Hn & [Hg _] & ->) M Hx. mfs. apply at_app; [eapply at_ci; [exact Hn|word]|]. apply at_app; [now apply at_blank|exact Hx].
Qed.
Lemma at_tfn : forall x, tfn x -> ascii_text x.
Proof. intros x H. unfold tfn in H. cbn [In] in H. repeat (destruct H as [<-|H]; [word|]). contradiction. Qed.
Lemma at_between : forall o, op_between o -> marker_free o -> ascii_text o.
Proof. intros o [->|H] M; [word|]. eapply at_not; eauto. word. Qed.
Lemma at_match : forall o, op_match o -> marker_free o -> ascii_text o.
Proof.
  intros o [->|[->|[(g & x & [Hg _] & Hx & ->)|(g & g' & x & [Hg _] & [Hg' _] & Hx & ->)]]] M; try word; mfs;
    repeat (apply at_app; [first [now apply at_blank|word]|]); now apply at_tfn.
Qed.
Lemma at_in : forall o, op_in o -> marker_free o -> ascii_text o.
Proof.
  intros o [H|(x & H1 & H2)] M; [eapply at_ci; [exact H|word]|]. eapply at_not; eauto. eapply at_ci; [exact H1|word].
Qed.
Lemma at_cmp : forall o, op_cmp o -> marker_free o -> ascii_text o.
Proof.
  intros o H M. destruct H as [H|[H|[H|[H|[H|[H|(x & H1 & H2)]]]]]]; try (eapply at_ci; [exact H|word]).
  - cbn [cmp_symbols In] in H. repeat (destruct H as [<-|H]; [word|]). contradiction.
  - eapply at_not; eauto. eapply at_ci; [exact H1|word].
Qed.
Lemma at_logic : forall o, op_logic o -> marker_free o -> ascii_text o.
Proof. intros o [H|[H|[-> | ->]]] M; try word; eapply at_ci; try exact H; word. Qed.

Section Tables.
  Variables lo lo' : N -> N.
  Lemma opn_ascii : forall o, ascii_text o -> opn lo o = opn lo' o.
  Proof. intros o H. unfold opn. now rewrite (norm_ascii lo lo' o H). Qed.
  Lemma stk_tables :
    (forall e t, lay e t -> marker_free t -> stk lo e = stk lo' e) /\
    (forall es t, lays es t -> marker_free t -> map (stk lo) es = map (stk lo') es).
  Proof.
    apply lay_lays_ind; intros; mfs; cbn [stk map]; try reflexivity.
    - now rewrite H by assumption.
    - now rewrite H by assumption.
    - now rewrite H by assumption.
    - rewrite H by assumption. now rewrite (opn_ascii o) by (now apply at_between).
    - rewrite H by assumption. now rewrite (opn_ascii o) by (now apply at_between).
    - rewrite H by assumption. now rewrite (opn_ascii o) by (now apply at_match).
    - rewrite H by assumption. now rewrite (opn_ascii o) by (now apply at_in).
    - rewrite H, H0 by assumption. now rewrite (opn_ascii o) by (now apply at_cmp).
    - now rewrite H by assumption.
    - rewrite H, H0 by assumption. now rewrite (opn_ascii o) by (now apply at_logic).
    - now rewrite H by assumption.
    - now rewrite H, H0 by assumption.
  Qed.
  Lemma parse_tables : forall q, valid_runes q -> marker_free q -> parse lo q = parse lo' q.
  Proof.
    intros q Hq M. destruct (reads_dec q) as [(e & He)|Hn].
    - rewrite (parse_reads lo q e Hq He), (parse_reads lo' q e Hq He). destruct He as (w1 & t & w2 & -> & _ & _ & L). mfs.
      now rewrite (proj1 stk_tables e t L) by assumption.
    - pose proof (parse_machine_spec q Hq) as HM. unfold parse. destruct (E (PRule rGrammar) q) as [[ev r]|] eqn:HE.
      + destruct (grammar_sound _ _ _ HE) as (_ & e & He & _). now elim (Hn e).
      + destruct HM as (s & -> & _). reflexivity.
  Qed.
End Tables.

Lemma valid_case : forall q q', map ascii_lower q' = map ascii_lower q -> valid_runes q -> valid_runes q'.
Proof.
  induction q as [|c q IH]; intros [|c' q'] E H; try discriminate; [constructor|]. cbn [map] in E. injection E as E1 E2. inversion H as [|? ? H1 H2]; subst.
  constructor; [|apply IH; assumption]. revert E1 H1. unfold ascii_lower, endSymbol.
  destruct ((65 <=? c') && (c' <=? 90))%N eqn:A, ((65 <=? c) && (c <=? 90))%N eqn:B;
    try (apply andb_true_iff in A; destruct A as [A1 A2]; apply N.leb_le in A1; apply N.leb_le in A2);
    try (apply andb_true_iff in B; destruct B as [B1 B2]; apply N.leb_le in B1; apply N.leb_le in B2); intros; lia.
Qed.
(** marker_free, decided *)
Fixpoint mfb (s : list N) : bool :=
  match s with
  | [] => true
  | c :: t => negb (match t with d :: _ => ((c =? d) && ((c =? 45) || (c =? 47)))%N | [] => false end) && mfb t
  end.
Lemma mfb_spec : forall s, mfb s = true -> marker_free s.
Proof.
  induction s as [|c t IH]; intros H a m b Hm E.
  - destruct a, Hm; subst; discriminate.
  - cbn [mfb] in H. apply andb_true_iff in H. destruct H as [H1 H2]. destruct a as [|x a].
    + destruct Hm; subst m; cbn in E; injection E as -> ->; cbn in H1; discriminate.
    + cbn in E. injection E as -> E. exact (IH H2 a m b Hm E).
Qed.
Lemma recase_all : forall lo q e e', valid_runes q -> reads q e -> lower_ops e' = lower_ops e -> fixed_ops e' ->
  exists q', reads q' e' /\ map ascii_lower q' = map ascii_lower q /\ parse lo q' = parse lo q.
Proof.
  intros lo q e e' Hq He E F. destruct (recase_reads q e e' He E F) as (q' & He' & Em). exists q'. repeat split; [exact He'|exact Em|].
  apply (recase_parse lo q' q e' e); [now apply (valid_case q)|exact Hq|exact He'|exact He|exact E].
Qed.
