(** More consequences: reserved words, unusable operators, tree safety, error positions. *)
From Verif Require Import Base Peg PegSpec PegProofs MachineProofs Grammar Node Vocab Tree Parse GrammarProofs Syntax
  Blank Lex Ops Complete CompleteMain Sound ParseProofs Unique PegSpecProofs ParserFacts.
Require Import Arith.

(** ** C13 *)
Lemma not_prefix : forall w n c r, blank w -> ci #"not" n -> idchar c = true -> forall e, ~ reads (w ++ n ++ c :: r) e.
Proof.
  intros w n c r Hw Hn Hc e He. apply reads_lead in He; [|exact Hw]. apply grammar_complete in He. rewrite E_grammar in He.
  assert (Hn' := Hn). unfold ci in Hn'. destruct n as [|k n]; [discriminate|]. cbn in Hn'. injection Hn' as Hk _.
  assert (HL : letter k = true) by (eapply ascii_lower_letter; [exact Hk|reflexivity]).
  assert (HS : sc ((k :: n) ++ c :: r) = None) by (apply sc_head; apply starter_facts; now apply starter_letter).
  assert (HC : sc (c :: r) = None).
  { apply sc_head. destruct (blank_start c) eqn:HB; [|reflexivity]. apply blank_start_facts in HB. destruct HB as (_ & _ & HB). congruence. }
  rewrite (skip_stop _ HS), E_expression, E_logicx in He.
  assert (HN : E (PRule rNotExpression) ((k :: n) ++ c :: r) = None).
  { rewrite E_notx. rewrite cmp_none.
    - rewrite (skip_stop _ HS). unfold nots. rewrite (istrip_app _ _ _ Hn). unfold Ops.obind, gapf. now rewrite HC.
    - apply prim_none.
      + apply parenP_head. now destruct (letter_not k HL).
      + now apply value_not.
      + rewrite E_ident, (istrip_app _ _ _ Hn). reflexivity. }
  rewrite seq_none in He; [discriminate|reflexivity|exact HN].
Qed.

(** the words that are literals *)
Definition literal_words : list (list N) := [#"true"; #"false"; #"TRUE"; #"FALSE"; #"null"; #"NULL"].
Definition word_literal (w : list N) : literal :=
  if existsb (streq w) [#"null"; #"NULL"] then LNull w else LBool w.
Definition any_op (o : list N) : Prop := op_between o \/ op_in o \/ op_cmp o \/ op_logic o.
Lemma any_opst : forall o, any_op o -> opst o.
Proof. intros o [H|[H|[H|H]]]; [now apply opst_between|now apply opst_in|now apply opst_cmp|now apply opst_logic]. Qed.

(** an expression whose first token is a literal: the literal, then nothing, or blanks and an operator *)
Lemma leftmost_lit : forall e t, lay e t -> slit e = true ->
  exists l tl u, leftmost e = EVal (VLit l) /\ t = tl ++ u /\ lit_text l tl /\
    (u = [] \/ exists w o z, u = w ++ o ++ z /\ blank w /\ (any_op o \/ (op_match o /\ w <> []))).
Proof.
  assert (X : forall e t, (exists l tl u, leftmost e = EVal (VLit l) /\ t = tl ++ u /\ lit_text l tl /\
      (u = [] \/ exists w o z, u = w ++ o ++ z /\ blank w /\ (any_op o \/ (op_match o /\ w <> [])))) ->
    forall e' w o z, leftmost e' = leftmost e -> blank w -> (any_op o \/ (op_match o /\ w <> [])) ->
      exists l tl u, leftmost e' = EVal (VLit l) /\ t ++ w ++ o ++ z = tl ++ u /\ lit_text l tl /\
      (u = [] \/ exists w o z, u = w ++ o ++ z /\ blank w /\ (any_op o \/ (op_match o /\ w <> [])))).
  { intros e t (l & tl & u & H1 & -> & H2 & H3) e' w o z He Hw Ho. exists l, tl, (u ++ w ++ o ++ z).
    rewrite He, <- app_assoc. repeat split; auto. right. destruct H3 as [->|(w' & o' & z' & -> & Hw' & Ho')].
    - exists w, o, z. auto.
    - exists w', o', (z' ++ w ++ o ++ z). rewrite <- !app_assoc. auto. }
  refine (lay_mind (fun e t _ => slit e = true -> exists l tl u, leftmost e = EVal (VLit l) /\ t = tl ++ u /\ lit_text l tl /\
    (u = [] \/ exists w o z, u = w ++ o ++ z /\ blank w /\ (any_op o \/ (op_match o /\ w <> []))))
    (fun _ _ _ => True) _ _ _ _ _ _ _ _ _ _ _ _ _ _ _ _ _ _); auto; try discriminate.
  - intros l t H _. exists l, t, []. rewrite app_nil_r. auto.
  - intros e t w1 o w2 lo tlo w3 a w4 hi thi Hv Hl IH Hw Ho _ _ _ _ _ _ _ Hs. eapply X; [apply (IH Hs)|reflexivity|exact Hw|]. left. now left.
  - intros e t w1 o w2 w3 lo tlo w4 w5 hi thi w6 Hv Hl IH Hw Ho _ _ _ _ _ _ _ _ Hs. eapply X; [apply (IH Hs)|reflexivity|exact Hw|]. left. now left.
  - intros e t w o Hv Hl IH [Hw Hn] Ho Hs. rewrite <- (app_nil_r o). eapply X; [apply (IH Hs)|reflexivity|exact Hw|]. now right.
  - intros e t w1 o w2 p c ls ta Hv Hl IH Hw Ho _ _ _ Hs. eapply X; [apply (IH Hs)|reflexivity|exact Hw|]. left. right. now left.
  - intros l tl w1 o w2 r tr _ _ Hl IH Hw Ho _ _ _ _ Hs. eapply X; [apply (IH Hs)|reflexivity|exact Hw|]. left. right. right. now left.
  - intros l tl w1 o w2 r tr _ Hl IH Hw Ho _ _ _ _ _ Hs. eapply X; [apply (IH Hs)|reflexivity|exact Hw|]. left. right. right. now right.
Qed.
Lemma word_lex : forall w r, In w literal_words -> lexlit (w ++ r) = Some (word_literal w, r).
Proof. intros w r H. cbn in H. decompose [or] H; subst; try contradiction; reflexivity. Qed.
Lemma lit_same : forall l tl u l2 r, lit_text l tl -> lexlit (tl ++ u) = Some (l2, r) ->
  (forall ds, l2 <> LInt ds) -> l = l2 /\ u = r.
Proof.
  intros l tl u l2 r Ht He Hn.
  assert (HF : lfol l u \/ ~ lfol l u).
  { destruct l as [| [|c ds] | |]; cbn; auto. destruct (c =? 48)%N; auto. destruct u as [|k u]; cbn; auto. destruct (is_digit k); auto. now right. }
  destruct HF as [HF|HF].
  - rewrite (lexlit_complete _ _ _ Ht HF) in He. injection He as -> ->. auto.
  - exfalso. destruct l as [| ds | |]; cbn in HF; try tauto. destruct (lit_text_head _ _ Ht) as (c & v & -> & _).
    inversion Ht as [| | |k ds' Hk H0 Hd| |]; subst; cbn in HF; [tauto|]. cbn in He. rewrite H0, Hk in He.
    destruct (N.eqb_spec c 39) as [->|]; [discriminate|]. destruct (N.eqb_spec c 34) as [->|]; [discriminate|].
    injection He as <- _. eapply Hn. reflexivity.
Qed.
Lemma word_first : forall b w r, blank b -> In w literal_words -> forall e, reads (b ++ w ++ r) e ->
  leftmost e = EVal (VLit (word_literal w)) /\
  exists w2 u, r = u ++ w2 /\ blank w2 /\
    (u = [] \/ exists w' o z, u = w' ++ o ++ z /\ blank w' /\ (any_op o \/ (op_match o /\ w' <> []))).
Proof.
  intros b w r Hb Hw e He. apply reads_lead in He; [|exact Hb].
  assert (HE : exists t w2, w ++ r = t ++ w2 /\ blank w2 /\ lay e t).
  { cbn in Hw. decompose [or] Hw; subst; try contradiction; (apply reads_first; [|exact He]; reflexivity). }
  destruct HE as (t & w2 & H1 & H2 & Hl). pose proof (word_lex w r Hw) as HX. rewrite H1 in HX.
  destruct (slit e) eqn:Hs.
  - destruct (leftmost_lit e t Hl Hs) as (l & tl & u & HL & -> & Ht & Hu). rewrite <- app_assoc in HX.
    assert (HN : forall ds, word_literal w <> LInt ds) by (intro ds; unfold word_literal; destruct (existsb _ _); discriminate).
    destruct (lit_same _ _ _ _ _ Ht HX HN) as [-> <-]. split; [exact HL|]. exists w2, u. auto.
  - exfalso. rewrite (lead_false e t Hl Hs w2) in HX; [discriminate|]. destruct w2 as [|c w2]; [now intro|].
    rewrite <- (app_nil_r (c :: w2)). apply seam_blank; [exact H2|discriminate].
Qed.
Lemma word_prefix : forall b w c r, blank b -> In w literal_words -> idchar c = true -> forall e, reads (b ++ w ++ c :: r) e ->
  exists o z, c :: r = o ++ z /\ any_op o.
Proof.
  intros b w c r Hb Hw Hc e He. destruct (word_first b w (c :: r) Hb Hw e He) as (_ & w2 & u & H1 & H2 & Hu).
  assert (HB : forall y v, blank (y :: v) -> idchar y = true -> False).
  { intros y v Hy Hi. apply blank_first in Hy. apply blank_start_facts in Hy. destruct Hy as (_ & _ & Hy). congruence. }
  destruct Hu as [->|(w' & o & z & -> & Hw' & Ho)]; [cbn in H1; subst w2; destruct (HB _ _ H2 Hc)|].
  destruct w' as [|y v].
  - cbn [app] in H1. rewrite <- app_assoc in H1. exists o, (z ++ w2). split; [exact H1|]. now destruct Ho as [Ho|[_ Ho]].
  - cbn in H1. injection H1 as <- _. destruct (HB _ _ Hw' Hc).
Qed.

(** ** C14 *)
Section C14.
  Variable lo : N -> N.

  Lemma cmp_parse : forall l tl w1 o w2 r tr, level l <= 4 -> level r <= 3 ->
    lay l tl -> blank w1 -> op_cmp o -> blank w2 -> lay r tr -> seam l (w1 ++ o) ->
    valid_runes (tl ++ w1 ++ o ++ w2 ++ tr) -> json_free l = true -> json_free r = true -> fits l = true -> fits r = true ->
    parse lo (tl ++ w1 ++ o ++ w2 ++ tr) = Ok (Some (mk_compare (ntree lo l) (Some (mk_op (normalize_operation lo o))) (ntree lo r))).
  Proof.
    intros l tl w1 o w2 r tr H1 H2 H3 H4 H5 H6 H7 H8 HV J1 J2 F1 F2.
    change (Some (mk_compare _ _ _)) with (ntree lo (ECmp l o r)). apply parse_tree; auto; cbn; rewrite ?J1, ?F1; auto.
    apply lay_reads. now apply lay_cmp.
  Qed.

  (** [<>]: the shorter [<] is tried first and then nothing can follow it *)
  Lemma lg_rejected : forall b l tl w1 z, blank b -> level l <= 4 -> lay l tl -> blank w1 ->
    forall e, ~ reads (b ++ tl ++ w1 ++ #"<>" ++ z) e.
  Proof.
    intros b l tl w1 z Hb Hl HL Hw e He. apply reads_lead in He; [|exact Hb]. apply grammar_complete in He. rewrite E_grammar in He.
    rewrite (skip_stop (tl ++ _)) in He by (eapply lay_clean; exact HL).
    assert (Hst : opst #"<>") by (eexists _, _; split; reflexivity).
    pose proof (skip_op w1 #"<>" z Hw Hst) as HS.
    destruct (P_at 4 l tl (lay_complete l tl HL) Hl ltac:(lia) (w1 ++ #"<>" ++ z)) as (r1 & Hr1 & HE).
    { now apply pfol_op. } { destruct w1 as [|c w1]; [now intros _|]. apply seam_blank; [exact Hw|discriminate]. }
    { apply brok_op; [exact Hw|exact Hst|reflexivity]. }
    { unfold F3, noB, noM, noI. rewrite HS. repeat split; reflexivity. }
    rewrite E_expression, E_logicx in He. rewrite E_seq in He by reflexivity. rewrite E_notx, HE in He.
    assert (HC : E (PStar cmp_step) r1 = Some ([], r1)).
    { rewrite E_star by reflexivity. unfold cmp_step at 1. rewrite E_seq by reflexivity. rewrite E_compare. rewrite Hr1, HS.
      assert (X : rC1 (#"<>" ++ z) = Some (#">" ++ z)) by reflexivity. rewrite X.
      rewrite (skip_stop (#">" ++ z)) by now apply sc_head.
      rewrite seq_none; [reflexivity|reflexivity|]. rewrite E_inx, E_predx, E_betweenx. rewrite prim_none; [reflexivity| | |].
      - now apply parenP_head.
      - now apply value_none_head.
      - now apply ident_none. }
    rewrite HC in He. cbn [pre] in He. rewrite log_step_none in He.
    - rewrite Hr1, HS in He. discriminate.
    - unfold noL. rewrite Hr1, HS. split; reflexivity.
  Qed.

  Lemma ci_split : forall a b o, ci (a ++ b) o -> exists x y, o = x ++ y /\ ci a x /\ ci b y.
  Proof.
    intros a b o H. unfold ci in *. exists (firstn (length a) o), (skipn (length a) o). split; [now rewrite firstn_skipn|].
    rewrite <- firstn_map, <- skipn_map, H. rewrite firstn_app, skipn_app, firstn_all, skipn_all, Nat.sub_diag. cbn. now rewrite app_nil_r.
  Qed.
  Lemma ci_e : forall y, ci #"e" y -> y = #"e" \/ y = #"E".
  Proof.
    intros y H. unfold ci in H. destruct y as [|c [|? ?]]; try discriminate. cbn in H. injection H as H. unfold ascii_lower in H.
    destruct ((65 <=? c) && (c <=? 90))%N eqn:HB; [|left; cbn; congruence]. right. cbn. f_equal. apply andb_true_iff in HB as [H1 H2]. apply N.leb_le in H1, H2. lia.
  Qed.
  Lemma name_e : forall y, ci #"e" y -> lay (EName y) y.
  Proof.
    intros y H. apply ci_e in H. constructor.
    - split.
      + destruct H as [->| ->]; eexists _, []; repeat split; reflexivity.
      + intros (v & r & Hv & Hc). unfold ci in Hc. apply (f_equal (@length _)) in Hc. rewrite map_length in Hc. cbn in Hc.
        destruct H as [->| ->]; apply (f_equal (@length _)) in Hv; rewrite app_length in Hv; cbn in Hv; lia.
    - unfold starts_word, prefix. destruct H as [->| ->]; intros [(r & Hr)|[(r & Hr)|[(r & Hr)|[(r & Hr)|[(r & Hr)|(r & Hr)]]]]]; discriminate.
  Qed.
  Lemma gap_pfol : forall g r, gap1 g -> pfol (g ++ r).
  Proof.
    intros g r [Hg Hn]. destruct (blank_head g r Hg Hn) as (c & u & H1 & H2 & H3). split; [|exact H3]. rewrite H1. apply blank_start_facts in H2. tauto.
  Qed.
  Lemma val_F6 : forall g v tv z, blank g -> val_text v tv -> F6 (g ++ tv ++ z).
  Proof.
    intros g v tv z Hg Hv. pose proof (skip_blank_clean g (tv ++ z) Hg (val_start_clean _ _ _ Hv)) as HS.
    assert (HW : (exists w, In w [#"null"; #"NULL"] /\ tv = w) \/ (exists c u, tv = c :: u /\ op_start c = false)).
    { destruct Hv as [l t Hl|p c ls t Ha].
      - destruct Hl as [x Hx|x Hx| |c ds Hc H0 Hd|w Hw|w Hw].
        + right. eexists _, _. split; reflexivity.
        + right. eexists _, _. split; reflexivity.
        + right. eexists _, _. split; reflexivity.
        + right. eexists _, _. split; [reflexivity|]. unfold is_digit in Hc. apply andb_true_iff in Hc as [H1 H2]. apply N.leb_le in H1, H2.
          unfold op_start, ascii_lower. destruct (N.leb_spec 65 c); [lia|]. cbn [andb]. unfold mem. cbn.
          repeat match goal with |- context [(?k =? ?j)%N] => destruct (N.eqb_spec k j); [lia|] end. reflexivity.
        + right. cbn in Hw. decompose [or] Hw; subst; try contradiction; eexists _, _; split; reflexivity.
        + left. eauto.
      - right. destruct (arr_text_head _ _ _ _ Ha) as (u & ->). destruct p; eexists _, _; split; reflexivity. }
    destruct HW as [(w & Hw & ->)|(c & u & -> & Hc)].
    - unfold F6, F4, F3, noB, noM, noI, noC, noL. rewrite HS. cbn in Hw. decompose [or] Hw; subst; try contradiction; repeat split; reflexivity.
    - apply F6_head. rewrite HS. exact Hc.
  Qed.
  (** [gte] and [lte]: the shorter [gt], [lt] is tried first *)
  Lemma xte_rejected : forall k b l tl w1 o g v tv z, k = #"gt" \/ k = #"lt" -> ci (k ++ #"e") o ->
    blank b -> level l <= 4 -> lay l tl -> blank w1 -> seam l (w1 ++ o) -> gap1 g -> val_text v tv ->
    forall e, ~ reads (b ++ tl ++ w1 ++ o ++ g ++ tv ++ z) e.
  Proof.
    intros k b l tl w1 o g v tv z Hk Ho Hb Hl HL Hw Hm Hg Hv e He. apply reads_lead in He; [|exact Hb].
    apply grammar_complete in He. rewrite E_grammar in He. rewrite (skip_stop (tl ++ _)) in He by (eapply lay_clean; exact HL).
    destruct (ci_split _ _ _ Ho) as (x & y & -> & Hx & Hy).
    assert (Hop : op_cmp x) by (unfold op_cmp; destruct Hk as [->| ->]; auto).
    assert (HC : lay (ECmp l x (EName y)) (tl ++ w1 ++ x ++ [] ++ y)).
    { apply lay_cmp; [exact Hl|cbn; lia|exact HL|exact Hw|exact Hop|apply blank_nil|now apply name_e|]. destruct (opst_cmp x Hop) as (c & u & -> & _).
      intro Hi. specialize (Hm Hi). destruct w1; exact Hm. }
    destruct (expr_at _ _ (g ++ tv ++ z) (lay_complete _ _ HC)) as (r' & Hr & HE).
    { now apply gap_pfol. } { destruct Hg. now apply seam_blank. } { now apply brok_none. } { destruct Hg. eapply val_F6; eassumption. }
    cbn [app] in HE. rewrite <- !app_assoc in HE. rewrite <- !app_assoc in He. rewrite HE in He. rewrite Hr in He. destruct Hg as [Hg _].
    rewrite (skip_blank_clean g (tv ++ z) Hg (val_start_clean _ _ _ Hv)) in He. destruct (val_text_head _ _ Hv) as (c & u & -> & _). discriminate.
  Qed.
End C14.

(** ** C17 *)
Section C17.
  Variable lo : N -> N.
  (** the parser stack when Execute is done *)
  Definition final_stack (q : list N) : option (list (option node)) :=
    match parse_machine q with
    | MR true s => match execute lo (init_buffer q) (trim (mtree s) (mtidx s)) [] tree0 with Some t => Some (tStack t) | None => None end
    | _ => None
    end.
  Lemma final_stack_reads : forall q e, valid_runes q -> reads q e -> final_stack q = Some (stk lo e).
  Proof.
    intros q e Hq He. pose proof (parse_machine_spec q Hq) as HM. rewrite (grammar_complete q e He) in HM.
    destruct HM as (s & H1 & H2 & H3). unfold final_stack. rewrite H1. rewrite init_buffer_eq by exact Hq.
    destruct He as (w1 & t & w2 & _ & _ & _ & Hl).
    rewrite execute_run by (unfold trim; apply Forall_firstn; apply H2). rewrite H3, run_erase.
    destruct (proj1 (run_mut lo) e t Hl [] [] [] []) as (t' & H). unfold tree0. rewrite H. reflexivity.
  Qed.
  (** names of -> paths that are left over, outside function arguments *)
  Fixpoint left_over (e : expr) : nat :=
    match e with
    | EJson xs => length xs - 1
    | EVal _ | EName _ | ERef _ | ECall _ _ => 0
    | EParen e | EPred e _ | ENot e | EBetween e _ _ _ _ | EIn e _ _ _ => left_over e
    | ECmp l _ r | ELogic l _ r => left_over l + left_over r
    end.
  Lemma red1_length : forall f l, l <> [] -> length (red1 f l) = length l.
  Proof. intros f l H. unfold red1. rewrite app_length, removelast_length. cbn. destruct l; [congruence|cbn; lia]. Qed.
  Lemma red3_length : forall f l, 3 <= length l -> length (red3 f l) = length l - 2.
  Proof. intros f l H. unfold red3. rewrite app_length, !removelast_length. cbn. lia. Qed.
  Lemma stk_length : forall e t, lay e t -> length (stk lo e) = 1 + left_over e.
  Proof.
    refine (lay_mind (fun e _ _ => length (stk lo e) = 1 + left_over e) (fun _ _ _ => True) _ _ _ _ _ _ _ _ _ _ _ _ _ _ _ _ _ _);
      intros; cbn [stk left_over]; auto.
    - rewrite map_length. reflexivity.
    - rewrite red1_length; [assumption|]. intro K. rewrite K in H. discriminate.
    - rewrite red1_length; [assumption|]. intro K. rewrite K in H. discriminate.
    - rewrite red1_length; [assumption|]. intro K. rewrite K in H. discriminate.
    - rewrite red1_length; [assumption|]. intro K. rewrite K in H. discriminate.
    - rewrite red1_length; [assumption|]. intro K. rewrite K in H. discriminate.
    - rewrite red3_length; rewrite app_length; cbn [length]; lia.
    - rewrite red1_length; [assumption|]. intro K. rewrite K in H. discriminate.
    - rewrite red3_length; rewrite app_length; cbn [length]; lia.
  Qed.
  Lemma json_parse : forall x y xs, Forall ident (x :: y :: xs) -> ~ starts_word x -> valid_runes (join_with #"->" (x :: y :: xs)) ->
    parse lo (join_with #"->" (x :: y :: xs)) = Ok (Some (mk_ident (last (y :: xs) []))).
  Proof.
    intros x y xs H1 H2 HV. rewrite (parse_fits lo _ (EJson (x :: y :: xs)) HV); [|apply lay_reads; now apply lay_json|reflexivity].
    f_equal. cbn [stk]. clear. cbn [map]. revert x y. induction xs as [|z xs IH]; intros x y; [reflexivity|]. cbn [map] in *. cbn [last] in *. 
    exact (IH y z).
  Qed.
End C17.

(** ** C18 *)
(** the sub-nodes the users of a node rely on, by type (node.go:91-221, gormq, entmq) *)
Definition required (n : node) : list (option node) :=
  match nType n with
  | NValue => match nVType n with VArray => nArray n | _ => [] end
  | NFunction => nParams n
  | NPredicates => [nLeft n; nOp n]
  | NCompare | NLogic => [nLeft n; nOp n; nRight n]
  | NParentheses | NNot => [nExpression n]
  | NBetween => nLeft n :: nOp n :: nParams n
  | NOperation | NIdentifier | NReference | NOther => []
  end.
(** the node has the fields of its type and every other field is zero *)
Definition shaped (n : node) : Prop :=
  match nType n with
  | NValue =>
      match nVType n with
      | VInt => n = mk_int (nInt n)
      | VBool => n = mk_bool (nBool n)
      | VString => n = mk_string (nStr n)
      | VNull => n = mk_null
      | VArray => n = mk_array (nArray n) /\ Forall (fun p => exists k, p = Some k /\ nType k = NValue /\ nVType k <> VArray) (nArray n)
      | VFloat | VNone => False
      end
  | NOperation => n = mk_op (nOperation n)
  | NIdentifier => n = mk_ident (nName n)
  | NReference => n = mk_reference (nNames n)
  | NPredicates => n = mk_predicate (nLeft n) (nOp n)
  | NCompare => n = mk_compare (nLeft n) (nOp n) (nRight n)
  | NLogic => n = mk_logic (nLeft n) (nOp n) (nRight n)
  | NParentheses => n = mk_paren (nExpression n)
  | NNot => n = mk_not (nExpression n)
  | NBetween => exists a b, n = mk_between (nLeft n) (nOp n) (Some a) (Some b) /\ nType a = NValue /\ nType b = NValue
  | NFunction => n = mk_function (nName n) (nParams n)
  | NOther => False
  end.
Inductive safe : node -> Prop :=
| safe_intro : forall n, shaped n -> (forall p, In p (required n) -> p <> None) ->
    (forall m, In (Some m) (required n) -> safe m) -> safe n.
Definition okp (p : option node) : Prop := exists m, p = Some m /\ safe m.

Lemma safe_ok : forall n, shaped n -> Forall okp (required n) -> safe n.
Proof.
  intros n H F. rewrite Forall_forall in F. constructor; [exact H| |].
  - intros p Hp. destruct (F p Hp) as (m & -> & _). discriminate.
  - intros m Hm. destruct (F _ Hm) as (m' & [= ->] & K). exact K.
Qed.
Lemma okp_lit : forall l, okp (Some (lnode l)).
Proof.
  intros l. eexists. split; [reflexivity|]. apply safe_ok; [|destruct l; constructor]. destruct l; reflexivity.
Qed.
Lemma okp_val : forall v, okp (Some (vnode v)).
Proof.
  intros [l|p ls]; [apply okp_lit|]. eexists. split; [reflexivity|].
  apply safe_ok; [split; [reflexivity|apply Forall_forall; intros x Hx; apply in_map_iff in Hx as (l & <- & _); exists (lnode l); destruct l; repeat split; discriminate]|]. cbn.
  apply Forall_forall. intros x Hx. apply in_map_iff in Hx as (l & <- & _). apply okp_lit.
Qed.
Lemma okp_op : forall lo o, okp (opn lo o).
Proof. intros. eexists. split; [reflexivity|]. apply safe_ok; [reflexivity|constructor]. Qed.
Lemma okp_ident : forall x, okp (Some (mk_ident x)).
Proof. intros. eexists. split; [reflexivity|]. apply safe_ok; [reflexivity|constructor]. Qed.
Lemma between_shaped : forall p o v w, shaped (mk_between p o (Some (vnode v)) (Some (vnode w))).
Proof. intros. exists (vnode v), (vnode w). repeat split; [destruct v as [l|]|destruct w as [l|]]; try destruct l; reflexivity. Qed.
Lemma Forall_removelast : forall A (P : A -> Prop) l, Forall P l -> Forall P (removelast l).
Proof. intros A P l H. induction H as [|x l Hx Hl IH]; cbn; [constructor|]. destruct l; constructor; auto. Qed.
Lemma Forall_last : forall A (P : A -> Prop) l d, Forall P l -> l <> [] -> P (last l d).
Proof.
  intros A P l d H. induction H as [|x l Hx Hl IH]; [congruence|]. intros _. destruct l as [|y l]; [exact Hx|]. apply IH. discriminate.
Qed.
Lemma okp_red1 : forall f l, Forall okp l -> l <> [] -> (forall p, okp p -> safe (f p)) -> Forall okp (red1 f l).
Proof.
  intros f l H Hn Hf. unfold red1. apply Forall_app. split; [now apply Forall_removelast|]. constructor; [|constructor].
  eexists. split; [reflexivity|]. apply Hf. now apply Forall_last.
Qed.
Lemma okp_red3 : forall f l, Forall okp l -> 3 <= length l -> (forall a b c, okp a -> okp b -> okp c -> safe (f a b c)) -> Forall okp (red3 f l).
Proof.
  intros f l H Hn Hf. unfold red3. apply Forall_app. split; [now repeat apply Forall_removelast|]. constructor; [|constructor].
  assert (N1 : l <> []) by (intros ->; cbn in Hn; lia).
  assert (N2 : removelast l <> []).
  { intro Hx. apply (f_equal (@length _)) in Hx. rewrite removelast_length in Hx. cbn in Hx. lia. }
  assert (N3 : removelast (removelast l) <> []).
  { intro Hx. apply (f_equal (@length _)) in Hx. rewrite !removelast_length in Hx. cbn in Hx. lia. }
  eexists. split; [reflexivity|]. apply Hf; apply Forall_last; auto; now repeat apply Forall_removelast.
Qed.
Lemma safe3 : forall f, (f = mk_compare \/ f = mk_logic) -> forall a b c, okp a -> okp b -> okp c -> safe (f a b c).
Proof. intros f [->| ->] a b c Ha Hb Hc; (apply safe_ok; [reflexivity|]); cbn; repeat constructor; auto. Qed.
Lemma stk_safe_mut : forall lo, (forall e t, lay e t -> Forall okp (stk lo e)) /\ (forall es t, lays es t -> Forall okp (concat (map (stk lo) es))).
Proof.
  intro lo. apply (lay_lays_ind (fun e _ _ => Forall okp (stk lo e)) (fun es _ _ => Forall okp (concat (map (stk lo) es)))); intros; cbn [stk].
  - constructor; [apply (okp_val (VLit l))|constructor].
  - constructor; [apply okp_val|constructor].
  - constructor; [apply okp_ident|constructor].
  - constructor; [|constructor]. eexists. split; [reflexivity|]. apply safe_ok; [reflexivity|constructor].
  - apply Forall_forall. intros p Hp. apply in_map_iff in Hp as (z & <- & _). apply okp_ident.
  - constructor; [|constructor]. eexists. split; [reflexivity|]. apply safe_ok; [reflexivity|constructor].
  - constructor; [|constructor]. eexists. split; [reflexivity|]. apply safe_ok; [reflexivity|assumption].
  - constructor; [|constructor]. eexists. split; [reflexivity|]. apply safe_ok; [reflexivity|assumption].
  - apply okp_red1; [assumption|eapply stk_ne; eassumption|]. intros p Hp. apply safe_ok; [reflexivity|]. now constructor.
  - apply okp_red1; [assumption|eapply stk_ne; eassumption|]. intros p Hp. apply safe_ok; [apply between_shaped|]. cbn. repeat constructor; auto using okp_op, okp_val.
  - apply okp_red1; [assumption|eapply stk_ne; eassumption|]. intros p Hp. apply safe_ok; [apply between_shaped|]. cbn. repeat constructor; auto using okp_op, okp_val.
  - apply okp_red1; [assumption|eapply stk_ne; eassumption|]. intros p Hp. apply safe_ok; [reflexivity|]. cbn. repeat constructor; auto using okp_op.
  - apply okp_red1; [assumption|eapply stk_ne; eassumption|]. intros q Hq. apply safe_ok; [reflexivity|]. cbn. repeat constructor; auto using okp_op. apply (okp_val (VArr p ls)).
  - apply okp_red3; [|eapply stk3; eassumption|apply safe3; auto]. apply Forall_app. split; [assumption|]. constructor; [apply okp_op|assumption].
  - apply okp_red1; [assumption|eapply stk_ne; eassumption|]. intros p Hp. apply safe_ok; [reflexivity|]. now constructor.
  - apply okp_red3; [|eapply stk3; eassumption|apply safe3; auto]. apply Forall_app. split; [assumption|]. constructor; [apply okp_op|assumption].
  - cbn. now rewrite app_nil_r.
  - cbn [map concat]. apply Forall_app. now split.
Qed.
Lemma parse_safe : forall lo q n, valid_runes q -> parse lo q = Ok (Some n) -> safe n.
Proof.
  intros lo q n Hq H. destruct (parse_ok_inv lo q _ Hq H) as (e & (w1 & t & w2 & _ & _ & _ & Hl) & _ & Hn).
  pose proof (proj1 (stk_safe_mut lo) e t Hl) as HF. apply (Forall_last _ _ _ None) in HF; [|eapply stk_ne; exact Hl].
  rewrite <- Hn in HF. destruct HF as (m & [= ->] & Hm). exact Hm.
Qed.
Lemma safe_value : forall n, safe n -> exists v, value n = Some v.
Proof.
  induction 1 as [n Hs Hr Hm IH]. destruct n as [ty vt i b st fl arr op na ns ex le o ri ps].
  destruct vt; cbn; eauto. unfold shaped in Hs. cbn in Hs.
  assert (HT : ty = NValue) by (destruct ty; try reflexivity; try discriminate; try contradiction; destruct Hs as (? & ? & Hs & _); discriminate).
  subst ty. unfold required in *. cbn in *.
  match goal with |- context [match ?X with Some _ => _ | None => _ end] => assert (HX : exists xs, X = Some xs) end.
  { clear Hs Hm. induction arr as [|[m|] arr IHa]; [eauto| |].
    - destruct (IH m (or_introl eq_refl)) as (v & ->). destruct IHa as (xs & ->); [intros; apply IH; now right|intros; apply Hr; now right|eauto].
    - destruct (Hr None (or_introl eq_refl)). reflexivity. }
  destruct HX as (xs & ->). eauto.
Qed.

(** ** C19 *)
(** 1 + the number of line ends among the first [k+1] runes; runes since the last of them *)
Fixpoint count_lf (s : list N) : nat := match s with [] => 0 | c :: t => (if (c =? 10)%N then 1 else 0) + count_lf t end.
Fixpoint lf_free_prefix (s : list N) : nat := match s with [] => 0 | c :: t => if (c =? 10)%N then 0 else S (lf_free_prefix t) end.
Definition line_of (buf : list N) (k : nat) : nat := 1 + count_lf (firstn (S k) buf).
Definition column_of (buf : list N) (k : nat) : nat := lf_free_prefix (rev (firstn (S k) buf)).

(** Every token the machine adds while running, in order (compare [mrun]). *)
Fixpoint tok_trace (G : rule -> pexp) (buf : list N) (fuel : nat) (e : pexp) (s : mstate) : list token :=
  match fuel with
  | O => []
  | S f =>
    match e with
    | PSeq a b => tok_trace G buf f a s ++ match mrun G buf f a s with MR true s1 => tok_trace G buf f b s1 | _ => [] end
    | PAlt a b => tok_trace G buf f a s ++ match mrun G buf f a s with MR false s1 => tok_trace G buf f b (mrestore s s1) | _ => [] end
    | PStar a => tok_trace G buf f a s ++ match mrun G buf f a s with MR true s1 => tok_trace G buf f (PStar a) s1 | _ => [] end
    | POpt a | PNot a => tok_trace G buf f a s
    | PCap a => tok_trace G buf f a s ++ match mrun G buf f a s with MR true s1 => [Tok TPegText (mpos s) (mpos s1)] | _ => [] end
    | PAct n => [Tok (TAct n) (mpos s) (mpos s)]
    | PRule r => tok_trace G buf f (G r) s ++ match mrun G buf f (G r) s with MR true s1 => [Tok (TRule r) (mpos s) (mpos s1)] | _ => [] end
    | PSw cs a d => match nth_error buf (mpos s) with Some x => if mem x cs then tok_trace G buf f a s else tok_trace G buf f d s | None => [] end
    | PChar _ | PRange _ _ | PDot => []
    end
  end.
Definition farther (m t : token) : token := if negb (Nat.eqb (tbegin t) (tend t)) && Nat.ltb (tend m) (tend t) then t else m.
Lemma trace_max : forall G buf f e s b s', mrun G buf f e s = MR b s' -> mmax s' = fold_left farther (tok_trace G buf f e s) (mmax s).
Proof.
  intros G buf. induction f as [|f IH]; intros e s b s' H; [discriminate|]. rewrite mrun_S in H.
  destruct e; cbn [mstep tok_trace] in *; rewrite ?fold_left_app.
  - destruct (nth_error buf (mpos s)); [|discriminate]. destruct (_ =? _)%N; injection H as <- <-; reflexivity.
  - destruct (nth_error buf (mpos s)); [|discriminate]. destruct (_ || _); injection H as <- <-; reflexivity.
  - destruct (nth_error buf (mpos s)); [|discriminate]. destruct (_ =? _)%N; injection H as <- <-; reflexivity.
  - destruct (mrun G buf f e1 s) as [| |[|] s1] eqn:E1; try discriminate; pose proof (IH _ _ _ _ E1) as <-; [now apply IH in H|].
    injection H as <- <-. reflexivity.
  - destruct (mrun G buf f e1 s) as [| |[|] s1] eqn:E1; try discriminate; pose proof (IH _ _ _ _ E1) as <-; [|now apply IH in H].
    injection H as <- <-. reflexivity.
  - destruct (mrun G buf f e s) as [| |[|] s1] eqn:E1; try discriminate; pose proof (IH _ _ _ _ E1) as <-; [now apply IH in H|].
    injection H as <- <-. reflexivity.
  - destruct (mrun G buf f e s) as [| |[|] s1] eqn:E1; try discriminate; pose proof (IH _ _ _ _ E1) as <-; injection H as <- <-; reflexivity.
  - destruct (mrun G buf f e s) as [| |[|] s1] eqn:E1; try discriminate; pose proof (IH _ _ _ _ E1) as <-; injection H as <- <-; reflexivity.
  - destruct (mrun G buf f e s) as [| |[|] s1] eqn:E1; try discriminate; pose proof (IH _ _ _ _ E1) as <-; injection H as <- <-; reflexivity.
  - injection H as <- <-. reflexivity.
  - destruct (mrun G buf f (G r) s) as [| |[|] s1] eqn:E1; try discriminate; pose proof (IH _ _ _ _ E1) as <-; injection H as <- <-; reflexivity.
  - destruct (nth_error buf (mpos s)); [|discriminate]. destruct (mem n cs); eauto.
Qed.
Lemma farther_spec : forall l m, let r := fold_left farther l m in
  (r = m \/ In r l) /\ tend m <= tend r /\ Forall (fun t => tbegin t <> tend t -> tend t <= tend r) l.
Proof.
  induction l as [|t l IH]; intros m; cbn [fold_left]; [repeat split; auto|]. destruct (IH (farther m t)) as (H1 & H2 & H3). cbv zeta in *.
  set (r := fold_left farther l (farther m t)) in *. unfold farther in H1, H2.
  destruct (Nat.eqb_spec (tbegin t) (tend t)) as [He|He]; cbn [negb andb] in *.
  - split; [destruct H1; [now left|right; now right]|]. split; [exact H2|]. constructor; [congruence|exact H3].
  - destruct (Nat.ltb_spec (tend m) (tend t)).
    + split; [destruct H1; [right; now left|right; now right]|]. split; [lia|]. constructor; [auto|exact H3].
    + split; [destruct H1; [now left|right; now right]|]. split; [exact H2|]. constructor; [lia|exact H3].
Qed.

Definition adv1 (p : nat * nat) (c : N) : nat * nat := if (c =? 10)%N then (S (fst p), 0) else (fst p, S (snd p)).
Definition adv (p : nat * nat) (s : list N) : nat * nat := fold_left adv1 s p.
Lemma count_lf_app : forall a b, count_lf (a ++ b) = count_lf a + count_lf b.
Proof. induction a as [|c a IH]; intro b; [reflexivity|]. cbn. rewrite IH. lia. Qed.
Lemma adv_spec : forall s, adv (1, 0) s = (1 + count_lf s, lf_free_prefix (rev s)).
Proof.
  induction s as [|c s IH] using rev_ind; [reflexivity|]. unfold adv in *. rewrite fold_left_app, IH, count_lf_app, rev_app_distr. cbn.
  unfold adv1. cbn [fst snd]. destruct (c =? 10)%N; f_equal; lia.
Qed.
Lemma loop_one : forall buf i line sym p, i <= p -> p < i + length buf ->
  translate_loop buf i line sym [p] = [(p, adv (line, sym) (firstn (S (p - i)) buf))].
Proof.
  induction buf as [|c buf IH]; intros i line sym p H1 H2; cbn [length] in H2; [lia|]. cbn [translate_loop].
  assert (HA : (if (c =? 10)%N then (S line, 0) else (line, S sym)) = adv1 (line, sym) c) by reflexivity. rewrite HA.
  destruct (adv1 (line, sym) c) as [l' s'] eqn:Hadv. destruct (Nat.eqb_spec i p) as [->|Hn].
  - rewrite Nat.sub_diag. cbn [firstn]. unfold adv. cbn. now rewrite Hadv.
  - rewrite IH by lia. replace (p - i) with (S (p - S i)) by lia. cbn [firstn]. unfold adv. cbn [fold_left]. now rewrite Hadv.
Qed.
Lemma loop_two : forall buf i line sym p p', i <= p -> p <= p' -> p' < i + length buf ->
  translate_loop buf i line sym [p; p'] =
    (p, adv (line, sym) (firstn (S (p - i)) buf)) ::
    if Nat.eqb p p' then [] else [(p', adv (line, sym) (firstn (S (p' - i)) buf))].
Proof.
  induction buf as [|c buf IH]; intros i line sym p p' H1 H2 H3; cbn [length] in H3; [lia|]. cbn [translate_loop].
  assert (HA : (if (c =? 10)%N then (S line, 0) else (line, S sym)) = adv1 (line, sym) c) by reflexivity. rewrite HA.
  destruct (adv1 (line, sym) c) as [l' s'] eqn:Hadv. destruct (Nat.eqb_spec i p) as [->|Hn].
  - rewrite Nat.sub_diag. cbn [firstn]. destruct (Nat.eqb_spec p p') as [->|Hp].
    + unfold adv. cbn. now rewrite Hadv.
    + rewrite loop_one by lia. f_equal; [unfold adv; cbn; now rewrite Hadv|].
      replace (p' - p) with (S (p' - S p)) by lia. cbn [firstn]. unfold adv. cbn [fold_left]. now rewrite Hadv.
  - rewrite IH by lia. replace (p - i) with (S (p - S i)) by lia. replace (p' - i) with (S (p' - S i)) by lia.
    cbn [firstn]. unfold adv. cbn [fold_left]. now rewrite Hadv.
Qed.
Lemma report_ok : forall q b e, valid_runes q -> b <= e -> e <= length q ->
  error_report q b e = Some ((line_of (q ++ [endSymbol]) b, column_of (q ++ [endSymbol]) b),
                             (line_of (q ++ [endSymbol]) e, column_of (q ++ [endSymbol]) e), slice q b e).
Proof.
  intros q b e Hq Hb He. unfold error_report. rewrite init_buffer_eq by exact Hq. rewrite slice_rng_app by assumption.
  unfold translate_positions, sort2. destruct (Nat.leb_spec b e); [|lia].
  assert (HL : e < 0 + length (q ++ [endSymbol])) by (rewrite app_length; cbn; lia).
  rewrite loop_two by (auto; lia). rewrite !Nat.sub_0_r, !adv_spec. unfold line_of, column_of. cbn [lookup_pos]. rewrite Nat.eqb_refl.
  destruct (Nat.eqb_spec b e) as [->|Hn].
  - now rewrite Nat.eqb_refl.
  - destruct (Nat.eqb_spec e b); [congruence|]. cbn [lookup_pos]. now rewrite Nat.eqb_refl.
Qed.
