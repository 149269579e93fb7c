(** What follows from Template.v for the contents and for the back ends (C84). *)
From Verif Require Import Base Peg PegSpec PegSpecProofs Grammar Node Vocab Tree Parse GrammarProofs Syntax Blank Lex Ops Complete Sound ParseProofs NormProofs TreeFacts
  ParserFacts ParserFacts2 ParserMain ApiProofs Gorm GormSpec GormFacts GormFacts2 GormSample EntSQL EntSQLSpec EntSQLProofs EntSQLFacts EntSQLSample LitSpec LitProofs EntQL TemplateSpec Template.
Strategy expand [parse_machine rule_trace].
Strategy 1000 [parse_fuel mrun tok_trace].

(** ** The contents arrive *)
Definition is_str (n : nat) : bool := match n with 28 | 29 => true | _ => false end.
Fixpoint est (l : list event) : list (list N) :=
  match l with
  | [] => []
  | EAct _ :: l' => est l'
  | EText s :: l' => match l' with EAct n :: l'' => (if is_str n then [s] else []) ++ est l'' | _ => est l' end
  end.
Fixpoint tst (l : list tev) : list (list N + nat) :=
  match l with
  | [] => []
  | TE (EAct _) :: l' => tst l'
  | TE (EText s) :: l' => match l' with TE (EAct n) :: l'' => (if is_str n then [inl s] else []) ++ tst l'' | _ => tst l' end
  | TH i _ :: l' => inr i :: tst l'
  end.
Lemma est_app : forall a b, paired a = true -> est (a ++ b) = est a ++ est b.
Proof.
  intro a. remember (length a) as k eqn:Hk. assert (Hle : length a <= k) by lia. clear Hk. revert a Hle. induction k as [|k IH]; intros a Hle b H.
  - destruct a; [reflexivity|cbn in Hle; lia].
  - destruct a as [|[s|n] a]; [reflexivity| |]; cbn [paired app est] in *.
    + destruct a as [|[s2|n] a]; try discriminate H. cbn [app]. rewrite IH by (auto; cbn in Hle; lia). now rewrite app_assoc.
    + apply andb_true_iff in H as [H1 H2]. apply IH; [cbn in Hle; lia|exact H2].
Qed.
Lemma est_inst : forall vs L, (forall i n, In (TH i n) L -> n = 28 \/ n = 29) -> paired (inst vs L) = true -> est (inst vs L) = map (instance vs) (tst L).
Proof.
  intros vs L. remember (length L) as k eqn:Hk. assert (Hle : length L <= k) by lia. clear Hk. revert L Hle. induction k as [|k IH]; intros L Hle HN HP.
  - destruct L; [reflexivity|cbn in Hle; lia].
  - destruct L as [|[[s|n]|i n] L]; [reflexivity| | |].
    + destruct L as [|[[s2|n]|i n] L]; cbn [inst flat_map inst1 app paired] in HP; try discriminate HP.
      cbn [inst flat_map inst1 app est tst]. rewrite map_app. change (flat_map (inst1 vs) L) with (inst vs L). rewrite IH; auto; [|cbn in Hle; lia|].
      * destruct (is_str n); reflexivity.
      * intros i0 n0 K. apply (HN i0). now right; right.
    + cbn [inst flat_map inst1 app paired] in HP. apply andb_true_iff in HP as [_ HP]. cbn [inst flat_map inst1 app est tst]. apply IH; auto; [cbn in Hle; lia|].
      intros i0 n0 K. apply (HN i0). now right.
    + cbn [inst flat_map inst1 app paired] in HP. cbn [inst flat_map inst1 app est tst map instance]. change (flat_map (inst1 vs) L) with (inst vs L).
      rewrite IH; auto; [|cbn in Hle; lia|].
      * destruct (HN i n (or_introl eq_refl)) as [->| ->]; reflexivity.
      * intros i0 n0 K. apply (HN i0). now right.
Qed.
Lemma tst_holes : forall vs L, paired (inst vs L) = true -> flat_map (fun x : list N + nat => match x with inr i => [i] | inl _ => [] end) (tst L) = tholes L.
Proof.
  intros vs L. remember (length L) as k eqn:Hk. assert (Hle : length L <= k) by lia. clear Hk. revert L Hle. induction k as [|k IH]; intros L Hle HP.
  - destruct L; [reflexivity|cbn in Hle; lia].
  - destruct L as [|[[s|n]|i n] L]; [reflexivity| | |].
    + destruct L as [|[[s2|n]|i n] L]; cbn [inst flat_map inst1 app paired] in HP; try discriminate HP.
      cbn [tst tholes flat_map app]. rewrite flat_map_app. rewrite IH by (auto; cbn in Hle; lia). destruct (is_str n); reflexivity.
    + cbn [inst flat_map inst1 app paired] in HP. apply andb_true_iff in HP as [_ HP]. cbn [tst tholes flat_map app]. apply IH; auto. cbn in Hle; lia.
    + cbn [inst flat_map inst1 app paired] in HP. cbn [tst tholes flat_map app]. f_equal. apply IH; auto. cbn in Hle; lia.
Qed.
Definition ostrings (x : option node) : list (list N) := match x with Some m => strings m | None => [] end.
Lemma strings_lit : forall l, strings (lit_node l) = est (erase (lit_ev l)).
Proof. intros [[|] s|ds|w|w]; reflexivity. Qed.
Lemma strings_val : forall v, strings (val_node v) = est (erase (val_ev v)).
Proof.
  intros [l|p ls]; [apply strings_lit|]. cbn [val_node val_ev]. unfold mk_array, arr_ev, lits_ev. rewrite !erase_app.
  rewrite est_app by (destruct p; reflexivity). rewrite est_app by (apply paired_concat; intros; apply paired_lit).
  replace (est (erase [EAct (if p then 24 else 22)])) with (@nil (list N)) by (destruct p; reflexivity).
  replace (est (erase [EAct (if p then 23 else 21)])) with (@nil (list N)) by (destruct p; reflexivity).
  cbn [strings nType nVType nArray nExpression nLeft nRight nParams map concat app]. rewrite !app_nil_r. cbn [app].
  induction ls as [|l ls IH]; [reflexivity|]. cbn [map concat]. rewrite erase_app, est_app by apply paired_lit. now rewrite IH, strings_lit.
Qed.
Lemma est_ids : forall xs, est (erase (ids_ev xs)) = [].
Proof. induction xs as [|x xs IH]; [reflexivity|]. exact IH. Qed.
Lemma strings_tree : forall lo e, json_free e = true -> ostrings (tree_of lo e) = est (erase (evs e)).
Proof.
  intros lo e. induction e using expr_ind2; cbn [json_free evs tree_of ostrings]; intro Hj; rewrite ?erase_app.
  - apply strings_val.
  - reflexivity.
  - rewrite est_app by reflexivity. rewrite est_app by apply paired_ids. now rewrite est_ids.
  - discriminate.
  - rewrite est_app by reflexivity. rewrite est_app by reflexivity.
    assert (K : concat (map (fun x => match x with Some m => strings m | None => [] end) (map (tree_of lo) args)) = est (erase (concat (map evs args))) /\
      paired (erase (concat (map evs args))) = true).
    { split; [|apply paired_concat; intros; apply paired_evs]. clear f. induction H as [|x l Hx _ IHl]; [reflexivity|]. cbn [forallb] in Hj. apply andb_true_iff in Hj as [J1 J2].
      cbn [map concat]. rewrite erase_app, est_app by apply paired_evs. rewrite <- (Hx J1). now rewrite IHl. }
    destruct K as [K1 K2]. rewrite est_app by exact K2. rewrite <- K1. cbn. now rewrite app_nil_r.
  - rewrite est_app by apply paired_evs. rewrite <- IHe by exact Hj. cbn. reflexivity.
  - rewrite est_app by apply paired_evs. rewrite est_app by reflexivity. rewrite est_app by apply paired_val. rewrite est_app by apply paired_val.
    rewrite <- !strings_val, <- IHe by exact Hj. replace (est (erase (br_ev b) ++ erase [EAct 7])) with (@nil (list N)) by (destruct b; reflexivity).
    cbn. reflexivity.
  - rewrite est_app by apply paired_evs. rewrite <- IHe by exact Hj. cbn. reflexivity.
  - rewrite est_app by apply paired_evs. rewrite est_app by reflexivity. rewrite est_app by apply paired_arr. change (arr_ev p ls) with (val_ev (VArr p ls)).
    rewrite <- strings_val, <- IHe by exact Hj. cbn [val_node]. cbn. now rewrite !app_nil_r.
  - apply andb_true_iff in Hj as [J1 J2]. rewrite est_app by apply paired_evs. cbn [erase filter ghost negb]. rewrite (proj1 (cmp_small o)). cbn [negb].
    rewrite est_app by reflexivity. rewrite est_app by apply paired_evs. rewrite <- IHe1, <- IHe2 by assumption.
    assert (X : is_str (cmp_act o) = false). { unfold cmp_act. destruct o; repeat match goal with |- context [if ?b then _ else _] => destruct b end; reflexivity. }
    cbn. rewrite X. cbn. now rewrite !app_nil_r.
  - rewrite est_app by apply paired_evs. rewrite <- IHe by exact Hj. cbn. reflexivity.
  - apply andb_true_iff in Hj as [J1 J2]. rewrite est_app by apply paired_evs. cbn [erase filter ghost negb]. rewrite (proj2 (cmp_small o)). cbn [negb].
    rewrite est_app by reflexivity. rewrite est_app by apply paired_evs. rewrite <- IHe1, <- IHe2 by assumption.
    assert (X : is_str (logic_act o) = false). { unfold logic_act. destruct o; repeat match goal with |- context [if ?b then _ else _] => destruct b end; reflexivity. }
    cbn. rewrite X. cbn. now rewrite !app_nil_r.
Qed.
Lemma template_strings : forall h b, (exists vs, fits_in h b vs) -> exists S, with_holes S (length h) /\
  forall lo vs e, fits_in h b vs -> reads (fill h b vs) e -> json_free e = true -> fits e = true ->
    exists n, parse lo (fill h b vs) = Ok (Some n) /\ strings n = map (instance vs) S.
Proof.
  intros h b (v0 & H0). destruct (template_run h b v0 H0) as [H|(L & HT & HN & H)].
  - exists (map inr (seq 0 (length h))). split.
    + unfold with_holes. induction (seq 0 (length h)) as [|x l IH]; [reflexivity|]. cbn. now rewrite IH.
    + intros lo vs e Hv He. exfalso. pose proof (matches_det _ _ _ _ (H vs Hv) _ (grammar_reads _ _ He)). discriminate.
  - exists (tst L). assert (P : forall vs, fits_in h b vs -> paired (inst vs L) = true).
    { intros vs Hv. destruct (accepted_evs _ _ _ (H vs Hv)) as (_ & e & _ & ->). apply paired_evs. }
    split; [unfold with_holes; rewrite (tst_holes v0) by auto; exact HT|].
    intros lo vs e Hv He Hj Hf. destruct (whole_spec lo _ e (proj2 Hv) He Hj Hf) as (n & _ & Hp & Ht). exists n. split; [exact Hp|].
    pose proof (strings_tree lo e Hj) as K. rewrite Ht in K. cbn [ostrings] in K. rewrite K.
    pose proof (matches_det _ _ _ _ (H vs Hv) _ (grammar_reads _ _ He)) as D. injection D as ->. apply est_inst; auto.
Qed.

(** ** The back ends *)
Lemma plug_value : forall vs n, nType n = NValue -> nType (plug vs n) = NValue.
Proof. intros vs n H. now rewrite (proj1 (plug_types vs n)). Qed.
Lemma plug_alike : forall vs ws n, alike (Some (plug vs n)) (Some (plug ws n)).
Proof.
  intros vs ws. fix IH 1. intro n. destruct n as [ty vt z b s f ar o nm nms ex le op ri pa].
  assert (V : ty = NValue -> alike (Some (plug vs (Node ty vt z b s f ar o nm nms ex le op ri pa))) (Some (plug ws (Node ty vt z b s f ar o nm nms ex le op ri pa)))).
  { intros ->. apply alike_value; now apply plug_value. }
  destruct ty; try (now apply V).
  all: clear V; cbn [plug is_hole nType nVType nBool nInt nStr nFloat nArray nOperation nName nNames nExpression nLeft nOp nRight nParams];
    apply alike_node; cbn; try discriminate; try reflexivity;
    [destruct ex as [x|]; [apply IH|constructor]|destruct le as [x|]; [apply IH|constructor]|destruct op as [x|]; [apply IH|constructor]|destruct ri as [x|]; [apply IH|constructor]|];
    induction pa as [|x pa IHl]; [constructor|]; cbn [map]; constructor; [destruct x as [x|]; [apply IH|constructor]|exact IHl].
Qed.
Lemma plug_blank : forall casts vs ws n, LitSpec.blank casts (plug vs n) = LitSpec.blank casts (plug ws n).
Proof.
  intros casts vs ws. fix IH 1. intro n. destruct n as [ty vt z b s f ar o nm nms ex le op ri pa]. cbn [plug].
  destruct (is_hole (Node ty vt z b s f ar o nm nms ex le op ri pa)); [reflexivity|].
  cbn [LitSpec.blank nType nVType nBool nInt nStr nFloat nArray nOperation nName nNames nExpression nLeft nOp nRight nParams].
  assert (L : forall l : list (option node), (fix all l := match l with [] => True | x :: l => option_map (LitSpec.blank casts) (oplug vs x) = option_map (LitSpec.blank casts) (oplug ws x) /\ all l end) l ->
    map (option_map (LitSpec.blank casts)) (map (oplug vs) l) = map (option_map (LitSpec.blank casts)) (map (oplug ws) l)).
  { induction l as [|x l IHl]; [reflexivity|]. intros [A B]. cbn [map]. now rewrite A, IHl. }
  f_equal.
  - apply L. induction ar as [|x ar IHl]; [exact I|]. split; [destruct x as [x|]; cbn [option_map]; [now rewrite (IH x)|reflexivity]|exact IHl].
  - destruct ex as [x|]; cbn [option_map]; [now rewrite (IH x)|reflexivity].
  - destruct le as [x|]; cbn [option_map]; [now rewrite (IH x)|reflexivity].
  - destruct op as [x|]; cbn [option_map]; [now rewrite (IH x)|reflexivity].
  - destruct ri as [x|]; cbn [option_map]; [now rewrite (IH x)|reflexivity].
  - apply L. induction pa as [|x pa IHl]; [exact I|]. split; [destruct x as [x|]; cbn [option_map]; [now rewrite (IH x)|reflexivity]|exact IHl].
Qed.
(** if one filling parses, so does every other, and to the same tree up to the contents *)
Lemma template_other : forall lo h b vs ws n, fits_in h b vs -> fits_in h b ws -> parse lo (fill h b vs) = Ok (Some n) ->
  exists T, n = plug vs T /\ parse lo (fill h b ws) = Ok (Some (plug ws T)).
Proof.
  intros lo h b vs ws n Hv Hw Hp. destruct (template_parse lo h b (ex_intro _ vs Hv)) as [(T & HT)|[(e & HE)|HS]].
  - pose proof (HT vs Hv) as A. rewrite Hp in A. injection A as A. destruct T as [T|]; [|discriminate]. injection A as ->. exists T. split; [reflexivity|]. exact (HT ws Hw).
  - rewrite (HE vs Hv) in Hp. discriminate.
  - destruct (HS vs Hv) as (x & y & E). rewrite E in Hp. discriminate.
Qed.
Lemma template_gorm : forall fold_eq quote lo d h b vs ws n, fits_in h b vs -> fits_in h b ws -> parse lo (fill h b vs) = Ok (Some n) ->
  match wire_mini_query fold_eq quote lo d (fill h b vs), wire_mini_query fold_eq quote lo d (fill h b ws) with
  | Some d1, Some d2 => same_up_to_values d d1 d2
  | None, None => True
  | _, _ => False
  end.
Proof.
  intros fold_eq quote lo d h b vs ws n Hv Hw Hp. destruct (template_other lo h b vs ws n Hv Hw Hp) as (T & -> & Hp2).
  eapply wire_alike; [exact (proj2 Hv)|exact (proj2 Hw)|exact Hp|exact Hp2|apply plug_alike].
Qed.
Lemma template_entsql : forall ident_sql edge_sql heap lo dis nd st h b vs ws n, fits_in h b vs -> fits_in h b ws -> parse lo (fill h b vs) = Ok (Some n) ->
  match query lo ident_sql edge_sql heap (MB nd (fill h b vs) None dis st), query lo ident_sql edge_sql heap (MB nd (fill h b ws) None dis st) with
  | Some (m1, (t1, a1)), Some (m2, (t2, a2)) => t1 = t2 /\ map (blank_arg true) a1 = map (blank_arg true) a2 /\ same_state true (mSt m1) (mSt m2)
  | None, None => True
  | _, _ => False
  end.
Proof.
  intros ident_sql edge_sql heap lo dis nd st h b vs ws n Hv Hw Hp. destruct (template_other lo h b vs ws n Hv Hw Hp) as (T & -> & Hp2).
  eapply query_same; [exact Hp|exact Hp2|apply plug_blank|now left].
Qed.

Section EntQLPlug.
  Variables vs ws : list (list N).
  Lemma value_plug : forall n, option_map hide_value (value (plug vs n)) = option_map hide_value (value (plug ws n)).
  Proof.
    fix IH 1. intro n. destruct n as [ty vt z b s f ar o nm nms ex le op ri pa]. cbn [plug].
    destruct (is_hole (Node ty vt z b s f ar o nm nms ex le op ri pa)); [reflexivity|].
    cbn [nType nVType nBool nInt nStr nFloat nArray nOperation nName nNames nExpression nLeft nOp nRight nParams].
    destruct vt; try reflexivity. cbn [value nVType nArray].
    match goal with |- option_map _ (match ?g _ with _ => _ end) = _ => set (go := g) end.
    assert (K : option_map (map hide_value) (go (map (oplug vs) ar)) = option_map (map hide_value) (go (map (oplug ws) ar))).
    { induction ar as [|[x|] ar IHl]; [reflexivity| |reflexivity]. cbn [map option_map go]. pose proof (IH x) as Hx.
      destruct (value (plug vs x)) as [a|], (value (plug ws x)) as [a'|]; try discriminate Hx; [|reflexivity].
      injection Hx as Hx. destruct (go (map (oplug vs) ar)) as [l|], (go (map (oplug ws) ar)) as [l'|]; try discriminate IHl; [|reflexivity].
      injection IHl as IHl. cbn [option_map map]. now rewrite Hx, IHl. }
    destruct (go (map (oplug vs) ar)) as [l|], (go (map (oplug ws) ar)) as [l'|]; try discriminate K; [|reflexivity].
    injection K as K. cbn [option_map hide_value]. now rewrite K.
  Qed.
  Definition xr (r r' : eres) : Prop :=
    match r, r' with
    | XOk s, XOk s' => map hide s = map hide s'
    | XErr e s, XErr e' s' => e = e' /\ map hide s = map hide s'
    | XPanic, XPanic => True
    | _, _ => False
    end.
  Lemma xr_bind : forall r r' k k', xr r r' -> (forall s s', map hide s = map hide s' -> xr (k s) (k' s')) -> xr (xbind r k) (xbind r' k').
  Proof. intros r r' k k' H K. destruct r, r'; cbn in *; try contradiction; auto. Qed.
  Lemma hide_p : forall x y, hide x = hide y -> is_p x = is_p y.
  Proof. intros x y H. destruct x, y; try discriminate H; reflexivity. Qed.
  Lemma evisit_value : forall n s, nType n = NValue -> evisit n s = match value n with None => XPanic | Some v => XOk (XValue v :: s) end.
  Proof. intros [ty vt z b st f ar o nm nms ex le op ri pa] s H. cbn [nType] in H. subst ty. reflexivity. Qed.
  Lemma evisit_plug : forall n s s', map hide s = map hide s' -> xr (evisit (plug vs n) s) (evisit (plug ws n) s').
  Proof.
    fix IH 1. intros n s s' Hs.
    assert (V : nType n = NValue -> xr (evisit (plug vs n) s) (evisit (plug ws n) s')).
    { intro T. pose proof (value_plug n) as K. pose proof (proj1 (plug_types vs n)) as T1. pose proof (proj1 (plug_types ws n)) as T2. rewrite T in T1, T2.
      rewrite !evisit_value by assumption. destruct (value (plug vs n)), (value (plug ws n)); try discriminate K; [|exact I].
      injection K as K. cbn [xr map hide]. now rewrite K, Hs. }
    destruct n as [ty vt z b st f ar o nm nms ex le op ri pa].
    assert (O : forall x s s', match x with Some m => forall s s', map hide s = map hide s' -> xr (evisit (plug vs m) s) (evisit (plug ws m) s') | None => True end -> map hide s = map hide s' ->
      xr (match oplug vs x with Some m => evisit m s | None => XPanic end) (match oplug ws x with Some m => evisit m s' | None => XPanic end)).
    { intros [x|] t t' H Ht; [now apply H|exact I]. }
    assert (OP : forall p, nOperation (plug vs p) = nOperation (plug ws p)).
    { intros [ty2 vt2 z2 b2 st2 f2 ar2 o2 nm2 nms2 ex2 le2 op2 ri2 pa2]. cbn [plug]. destruct (is_hole _); reflexivity. }
    destruct ty; try (now apply V).
    all: clear V; cbn [plug is_hole nType nVType nBool nInt nStr nFloat nArray nOperation nName nNames nExpression nLeft nOp nRight nParams evisit].
    - cbn. auto.
    - cbn. now rewrite Hs.
    - exact (conj eq_refl Hs).
    - exact I.
    - apply xr_bind; [apply O; [destruct le as [x|]; [exact (IH x)|exact I]|exact Hs]|]. intros t t' Ht.
      apply xr_bind; [apply O; [destruct ri as [x|]; [exact (IH x)|exact I]|exact Ht]|]. intros u u' Hu.
      destruct u as [|x1 [|x2 u]], u' as [|y1 [|y2 u']]; try discriminate Hu; try exact I. cbn [map] in Hu. injection Hu as U1 U2 U3.
      destruct op as [p|]; [|exact I]. cbn [option_map]. rewrite (OP p). destruct (assoc (nOperation (plug ws p)) entql_ops); cbn; [now rewrite U1, U2, U3|auto].
    - apply xr_bind; [apply O; [destruct le as [x|]; [exact (IH x)|exact I]|exact Hs]|]. intros t t' Ht.
      apply xr_bind; [apply O; [destruct ri as [x|]; [exact (IH x)|exact I]|exact Ht]|]. intros u u' Hu.
      destruct u as [|x1 [|x2 u]], u' as [|y1 [|y2 u']]; try discriminate Hu; try exact I. cbn [map] in Hu. injection Hu as U1 U2 U3.
      destruct op as [p|]; [|exact I]. cbn [option_map]. rewrite (OP p). destruct (assoc (nOperation (plug ws p)) entql_ops); cbn; [now rewrite U1, U2, U3|auto].
    - apply O; [destruct ex as [x|]; [exact (IH x)|exact I]|exact Hs].
    - pose proof (O ex s s' ltac:(destruct ex as [x|]; [exact (IH x)|exact I]) Hs) as K.
      destruct (match oplug vs ex with Some m => evisit m s | None => XPanic end) as [t|e t|], (match oplug ws ex with Some m => evisit m s' | None => XPanic end) as [t'|e' t'|];
        cbn [xr] in K; try contradiction; [exact K| |exact I]. destruct K as [-> K].
      destruct t as [|x t], t' as [|y t']; try discriminate K; [exact I|]. cbn [map] in K. injection K as K1 K2. rewrite (hide_p _ _ K1).
      destruct (is_p y); [|exact I]. cbn. now rewrite K1, K2.
    - apply xr_bind; [apply O; [destruct le as [x|]; [exact (IH x)|exact I]|exact Hs]|]. intros t t' Ht.
      destruct pa as [|a [|c pa]]; cbn [map]; [exact I| |].
      + apply xr_bind; [apply O; [destruct a as [x|]; [exact (IH x)|exact I]|exact Ht]|]. intros; exact I.
      + apply xr_bind; [apply O; [destruct a as [x|]; [exact (IH x)|exact I]|exact Ht]|]. intros u u' Hu.
        apply xr_bind; [apply O; [destruct c as [x|]; [exact (IH x)|exact I]|exact Hu]|]. clear u u' Hu. intros u u' Hu.
        destruct u as [|x1 [|x2 [|x3 u]]], u' as [|y1 [|y2 [|y3 u']]]; try discriminate Hu; try exact I. cbn [map] in Hu. injection Hu as U1 U2 U3 U4.
        destruct op as [p|]; [|exact I]. cbn [option_map]. rewrite (OP p). destruct (streq (nOperation (plug ws p)) #"not between"); cbn; now rewrite U1, U2, U3, U4.
    - exact Hs.
    - cbn. auto.
  Qed.
End EntQLPlug.
Lemma template_entql : forall lo h b vs ws n, fits_in h b vs -> fits_in h b ws -> parse lo (fill h b vs) = Ok (Some n) ->
  match build_entql lo (fill h b vs), build_entql lo (fill h b ws) with
  | Ok p, Ok p' => option_map hide p = option_map hide p'
  | Err e, Err e' => e = e'
  | Panic, Panic => True
  | _, _ => False
  end.
Proof.
  intros lo h b vs ws n Hv Hw Hp. destruct (template_other lo h b vs ws n Hv Hw Hp) as (T & -> & Hp2). unfold build_entql, ebuild. rewrite Hp, Hp2.
  pose proof (parse_nonempty lo _ _ Hp) as N1. pose proof (parse_nonempty lo _ _ Hp2) as N2.
  destruct (fill h b vs); [congruence|]. destruct (fill h b ws); [congruence|].
  pose proof (evisit_plug vs ws T [] [] eq_refl) as K. destruct (evisit (plug vs T) []) as [t|e t|], (evisit (plug ws T) []) as [t'|e' t'|]; cbn [xr] in K; try contradiction.
  - destruct t as [|x t], t' as [|y t']; try discriminate K; [reflexivity|]. cbn [map] in K. injection K as K1 K2. rewrite (hide_p _ _ K1).
    destruct (is_p y); [|exact I]. cbn. now rewrite K1.
  - exact (proj1 K).
  - exact I.
Qed.

(** ** Samples *)
Definition h9 : holes := [(#"a = ", 39%N); (#" or date(b) in (1, 'n', ", 34%N)].
Definition b9 : list N := #") and c = 3 -- it's the end" ++ [10%N].
Definition vs9 : list (list N) := [#"x"; #"y"].
Definition ws9 : list (list N) := [#") or 1=1 -- "" "; #"it's; drop table t // "].
Lemma fits9 : forall vs, vs = vs9 \/ vs = ws9 -> fits_in h9 b9 vs.
Proof.
  intros vs [->| ->]; split; try (apply valid_runesb_spec; vm_compute; reflexivity);
    (apply Forall2_cons; [repeat split; vm_compute; reflexivity|]; apply Forall2_cons; [repeat split; vm_compute; reflexivity|]; apply Forall2_nil).
Qed.
(** a hole whose content closes the string, and a hole in a comment *)
Lemma hole_quote : ~ (forall lo a c b v w n m, place_after Code a = Code -> is_quote c = true -> valid_runes (fill [(a, c)] b [v]) -> valid_runes (fill [(a, c)] b [w]) ->
  parse lo (fill [(a, c)] b [v]) = Ok (Some n) -> parse lo (fill [(a, c)] b [w]) = Ok (Some m) -> alike (Some n) (Some m)).
Proof.
  intro H. specialize (H lo2 #"a = " 39%N #" and c = 3" #"x" #"x' or 'b' = 'b").
  assert (V : forall v, v = #"x" \/ v = #"x' or 'b' = 'b" -> valid_runes (fill [(#"a = ", 39%N)] #" and c = 3" [v])).
  { intros v [->| ->]; apply valid_runesb_spec; vm_compute; reflexivity. }
  specialize (H _ _ eq_refl eq_refl (V _ (or_introl eq_refl)) (V _ (or_intror eq_refl)) ltac:(vm_compute; reflexivity) ltac:(vm_compute; reflexivity)).
  apply alike_inv in H; [|discriminate]. destruct H as (_ & _ & _ & _ & _ & L & _). cbn [nLeft] in L. apply alike_inv in L; [|discriminate].
  destruct L as (T & _). discriminate T.
Qed.
Lemma hole_comment : ~ (forall lo a c b v w n m, is_quote c = true -> mem c v = false -> mem c w = false -> valid_runes (fill [(a, c)] b [v]) -> valid_runes (fill [(a, c)] b [w]) ->
  parse lo (fill [(a, c)] b [v]) = Ok (Some n) -> parse lo (fill [(a, c)] b [w]) = Ok (Some m) -> alike (Some n) (Some m)).
Proof.
  intro H. specialize (H lo2 #"a = 1 -- " 39%N [10%N] #"x" ([10%N] ++ #"or 2 = 2 --")).
  assert (V : forall v, v = #"x" \/ v = [10%N] ++ #"or 2 = 2 --" -> valid_runes (fill [(#"a = 1 -- ", 39%N)] [10%N] [v])).
  { intros v [->| ->]; apply valid_runesb_spec; vm_compute; reflexivity. }
  specialize (H _ _ eq_refl eq_refl eq_refl (V _ (or_introl eq_refl)) (V _ (or_intror eq_refl)) ltac:(vm_compute; reflexivity) ltac:(vm_compute; reflexivity)).
  apply alike_inv in H; [|discriminate]. destruct H as (T & _). discriminate T.
Qed.
