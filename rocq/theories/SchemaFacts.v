(** Proofs for C88 and C89. *)
From Verif Require Import Base Peg Grammar Node Vocab Tree Parse Syntax ParseProofs NormProofs ParserFacts ParserFacts2 ParserMain NameFacts NodeFacts Build
  Gorm GormSpec GormProofs GormFacts GormFacts2 GormFacts4 SchemaSpec.
Strategy expand [parse_machine rule_trace].
Strategy 1000 [parse_fuel mrun tok_trace].

Scheme renders_mind := Induction for renders Sort Prop
  with renders_all_mind := Induction for renders_all Sort Prop.

(** ** Names *)
Lemma in_streq : forall x l, existsb (streq x) l = true <-> In x l.
Proof.
  intros x l. rewrite existsb_exists. split; [intros (y & H & E); apply streq_eq in E; now subst|]. intro H. exists x. split; [exact H|apply streq_refl].
Qed.
Lemma assoc_in : forall {A} x (l : list (list N * A)) v, assoc x l = Some v -> In (x, v) l.
Proof.
  intros A x l v. induction l as [|[k w] l IH]; cbn; [discriminate|]. destruct (streq_spec x k) as [->|]; [intros [= ->]; now left|]. intro H. right. auto.
Qed.
Lemma names_app : forall A (f : A -> bool) a b, filter f (a ++ b) = filter f a ++ filter f b.
Proof. intros. apply filter_app. Qed.
Lemma names_params : forall ms, filter is_name (concat (map (fun p => match p with Some m => leaves m | None => [] end) (map Some ms))) = concat (map names ms).
Proof. induction ms as [|m ms IH]; [reflexivity|]. cbn [map concat]. rewrite filter_app, IH. reflexivity. Qed.
Lemma names_compare : forall l o r, names (mk_compare (Some l) (Some o) (Some r)) = names l ++ names o ++ names r.
Proof. intros. unfold names. cbn [leaves mk_compare nType nLeft nOp nRight]. now rewrite !filter_app. Qed.
Lemma names_logic : forall l o r, names (mk_logic (Some l) (Some o) (Some r)) = names l ++ names o ++ names r.
Proof. intros. unfold names. cbn [leaves mk_logic nType nLeft nOp nRight]. now rewrite !filter_app. Qed.
Lemma names_pred : forall l o, names (mk_predicate (Some l) (Some o)) = names l ++ names o.
Proof. intros. unfold names. cbn [leaves mk_predicate nType nLeft nOp nRight]. now rewrite !filter_app, app_nil_r. Qed.
Lemma names_between : forall l o x y, names (mk_between (Some l) (Some o) (Some x) (Some y)) = names l ++ names o ++ names x ++ names y.
Proof. intros. unfold names. cbn [leaves mk_between nType nLeft nOp nParams map concat]. now rewrite !filter_app, app_nil_r. Qed.
Lemma names_date : forall f ms, names (mk_function f (map Some ms)) = concat (map names ms).
Proof. intros. unfold names at 1. cbn [leaves mk_function nType nParams]. apply names_params. Qed.
Lemma names_value : forall n v, go_value n v -> names n = [].
Proof. intros n v H. apply go_value_type in H. unfold names. destruct n; cbn in H |- *. subst. reflexivity. Qed.

Section Facts.
  Variable fold_eq : list N -> list N -> bool.
  Notation ren := (renders fold_eq).

  Lemma cols_app : forall a b, columns (a ++ b) = columns a ++ columns b.
  Proof. intros. unfold columns. now rewrite map_app, concat_app. Qed.
  Lemma cols_text : forall t b, columns (PText t :: b) = columns b.
  Proof. reflexivity. Qed.
  Ltac norm := rewrite ?names_compare, ?names_logic, ?names_pred, ?names_between, ?names_date; rewrite ?cols_text, ?cols_app, ?cols_text, ?cols_app, ?cols_text, ?cols_app, ?cols_text.

  Lemma renders_columns : forall sch n ps, ren sch n ps -> Forall2 (column fold_eq sch) (names n) (columns ps).
  Proof.
    intro sch. refine (renders_mind fold_eq sch (fun n ps _ => Forall2 (column fold_eq sch) (names n) (columns ps))
      (fun ms ps _ => Forall2 (column fold_eq sch) (concat (map names ms)) (columns ps)) _ _ _ _ _ _ _ _ _ _ _ _ _); intros; norm.
    - rewrite (names_value n v g). constructor.
    - constructor.
    - apply Forall2_cons; [|constructor]. now apply col_ident.
    - apply Forall2_cons; [|constructor]. now apply (col_ref fold_eq sch _ rel x t).
    - change (names (mk_paren (Some e))) with (names e). now rewrite app_nil_r.
    - exact H.
    - now apply Forall2_app.
    - now repeat apply Forall2_app.
    - now repeat apply Forall2_app.
    - now repeat apply Forall2_app.
    - now rewrite app_nil_r.
    - constructor.
    - cbn [map concat]. now apply Forall2_app.
  Qed.

  (** ** C88 *)
  Lemma split_dot : forall r c, mem 46 r = false -> split_ref (r ++ #"." ++ c) = Some (r, c).
  Proof.
    induction r as [|x r IH]; intros c H; [reflexivity|]. cbn [mem existsb] in H. apply orb_false_iff in H as [H1 H2].
    cbn [app split_ref]. rewrite N.eqb_sym in H1. rewrite H1. change (split_ref (r ++ 46%N :: c)) with (split_ref (r ++ #"." ++ c)). now rewrite (IH c H2).
  Qed.
  Lemma split_none : forall c, mem 46 c = false -> split_ref c = None.
  Proof.
    induction c as [|x r IH]; intros H; [reflexivity|]. cbn [mem existsb] in H. apply orb_false_iff in H as [H1 H2].
    cbn [split_ref]. rewrite N.eqb_sym in H1. rewrite H1. now rewrite (IH H2).
  Qed.
  Lemma ident_plain : forall x, ident x -> mem 46 x = false.
  Proof.
    intros x [(c & r & -> & L & F) _]. cbn [mem existsb]. apply orb_false_iff. split.
    - apply N.eqb_neq. intros <-. discriminate L.
    - rewrite forallb_forall in F. change (mem 46 r = false). apply not_true_is_false. intro M. apply existsb_exists in M as (y & Y & E). apply N.eqb_eq in E. subst y. apply F in Y. discriminate Y.
  Qed.
  Lemma tidy_resolves : forall t x c, tidy t -> resolves fold_eq t x c -> In c (tByDB t) /\ mem 46 c = false.
  Proof.
    intros t x c [T1 T2] R. assert (I : In c (tByDB t)).
    { destruct R as [H|db _ H|before f db after _ _ H _ _]; [exact H| |].
      - apply (T1 x). left. now apply assoc_in.
      - apply (T1 f). right. rewrite H. apply in_or_app. right. now left. }
    split; [exact I|auto].
  Qed.
  Lemma owners_bare : forall sch js c, mem 46 c = false -> In c (tByDB (sTable sch)) ->
    owners (tables sch js) c = None :: map Some (filter (fun r => existsb (streq c) (relation_columns sch r)) js).
  Proof.
    intros sch js c D I. unfold owners. rewrite (split_none c D). unfold tables. cbn [filter snd]. rewrite (proj2 (in_streq c _) I). cbn [map fst]. f_equal.
    induction js as [|r js IH]; [reflexivity|]. cbn [map filter snd]. destruct (existsb (streq c) (relation_columns sch r)); cbn [map fst]; now rewrite IH.
  Qed.
  Lemma owners_ref : forall sch js r c, mem 46 r = false -> In c (relation_columns sch r) ->
    owners (tables sch js) (r ++ #"." ++ c) = repeat (Some r) (count_occ (list_eq_dec N.eq_dec) js r).
  Proof.
    intros sch js r c D I. unfold owners. rewrite (split_dot r c D). unfold tables. cbn [filter fst andb].
    induction js as [|k js IH]; [reflexivity|]. cbn [map filter fst snd count_occ]. destruct (list_eq_dec N.eq_dec k r) as [->|K].
    - rewrite streq_refl, (proj2 (in_streq c _) I). cbn [andb map fst repeat]. now rewrite IH.
    - destruct (streq_spec k r) as [|_]; [contradiction|]. cbn [andb]. exact IH.
  Qed.
  Lemma in_relations : forall n r, In r (relations n) <-> exists m, In m (names n) /\ nType m = NReference /\ r = hd [] (nNames m).
  Proof.
    intros n r. unfold relations, names. rewrite in_map_iff. split.
    - intros (m & <- & H). apply filter_In in H as [H1 H2]. exists m. split; [apply filter_In; split; [exact H1|unfold is_name; now rewrite H2, orb_true_r]|].
      split; [|reflexivity]. unfold is_type in H2. destruct (nType m); congruence.
    - intros (m & H & T & ->). exists m. split; [reflexivity|]. apply filter_In in H as [H1 _]. apply filter_In. split; [exact H1|]. unfold is_type. now rewrite T.
  Qed.
  Lemma column_type : forall sch m c, column fold_eq sch m c ->
    (nType m = NIdentifier /\ resolves fold_eq (sTable sch) (nName m) c) \/
    (nType m = NReference /\ exists r x t k, nNames m = [r; x] /\ assoc r (sRelations sch) = Some (Some t) /\ resolves fold_eq t x k /\ c = r ++ #"." ++ k).
  Proof. intros sch m c [db T R|r x t db T E A R]; [left; auto|right; split; [exact T|]]. exists r, x, t, db. auto. Qed.

  Section Scope.
    Variable sch : schema.
    Hypothesis T : tidy_schema sch.
    Variable js : list (list N).
    Definition plain (m : node) : Prop := nType m = NReference -> mem 46 (hd [] (nNames m)) = false.
    Lemma owner_home : forall m c, plain m -> column fold_eq sch m c -> (nType m = NReference -> In (hd [] (nNames m)) js) -> In (home m) (owners (tables sch js) c).
    Proof.
      intros m c P C J. destruct (column_type sch m c C) as [[Ty R]|[Ty (r & x & t & k & E & A & R & ->)]].
      - destruct (tidy_resolves _ _ _ (proj1 T) R) as [I D]. rewrite (owners_bare sch js c D I). unfold home. rewrite Ty. now left.
      - destruct (tidy_resolves _ _ _ (proj2 T r t A) R) as [I D]. specialize (P Ty). specialize (J Ty). unfold home. rewrite Ty. rewrite E in *. cbn [hd] in *.
        rewrite (owners_ref sch js r k P) by (unfold relation_columns; now rewrite A).
        apply (count_occ_In (list_eq_dec N.eq_dec)) in J. destruct (count_occ _ js r); [lia|]. now left.
    Qed.
    Lemma owner_one : forall m c, plain m -> column fold_eq sch m c ->
      (unambiguous (tables sch js) c <-> match nType m with
        | NReference => count_occ (list_eq_dec N.eq_dec) js (hd [] (nNames m)) = 1
        | _ => forall r, In r js -> ~ In c (relation_columns sch r) end).
    Proof.
      intros m c P C. unfold unambiguous. destruct (column_type sch m c C) as [[Ty R]|[Ty (r & x & t & k & E & A & R & ->)]]; rewrite Ty.
      - destruct (tidy_resolves _ _ _ (proj1 T) R) as [I D]. rewrite (owners_bare sch js c D I). cbn [length]. rewrite map_length. split.
        + intros H r J K. assert (X : In r (filter (fun r => existsb (streq c) (relation_columns sch r)) js)) by (apply filter_In; split; [exact J|now apply in_streq]).
          destruct (filter _ js); [contradiction|discriminate].
        + intro H. destruct (filter _ js) as [|r l] eqn:F; [reflexivity|]. exfalso. assert (X : In r (filter (fun r => existsb (streq c) (relation_columns sch r)) js)) by (rewrite F; now left).
          apply filter_In in X as [X1 X2]. apply in_streq in X2. exact (H r X1 X2).
      - destruct (tidy_resolves _ _ _ (proj2 T r t A) R) as [I D]. specialize (P Ty). rewrite E in *. cbn [hd] in *.
        rewrite (owners_ref sch js r k P) by (unfold relation_columns; now rewrite A). now rewrite repeat_length.
    Qed.
  End Scope.

  (** ** C89 *)
  Lemma assoc_dec : forall {A} x (l : list (list N * A)), {v | assoc x l = Some v} + {assoc x l = None}.
  Proof. intros A x l. destruct (assoc x l) as [v|]; [left; now exists v|now right]. Qed.
  Lemma grown_resolves : forall new t t' x c, grown new t t' -> resolves fold_eq t x c -> (resolves fold_eq t' x c <-> ~ captured new t x c).
  Proof.
    intros new t t' x c (G1 & G2 & G3) R. destruct (in_dec (list_eq_dec N.eq_dec) x (tByDB t)) as [I|I].
    - destruct R as [_|? N|? ? ? ? N]; try contradiction. split; [intros _ [K _]; contradiction|]. intros _. apply res_column. apply G1. now left.
    - destruct (in_dec (list_eq_dec N.eq_dec) x (new_columns new)) as [J|J].
      + assert (R' : resolves fold_eq t' x x) by (apply res_column, G1; now right). split.
        * intros R1 [_ [[_ K]|[K _]]]; [|contradiction]. apply K. symmetry. exact (lookup_unique fold_eq (fun c => c) t' x c x R1 R').
        * intro K. destruct (list_eq_dec N.eq_dec x c) as [<-|E]; [exact R'|]. destruct K. split; [exact I|]. left. auto.
      + assert (I' : ~ In x (tByDB t')) by (intro K; apply G1 in K as [K|K]; contradiction).
        destruct R as [K|db _ H|before f db after _ H E F B]; [contradiction| |].
        * split; [intros _ [_ [[K _]|[_ [K _]]]]; congruence|]. intros _. apply res_field; [exact I'|]. now rewrite G2, H.
        * destruct (assoc_dec x new) as [[d Hd]|Hd].
          -- assert (R' : resolves fold_eq t' x d) by (apply res_field; [exact I'|now rewrite G2, H]). split.
             ++ intros R1 [_ [[K _]|[_ [_ (d' & D & Dn)]]]]; [contradiction|]. apply Dn. rewrite Hd in D. injection D as <-. symmetry. exact (lookup_unique fold_eq (fun c => c) t' x db d R1 R').
             ++ intro K. destruct (list_eq_dec N.eq_dec d db) as [<-|Dn]; [exact R'|]. destruct K. split; [exact I|]. right. eauto.
          -- split; [intros _ [_ [[K _]|[_ [_ (d' & D & _)]]]]; congruence|]. intros _. apply (res_fold fold_eq t' x before f db (after ++ new)); auto; [now rewrite G2, H|].
             rewrite G3, E, <- app_assoc. reflexivity.
  Qed.
  Lemma grown_some : forall new t t' x c, grown new t t' -> resolves fold_eq t x c -> exists c', resolves fold_eq t' x c'.
  Proof.
    intros new t t' x c G R. pose proof (grown_resolves new t t' x c G R) as E. destruct G as (G1 & G2 & G3).
    destruct (in_dec (list_eq_dec N.eq_dec) x (tByDB t')) as [J|J]; [exists x; now apply res_column|].
    destruct (assoc_dec x (tByName t')) as [[d Hd]|Hd]; [exists d; now apply res_field|].
    exists c. apply E. intros (I & [[K _]|[_ [K (d & D & _)]]]); [apply J, G1; now right|]. rewrite G2, K in Hd. congruence.
  Qed.
  Section Grow.
    Variables (new : list (list N * list N)) (newr : list N -> list (list N * list N)) (sch sch' : schema).
    Hypothesis G : grown_schema new newr sch sch'.
    Notation safe_name := (fun m => ~ name_captured fold_eq new newr sch m).
    Lemma grown_column : forall m c, column fold_eq sch m c -> (column fold_eq sch' m c <-> safe_name m).
    Proof.
      intros m c C. destruct (column_type sch m c C) as [[Ty R]|[Ty (r & x & t & k & E & A & R & ->)]].
      - pose proof (grown_resolves new _ _ _ _ (proj1 G) R) as X. split.
        + intros C' [[_ (c' & R' & K)]|[K _]]; [|congruence]. pose proof (lookup_unique fold_eq (fun c => c) _ _ _ _ R R') as <-.
          destruct (column_type sch' m c C') as [[_ R1]|[K' _]]; [|congruence]. now apply X in R1.
        + intro K. apply col_ident; [exact Ty|]. apply X. intro L. apply K. left. eauto.
      - destruct (proj2 G r t A) as (t' & A' & Gt). pose proof (grown_resolves _ _ _ _ _ Gt R) as X. split.
        + intros C' [[K _]|[_ (r2 & x2 & t2 & c2 & E2 & A2 & R2 & K)]]; [congruence|]. rewrite E in E2. injection E2 as <- <-. rewrite A in A2. injection A2 as <-.
          pose proof (lookup_unique fold_eq (fun c => c) _ _ _ _ R R2) as <-.
          destruct (column_type sch' m _ C') as [[K' _]|[_ (r3 & x3 & t3 & k3 & E3 & A3 & R3 & Q)]]; [congruence|]. rewrite E in E3. injection E3 as <- <-. rewrite A' in A3. injection A3 as <-.
          apply app_inv_head in Q. injection Q as <-. apply X in R3. contradiction.
        + intro K. apply (col_ref fold_eq sch' m r x t' k Ty E A'). apply X. intro L. apply K. right. split; [exact Ty|]. eauto 10.
    Qed.
    Lemma grown_renders : forall n ps, ren sch n ps -> (ren sch' n ps <-> Forall safe_name (names n)).
    Proof.
      intros n ps R. split.
      - intro R'. apply renders_columns in R. apply renders_columns in R'. revert R R'. generalize (columns ps). induction (names n) as [|m l IH]; intros cs R R'; [constructor|].
        inversion R as [|? c ? cs' C1 C2]; subst. inversion R' as [|? ? ? ? C3 C4]; subst. apply Forall_cons; [now apply (grown_column m c C1)|]. now apply (IH cs').
      - revert n ps R. refine (renders_mind fold_eq sch (fun n ps _ => Forall safe_name (names n) -> ren sch' n ps)
          (fun ms ps _ => Forall safe_name (concat (map names ms)) -> renders_all fold_eq sch' ms ps) _ _ _ _ _ _ _ _ _ _ _ _ _).
        + intros n v H _. now apply ren_value.
        + intros o s H _. now apply ren_op.
        + intros x c H F. apply ren_ident. inversion_clear F as [|? ? S _].
          apply (grown_column (mk_ident x) c (col_ident fold_eq sch (mk_ident x) c eq_refl H)) in S. apply column_type in S as [[_ S]|[K _]]; [exact S|discriminate].
        + intros r x t c A H F. inversion_clear F as [|? ? S _].
          apply (grown_column (mk_reference [r; x]) _ (col_ref fold_eq sch (mk_reference [r; x]) r x t c eq_refl eq_refl A H)) in S.
          apply column_type in S as [[K _]|[_ (r2 & x2 & t2 & k2 & E2 & A2 & R2 & Q)]]; [discriminate|]. injection E2 as <- <-. apply app_inv_head in Q. injection Q as <-. now apply (ren_ref fold_eq sch' r x t2).
        + intros e a _ IH F. apply ren_paren. now apply IH.
        + intros e a _ IH F. apply ren_not. now apply IH.
        + intros l o a w _ IH1 _ IH2 F. rewrite names_pred in F. apply Forall_app in F as [F1 F2]. apply ren_pred; auto.
        + intros l o r a w b _ IH1 _ IH2 _ IH3 F. rewrite names_compare in F. apply Forall_app in F as [F1 F2]. apply Forall_app in F2 as [F2 F3]. apply ren_compare; auto.
        + intros l o r a w b _ IH1 _ IH2 _ IH3 F. rewrite names_logic in F. apply Forall_app in F as [F1 F2]. apply Forall_app in F2 as [F2 F3]. apply ren_logic; auto.
        + intros l o x y a w b c _ IH1 _ IH2 _ IH3 _ IH4 F. rewrite names_between in F. apply Forall_app in F as [F1 F2]. apply Forall_app in F2 as [F2 F3]. apply Forall_app in F3 as [F3 F4]. apply ren_between; auto.
        + intros args ps _ IH F. rewrite names_date in F. apply ren_date. auto.
        + intros _. constructor.
        + intros n l a b _ IH1 _ IH2 F. cbn [map concat] in F. apply Forall_app in F as [F1 F2]. constructor; auto.
    Qed.
    Lemma grown_accepted : forall n ps, ren sch n ps -> exists ps', ren sch' n ps'.
    Proof.
      refine (renders_mind fold_eq sch (fun n ps _ => exists ps', ren sch' n ps') (fun ms ps _ => exists ps', renders_all fold_eq sch' ms ps') _ _ _ _ _ _ _ _ _ _ _ _ _).
      - intros n v H. eexists. eapply ren_value. exact H.
      - intros o s H. eexists. eapply ren_op. exact H.
      - intros x c H. destruct (grown_some _ _ _ _ _ (proj1 G) H) as (c' & R). eexists. apply ren_ident. exact R.
      - intros r x t c A H. destruct (proj2 G r t A) as (t' & A' & Gt). destruct (grown_some _ _ _ _ _ Gt H) as (c' & R). eexists. apply (ren_ref fold_eq sch' r x t' c' A' R).
      - intros e a _ (p & H). eexists. apply ren_paren. exact H.
      - intros e a _ (p & H). eexists. apply ren_not. exact H.
      - intros l o a w _ (p & H) _ (p' & H'). eexists. apply ren_pred; eassumption.
      - intros l o r a w b _ (p & H) _ (p' & H') _ (p2 & H2). eexists. apply ren_compare; eassumption.
      - intros l o r a w b _ (p & H) _ (p' & H') _ (p2 & H2). eexists. apply ren_logic; eassumption.
      - intros l o x y a w b c _ (p & H) _ (p' & H') _ (p2 & H2) _ (p3 & H3). eexists. apply ren_between; eassumption.
      - intros args ps _ (p & H). eexists. apply ren_date. exact H.
      - eexists. constructor.
      - intros n l a b _ (p & H) _ (p' & H'). eexists. constructor; eassumption.
    Qed.
  End Grow.

  (** ** The queries *)
  Variable quote : list N -> list N.
  Variable lo : N -> N.
  Notation wire := (wire_mini_query fold_eq quote lo).
  Lemma names_plain : forall q n m, valid_runes q -> parse lo q = Ok (Some n) -> In m (names n) -> plain m.
  Proof.
    intros q n m V P I Ty. unfold names in I. apply filter_In in I as [I _].
    pose proof (parse_names lo q n m V P (leaf_reach n (parse_safe lo q n V P) m I)) as K. unfold named in K. rewrite Ty in K.
    destruct K as (K & _). destruct (nNames m) as [|r l]; [reflexivity|]. inversion_clear K. now apply ident_plain.
  Qed.
  Lemma wire_scope : forall d q n d', valid_runes q -> parse lo q = Ok (Some n) -> wire d q = Some d' -> succeeded d d' ->
    exists sch ps, schema_of d = Some sch /\ dWheres d' = dWheres d ++ [(sql_text quote ps, values ps)] /\
      (tidy_schema sch ->
       Forall2 (fun m c => In (home m) (owners (tables sch (dJoins d')) c)) (names n) (columns ps) /\
       (Forall (unambiguous (tables sch (dJoins d'))) (columns ps) <->
        (forall m c r, In m (names n) -> nType m = NIdentifier -> resolves fold_eq (sTable sch) (nName m) c -> In r (dJoins d') -> ~ In c (relation_columns sch r)) /\
        (forall r, In r (relations n) -> count_occ (list_eq_dec N.eq_dec) (dJoins d') r = 1))).
  Proof.
    intros d q n d' V P H S. destruct (wire_columns fold_eq quote lo d q n d' V P H S) as (sch & ps & H1 & H2 & H3).
    exists sch, ps. split; [exact H1|]. split; [exact H2|]. intro T. pose proof (wire_joins fold_eq quote lo d q n d' V P H S) as J.
    assert (JR : forall r, In r (relations n) -> In r (dJoins d')) by (intros r K; rewrite J; apply in_or_app; right; now apply firsts_spec).
    assert (PL : forall m, In m (names n) -> plain m) by (intros m; now apply (names_plain q)). split.
    - assert (JM : forall m, In m (names n) -> nType m = NReference -> In (hd [] (nNames m)) (dJoins d')) by (intros m K Ty; apply JR, in_relations; eauto).
      revert H3 PL JM. generalize (columns ps) (dJoins d'). clear -T. intros cs js H3. induction H3 as [|m c ms cs C _ IH]; intros PL JM; [constructor|]. apply Forall2_cons; [|apply IH; intros; [apply PL|apply JM]; auto; now right].
      apply owner_home; auto; [apply PL; now left|apply JM; now left].
    - transitivity (Forall (fun m => match nType m with
        | NReference => count_occ (list_eq_dec N.eq_dec) (dJoins d') (hd [] (nNames m)) = 1
        | _ => forall c, column fold_eq sch m c -> forall r, In r (dJoins d') -> ~ In c (relation_columns sch r) end) (names n)).
      + revert H3 PL. generalize (columns ps) (dJoins d'). clear -T. intros cs js H3. induction H3 as [|m c ms cs C _ IH]; intro PL; [split; constructor|].
        assert (PM : plain m) by (apply PL; now left). pose proof (owner_one sch T js m c PM C) as X.
        assert (Y : unambiguous (tables sch js) c <-> match nType m with
          | NReference => count_occ (list_eq_dec N.eq_dec) js (hd [] (nNames m)) = 1
          | _ => forall c, column fold_eq sch m c -> forall r, In r js -> ~ In c (relation_columns sch r) end).
        { rewrite X. destruct (column_type sch m c C) as [[Ty R]|[Ty _]]; rewrite Ty; [|reflexivity]. split; [|intros K; exact (K c C)].
          intros K c' C'. destruct (column_type sch m c' C') as [[_ R']|[Ty' _]]; [|congruence]. now rewrite <- (lookup_unique fold_eq (fun c => c) _ _ _ _ R R'). }
        split; intro K; inversion_clear K as [|? ? K1 K2]; (apply Forall_cons; [now apply Y|]); apply IH; auto; intros; apply PL; now right.
      + rewrite Forall_forall. split.
        * intro K. split.
          -- intros m c r I Ty R. specialize (K m I). rewrite Ty in K. apply K. now apply col_ident.
          -- intros r I. apply in_relations in I as (m & I & Ty & ->). specialize (K m I). now rewrite Ty in K.
        * intros [K1 K2] m I. destruct (nType m) eqn:Ty; try (intros c C; destruct (column_type sch m c C) as [[Ty' R]|[Ty' _]]; [|congruence]; intros r J'; apply (K1 m c r I Ty' R J')).
          apply K2, in_relations. eauto.
  Qed.
  Lemma wire_fresh : forall d q n d', valid_runes q -> parse lo q = Ok (Some n) -> wire d q = Some d' -> succeeded d d' -> dJoins d = [] ->
    forall r, In r (relations n) -> count_occ (list_eq_dec N.eq_dec) (dJoins d') r = 1.
  Proof.
    intros d q n d' V P H S E r I. rewrite (wire_joins fold_eq quote lo d q n d' V P H S), E. cbn [app].
    destruct (firsts_spec (relations n)) as [N M]. apply M in I. apply (NoDup_count_occ' (list_eq_dec N.eq_dec)) in I; auto.
  Qed.

  Lemma wire_grown : forall new newr d d2 sch sch2 q n d', valid_runes q -> parse lo q = Ok (Some n) -> schema_of d = Some sch -> schema_of d2 = Some sch2 -> grown_schema new newr sch sch2 ->
    wire d q = Some d' -> succeeded d d' ->
    exists d2', wire d2 q = Some d2' /\ succeeded d2 d2' /\ (exists j, dJoins d' = dJoins d ++ j /\ dJoins d2' = dJoins d2 ++ j) /\
      (Forall (fun m => ~ name_captured fold_eq new newr sch m) (names n) -> exists c, dWheres d' = dWheres d ++ [c] /\ dWheres d2' = dWheres d2 ++ [c]).
  Proof.
    intros new newr d d2 sch sch2 q n d' V P S1 S2 G H S. destruct (renders_complete fold_eq quote lo d q n d' V P H S) as (sch' & ps & E & R). rewrite S1 in E. injection E as <-.
    pose proof (renders_sound fold_eq quote lo d sch q n ps V P S1 R) as W. rewrite H in W. injection W as ->.
    destruct (grown_accepted new newr sch sch2 G n ps R) as (ps' & R'). pose proof (renders_sound fold_eq quote lo d2 sch2 q n ps' V P S2 R') as W'.
    eexists. split; [exact W'|]. split; [reflexivity|]. split; [eexists; split; reflexivity|].
    intro F. apply (grown_renders new newr sch sch2 G n ps R) in F. rewrite (renders_unique fold_eq quote sch2 n ps' ps (parse_safe lo q n V P) R' F). eexists. split; reflexivity.
  Qed.
  Lemma wire_grown_only : forall new newr d d2 sch sch2 q n d' d2', valid_runes q -> parse lo q = Ok (Some n) -> schema_of d = Some sch -> schema_of d2 = Some sch2 -> grown_schema new newr sch sch2 ->
    wire d q = Some d' -> succeeded d d' -> wire d2 q = Some d2' -> succeeded d2 d2' ->
    exists ps ps2, dWheres d' = dWheres d ++ [(sql_text quote ps, values ps)] /\ dWheres d2' = dWheres d2 ++ [(sql_text quote ps2, values ps2)] /\
      (ps = ps2 <-> Forall (fun m => ~ name_captured fold_eq new newr sch m) (names n)).
  Proof.
    intros new newr d d2 sch sch2 q n d' d2' V P S1 S2 G H S H' S'. destruct (renders_complete fold_eq quote lo d q n d' V P H S) as (sch' & ps & E & R). rewrite S1 in E. injection E as <-.
    destruct (renders_complete fold_eq quote lo d2 q n d2' V P H' S') as (sch' & ps' & E & R'). rewrite S2 in E. injection E as <-.
    pose proof (renders_sound fold_eq quote lo d sch q n ps V P S1 R) as W. rewrite H in W. injection W as ->.
    pose proof (renders_sound fold_eq quote lo d2 sch2 q n ps' V P S2 R') as W. rewrite H' in W. injection W as ->.
    exists ps, ps'. split; [reflexivity|]. split; [reflexivity|]. rewrite <- (grown_renders new newr sch sch2 G n ps R). split; [intros ->; exact R'|].
    intro F. exact (renders_unique fold_eq quote sch2 n ps ps' (parse_safe lo q n V P) F R').
  Qed.
End Facts.
