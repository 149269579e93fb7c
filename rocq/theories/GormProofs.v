(** Proofs about gormq: every visit is the replay of a list of events that
    depends on the tree and the schema only. *)
From Verif Require Import Base Node Vocab Tree Parse Syntax ParseProofs NormProofs Unique ParserFacts ParserFacts2 ParserMain Build BuildProofs NodeFacts SafeInd
  Gorm GormSpec.
Require Import Arith.

Inductive event : Set := EvP (p : piece) | EvJ (rel name : list N).
Definition evres : Type := option (list event * option gerr).
Definition evseq (a b : evres) : evres :=
  match a with
  | Some (l, None) => match b with Some (m, e) => Some (l ++ m, e) | None => None end
  | _ => a
  end.
Definition evt (t : list N) : evres := Some ([EvP (PText t)], None).
Definition evalways (t : list N) (a : evres) : evres :=
  match a with Some (l, e) => Some (l ++ [EvP (PText t)], e) | None => None end.

Section GP.
  Variable fold_eq : list N -> list N -> bool.
  Variable quote : list N -> list N.
  Variable lo : N -> N.

  Section Sch.
    Variable sch : schema.
    Notation visit := (visit fold_eq quote sch).
    Notation dbn := (get_db_name fold_eq).

    Definition step (s : qst) (e : event) : qst :=
      match e with
      | EvP p => QS (qBuf s ++ render quote p) (qVals s ++ values [p]) (qJoins s) (qJoined s)
      | EvJ rel name =>
          QS (qBuf s) (qVals s)
             (match assoc rel (qJoined s) with None => qJoins s ++ [rel] | Some _ => qJoins s end)
             (append_at rel name (qJoined s))
      end.
    Definition run_ev (l : list event) (s : qst) : qst := fold_left step l s.
    Definition out (r : evres) (s : qst) : qres :=
      match r with
      | None => QPanic
      | Some (l, None) => QOk (run_ev l s)
      | Some (l, Some e) => QErr e (run_ev l s)
      end.

    Definition ev_ident (x : list N) : evres :=
      match dbn (sTable sch) x with Some c => Some ([EvP (PColumn c)], None) | None => Some ([], Some (GField x)) end.
    Definition ev_ref (xs : list (list N)) : evres :=
      match xs with
      | [rel; f] =>
          match assoc rel (sRelations sch) with
          | None => Some ([], Some (GRelation rel))
          | Some None => None
          | Some (Some t) =>
              match dbn t f with
              | None => Some ([], Some (GRelField rel f))
              | Some c => Some ([EvJ rel c; EvP (PColumn (rel ++ #"." ++ c))], None)
              end
          end
      | _ => Some ([], Some GLevels)
      end.
    Definition evp_with (f : node -> evres) (p : option node) : evres := match p with Some m => f m | None => None end.
    Fixpoint ev (n : node) : evres :=
      match nType n with
      | NOperation => evt (normalize_sql (nOperation n))
      | NValue => match value n with None => None | Some v => Some ([EvP (PValue v)], None) end
      | NIdentifier => ev_ident (nName n)
      | NReference => ev_ref (nNames n)
      | NParentheses => evalways #")" (evseq (evt #"(") (evp_with ev (nExpression n)))
      | NNot => evseq (evt #"not ") (evp_with ev (nExpression n))
      | NFunction =>
          if streq (nName n) #"date" then
            evseq (evseq (evt (nName n)) (evt #"("))
              (evseq ((fix all (l : list (option node)) : evres :=
                         match l with [] => Some ([], None) | p :: l' => evseq (match p with Some m => ev m | None => None end) (all l') end) (nParams n))
                     (evt #")"))
          else Some ([], Some (GFunc (nName n)))
      | NBetween =>
          evseq (evp_with ev (nLeft n)) (evseq (evseq (evt #" ") (evp_with ev (nOp n)))
            (match nParams n with
             | a :: ps => evseq (evseq (evt #" ") (match a with Some m => ev m | None => None end))
                           (match ps with b :: _ => evseq (evt #" and ") (match b with Some m => ev m | None => None end) | [] => None end)
             | [] => None
             end))
      | NPredicates | NLogic | NCompare =>
          evseq (evp_with ev (nLeft n)) (evseq (evseq (evt #" ") (evp_with ev (nOp n)))
            (match nRight n with None => Some ([], None) | Some r => evseq (evt #" ") (ev r) end))
      | NOther => Some ([], Some (GType NOther))
      end.

    Fixpoint ev_all (ms : list node) : evres :=
      match ms with [] => Some ([], None) | m :: ms' => evseq (ev m) (ev_all ms') end.

    Lemma run_app : forall l m s, run_ev (l ++ m) s = run_ev m (run_ev l s).
    Proof. intros. apply fold_left_app. Qed.
    Lemma out_seq : forall a b s, out (evseq a b) s = qbind (out a s) (out b).
    Proof.
      intros [[l [e|]]|] b s; try reflexivity. cbn [evseq out qbind]. destruct b as [[m [e|]]|]; cbn [out]; rewrite ?run_app; reflexivity.
    Qed.
    Lemma out_text : forall t s, out (evt t) s = QOk (write t s).
    Proof. intros t s. cbn. unfold write. now rewrite app_nil_r. Qed.
    Lemma out_always : forall t a s, out (evalways t a) s = always t (out a s).
    Proof.
      intros t [[l [e|]]|] s; cbn [evalways out always]; try reflexivity; rewrite run_app; cbn; unfold write; now rewrite app_nil_r.
    Qed.
    Lemma qbind_ext : forall r f g, (forall s, f s = g s) -> qbind r f = qbind r g.
    Proof. intros [s|e s|] f g H; cbn; auto. Qed.
    Lemma qbind_assoc : forall r f g, qbind (qbind r f) g = qbind r (fun s => qbind (f s) g).
    Proof. now intros [s|e s|] f g. Qed.

    Lemma ev_fun : forall f ms, ev (mk_function f (map Some ms)) =
      if streq f #"date" then evseq (evseq (evt f) (evt #"(")) (evseq (ev_all ms) (evt #")")) else Some ([], Some (GFunc f)).
    Proof.
      intros f ms. cbn [ev mk_function nType nName nParams]. destruct (streq f #"date"); [|reflexivity]. f_equal. f_equal.
      induction ms as [|m ms IH]; [reflexivity|]. cbn [map ev_all]. now rewrite IH.
    Qed.

    (** ** visit is a replay *)
    Lemma visit_ev : forall n, safe n -> forall s, visit n s = out (ev n) s.
    Proof.
      apply (safe_shape_ind (fun n => forall s, visit n s = out (ev n) s)).
      - intros n v Hn HT Hv _ s. destruct n as [ty vt i b st fl arr op na ns ex le oo ri ps]. cbn [nType] in HT. subst ty.
        cbn [Gorm.visit ev nType]. rewrite Hv. reflexivity.
      - intros s0 s. change (QOk (write (normalize_sql s0) s) = out (evt (normalize_sql s0)) s). now rewrite out_text.
      - intros x s. cbn [Gorm.visit ev nType mk_ident nName]. unfold visit_identifier, map_name, ev_ident. cbn [nName mk_ident].
        destruct (dbn (sTable sch) x); [|reflexivity]. cbn. unfold write. now rewrite app_nil_r.
      - intros xs s. cbn [Gorm.visit ev nType mk_reference nNames]. unfold visit_reference, ev_ref, do_join. cbn [nNames].
        destruct xs as [|r [|f [|? ?]]]; try reflexivity. destruct (assoc r (sRelations sch)) as [[t|]|]; try reflexivity.
        destruct (dbn t f); try reflexivity. cbn. unfold write. cbn. now rewrite app_nil_r.
      - intros l o Hl Ho IHl IHo s. cbn [Gorm.visit ev mk_predicate nType nLeft nOp nRight evp_with]. rewrite out_seq, IHl.
        apply qbind_ext. intro s1. rewrite !out_seq, out_text. cbn [qbind]. rewrite IHo. destruct (out (ev o) (write #" " s1)); reflexivity.
      - intros l o r Hl Ho Hr IHl IHo IHr s. cbn [Gorm.visit ev mk_compare nType nLeft nOp nRight evp_with]. rewrite out_seq, IHl.
        apply qbind_ext. intro s1. rewrite !out_seq, out_text. cbn [qbind]. rewrite IHo. apply qbind_ext. intro s2.
        rewrite out_seq, out_text. apply IHr.
      - intros l o r Hl Ho Hr IHl IHo IHr s. cbn [Gorm.visit ev mk_logic nType nLeft nOp nRight evp_with]. rewrite out_seq, IHl.
        apply qbind_ext. intro s1. rewrite !out_seq, out_text. cbn [qbind]. rewrite IHo. apply qbind_ext. intro s2.
        rewrite out_seq, out_text. apply IHr.
      - intros e He IH s. cbn [Gorm.visit ev mk_paren nType nExpression evp_with]. rewrite out_always, out_seq, out_text. cbn [qbind]. now rewrite IH.
      - intros e He IH s. cbn [Gorm.visit ev mk_not nType nExpression evp_with]. rewrite out_seq, out_text. cbn [qbind]. apply IH.
      - intros l o a b Hl Ho Ha Hb _ _ IHl IHo IHa IHb s. cbn [Gorm.visit ev mk_between nType nLeft nOp nParams evp_with]. rewrite out_seq, IHl.
        apply qbind_ext. intro s1. rewrite !out_seq, out_text. cbn [qbind]. rewrite IHo. apply qbind_ext. intro s2.
        rewrite !out_seq, out_text. cbn [qbind]. rewrite IHa. apply qbind_ext. intro s3. rewrite out_seq, out_text. apply IHb.
      - intros f ms _ IH s. rewrite ev_fun. cbn [Gorm.visit mk_function nType nName nParams]. destruct (streq f #"date"); [|reflexivity].
        rewrite !out_seq, out_text. cbn [qbind]. rewrite out_text. cbn [qbind]. rewrite out_seq.
        match goal with |- qbind (?F _ _) _ = _ => assert (K : forall s, F (map Some ms) s = out (ev_all ms) s) end.
        { induction IH as [|m ms Hm _ IHm]; intro s0; [reflexivity|]. cbn [map ev_all]. rewrite out_seq, Hm. apply qbind_ext. exact IHm. }
        rewrite K. apply qbind_ext. intro s1. now rewrite out_text.
    Qed.

    (** ** What a replay leaves behind *)
    Definition pieces (l : list event) : list piece := concat (map (fun e => match e with EvP p => [p] | _ => [] end) l).
    Definition rels (l : list event) : list (list N) := concat (map (fun e => match e with EvJ r _ => [r] | _ => [] end) l).
    Lemma pieces_app : forall l m, pieces (l ++ m) = pieces l ++ pieces m.
    Proof. intros. unfold pieces. now rewrite map_app, concat_app. Qed.
    Lemma rels_app : forall l m, rels (l ++ m) = rels l ++ rels m.
    Proof. intros. unfold rels. now rewrite map_app, concat_app. Qed.
    Lemma text_app : forall a b, sql_text quote (a ++ b) = sql_text quote a ++ sql_text quote b.
    Proof. intros. unfold sql_text. now rewrite map_app, concat_app. Qed.
    Lemma values_app : forall a b, values (a ++ b) = values a ++ values b.
    Proof. intros. unfold values. now rewrite map_app, concat_app. Qed.
    Lemma columns_app : forall a b, columns (a ++ b) = columns a ++ columns b.
    Proof. intros. unfold columns. now rewrite map_app, concat_app. Qed.
    Lemma fixed_app : forall a b, fixed (a ++ b) = fixed a ++ fixed b.
    Proof. intros. unfold fixed. now rewrite map_app, concat_app. Qed.

    Lemma run_buf : forall l s, qBuf (run_ev l s) = qBuf s ++ sql_text quote (pieces l).
    Proof.
      induction l as [|e l IH]; intro s; [cbn; now rewrite app_nil_r|]. change (run_ev (e :: l) s) with (run_ev l (step s e)). rewrite (IH (step s e)).
      destruct e; cbn; [|reflexivity]. rewrite <- app_assoc. reflexivity.
    Qed.
    Lemma run_vals : forall l s, qVals (run_ev l s) = qVals s ++ values (pieces l).
    Proof.
      induction l as [|e l IH]; intro s; [cbn; now rewrite app_nil_r|]. change (run_ev (e :: l) s) with (run_ev l (step s e)). rewrite (IH (step s e)).
      destruct e as [p|]; [|reflexivity]. change (pieces (EvP p :: l)) with ([p] ++ pieces l). rewrite values_app. cbn [step qVals]. now rewrite <- app_assoc.
    Qed.
    (** the map joined has the joined relations as keys *)
    Definition jinv (s : qst) : Prop := forall r, assoc r (qJoined s) = None <-> ~ In r (qJoins s).
    Lemma assoc_append : forall r n m k, assoc k (append_at r n m) = None <-> k <> r /\ assoc k m = None.
    Proof.
      intros r n m k. induction m as [|[x v] m IH]; cbn.
      - destruct (streq_spec k r); intuition congruence.
      - destruct (streq_spec r x) as [->|Hx]; cbn.
        + destruct (streq_spec k x); intuition congruence.
        + destruct (streq_spec k x); [|exact IH]. split; [discriminate|intros [_ H]; discriminate].
    Qed.
    Lemma existsb_in : forall x l, existsb (streq x) l = true <-> In x l.
    Proof.
      intros x l. rewrite existsb_exists. split.
      - intros (y & Hy & H). now rewrite (streq_eq _ _ H).
      - intro H. exists x. split; [exact H|apply streq_refl].
    Qed.
    Lemma firsts_ext : forall l a b, (forall x, In x a <-> In x b) -> firsts a l = firsts b l.
    Proof.
      induction l as [|x l IH]; intros a b H; [reflexivity|]. cbn.
      assert (E : existsb (streq x) a = existsb (streq x) b).
      { destruct (existsb (streq x) a) eqn:Ea; destruct (existsb (streq x) b) eqn:Eb; try reflexivity.
        - apply existsb_in in Ea. apply H in Ea. apply existsb_in in Ea. congruence.
        - apply existsb_in in Eb. apply H in Eb. apply existsb_in in Eb. congruence. }
      rewrite E. destruct (existsb (streq x) b); [now apply IH|]. f_equal. apply IH. intro y. cbn. now rewrite H.
    Qed.
    Lemma run_joins : forall l s, jinv s -> jinv (run_ev l s) /\ qJoins (run_ev l s) = qJoins s ++ firsts (qJoins s) (rels l).
    Proof.
      induction l as [|e l IH]; intros s Hs; [split; [exact Hs|cbn; now rewrite app_nil_r]|].
      cbn [run_ev fold_left]. change (fold_left step l (step s e)) with (run_ev l (step s e)).
      assert (Hj : jinv (step s e)).
      { destruct e as [p|r n]; [exact Hs|]. intro k. cbn [step qJoins qJoined]. rewrite assoc_append, (Hs k).
        destruct (assoc r (qJoined s)) eqn:E.
        - split; [tauto|]. intro H. split; [|exact H]. intros ->. apply (Hs r) in H. congruence.
        - rewrite in_app_iff. cbn. intuition congruence. }
      destruct (IH _ Hj) as [H1 H2]. split; [exact H1|]. rewrite H2. destruct e as [p|r n]; [reflexivity|].
      cbn [step qJoins rels map concat app firsts]. fold (rels l). destruct (assoc r (qJoined s)) eqn:E.
      - assert (X : existsb (streq r) (qJoins s) = true).
        { destruct (existsb (streq r) (qJoins s)) eqn:X; [reflexivity|]. exfalso. assert (Y : ~ In r (qJoins s)) by (rewrite <- existsb_in; congruence).
          apply Hs in Y. congruence. }
        now rewrite X.
      - assert (X : existsb (streq r) (qJoins s) = false).
        { destruct (existsb (streq r) (qJoins s)) eqn:X; [|reflexivity]. exfalso. apply existsb_in in X. apply Hs in E. tauto. }
        rewrite X, <- app_assoc. cbn [app]. do 2 f_equal. apply firsts_ext. intro x. rewrite in_app_iff. cbn. tauto.
    Qed.

    (** ** Lookup *)
    Lemma resolves_iff : forall t x c, dbn t x = Some c <-> resolves fold_eq t x c.
    Proof.
      intros t x c. unfold get_db_name. split.
      - destruct (existsb (streq x) (tByDB t)) eqn:E.
        + intros [= <-]. constructor. now apply existsb_in.
        + assert (NI : ~ In x (tByDB t)) by (rewrite <- existsb_in; congruence).
          destruct (assoc x (tByName t)) eqn:EA; [intros [= <-]; now apply res_field|].
          intro H. assert (K : exists a f b, tFields t = a ++ (f, c) :: b /\ fold_eq f x = true /\ Forall (fun y => fold_eq (fst y) x = false) a).
          { clear -H. induction (tFields t) as [|[f d] l IH]; [discriminate|]. cbn in H. destruct (fold_eq f x) eqn:E.
            - injection H as ->. exists [], f, l. auto.
            - destruct (IH H) as (a & g & b & -> & H1 & H2). exists ((f, d) :: a), g, b. repeat split; auto. }
          destruct K as (a & f & b & H1 & H2 & H3). eapply res_fold; eassumption.
      - intros [Hi|db Hn Ha|a f db b Hn Ha Hf He Hb].
        + apply existsb_in in Hi. now rewrite Hi.
        + destruct (existsb (streq x) (tByDB t)) eqn:E; [apply existsb_in in E; tauto|]. now rewrite Ha.
        + destruct (existsb (streq x) (tByDB t)) eqn:E; [apply existsb_in in E; tauto|]. rewrite Ha, Hf.
          clear -He Hb. induction Hb as [|[g d] a Hg _ IH]; cbn; [now rewrite He|]. cbn in Hg. now rewrite Hg.
    Qed.

    (** ** The events of a successful visit *)
    Definition names_in (L : list node) := filter is_name L.
    Definition lits_in (L : list node) := filter (is_type NValue) L.
    Definition ops_in (L : list node) := map nOperation (filter (is_type NOperation) L).
    Definition refs_in (L : list node) := map (fun m => hd [] (nNames m)) (filter (is_type NReference) L).
    Record summ (L : list node) (F : list (list N)) (l : list event) : Prop := Summ {
      sm_vals : Forall2 (fun m v => value m = Some v /\ go_value m v) (lits_in L) (values (pieces l));
      sm_cols : Forall2 (column fold_eq sch) (names_in L) (columns (pieces l));
      sm_fixed : Forall (fun t => In t sql_fixed \/ exists o, In o (ops_in L) /\ t = normalize_sql o) (fixed (pieces l));
      sm_rels : rels l = refs_in L;
      sm_funs : Forall (eq #"date") F
    }.
    Lemma ops_app : forall a b, ops_in (a ++ b) = ops_in a ++ ops_in b.
    Proof. intros. unfold ops_in. now rewrite filter_app, map_app. Qed.
    Lemma refs_app : forall a b, refs_in (a ++ b) = refs_in a ++ refs_in b.
    Proof. intros. unfold refs_in. now rewrite filter_app, map_app. Qed.
    Lemma summ_app : forall L1 F1 l1 L2 F2 l2, summ L1 F1 l1 -> summ L2 F2 l2 -> summ (L1 ++ L2) (F1 ++ F2) (l1 ++ l2).
    Proof.
      intros L1 F1 l1 L2 F2 l2 [A1 A2 A3 A4 A5] [B1 B2 B3 B4 B5]. constructor.
      - unfold lits_in. rewrite filter_app, pieces_app, values_app. now apply Forall2_app.
      - unfold names_in. rewrite filter_app, pieces_app, columns_app. now apply Forall2_app.
      - rewrite pieces_app, fixed_app, ops_app. apply Forall_app. split.
        + eapply Forall_impl; [|exact A3]. intros t [H|(o & Ho & Ht)]; [now left|right]. exists o. split; [|exact Ht]. apply in_or_app. now left.
        + eapply Forall_impl; [|exact B3]. intros t [H|(o & Ho & Ht)]; [now left|right]. exists o. split; [|exact Ht]. apply in_or_app. now right.
      - now rewrite rels_app, refs_app, A4, B4.
      - now apply Forall_app.
    Qed.
    Lemma summ_text : forall t, In t sql_fixed -> summ [] [] [EvP (PText t)].
    Proof. intros t H. constructor; [constructor|constructor|cbn; constructor; [now left|constructor]|reflexivity|constructor]. Qed.
    Lemma summ_nil : summ [] [] [].
    Proof. constructor; cbn; repeat constructor. Qed.
    (** [r], if it succeeds, has the given leaves and functions *)
    Definition sums (L : list node) (F : list (list N)) (r : evres) : Prop := forall l, r = Some (l, None) -> summ L F l.
    Lemma sums_seq : forall L1 F1 a L2 F2 b, sums L1 F1 a -> sums L2 F2 b -> sums (L1 ++ L2) (F1 ++ F2) (evseq a b).
    Proof.
      intros L1 F1 [[la [ea|]]|] L2 F2 [[lb [eb|]]|] HA HB l H; cbn in H; try discriminate. injection H as <-.
      apply summ_app; [now apply HA|now apply HB].
    Qed.
    Lemma sums_text : forall t, In t sql_fixed -> sums [] [] (evt t).
    Proof. intros t H l [= <-]. now apply summ_text. Qed.
    Lemma sums_pre : forall t L F b, In t sql_fixed -> sums L F b -> sums L F (evseq (evt t) b).
    Proof. intros t L F b Ht Hb. apply (sums_seq [] [] (evt t) L F b); [now apply sums_text|exact Hb]. Qed.
    Lemma sums_always : forall t L F a, In t sql_fixed -> sums L F a -> sums L F (evalways t a).
    Proof.
      intros t L F [[l [e|]]|] Ht Ha k H; cbn in H; try discriminate. injection H as <-. rewrite <- (app_nil_r L), <- (app_nil_r F).
      apply summ_app; [now apply Ha|now apply summ_text].
    Qed.
    Lemma leaf_ev : forall n, safe n -> In (nType n) [NValue; NOperation; NIdentifier; NReference] -> leaves n = [n].
    Proof. intros [ty ? ? ? ? ? ? ? ? ? ? ? ? ? ?] _ H. cbn in H. decompose [or] H; subst; try contradiction; reflexivity. Qed.
    Lemma ev_sums : forall n, safe n -> sums (leaves n) (functions n) (ev n).
    Proof.
      apply (safe_shape_ind (fun n => sums (leaves n) (functions n) (ev n))).
      - intros n v Hn HT Hv Hg. destruct n as [ty vt i b st fl arr op na ns ex le oo ri ps]. cbn [nType] in HT. subst ty.
        cbn [leaves functions ev nType]. rewrite Hv. intros l [= <-]. constructor; cbn; repeat constructor; assumption.
      - intros s l [= <-]. constructor; [constructor|constructor| |reflexivity|constructor].
        cbn [pieces map concat fixed app]. constructor; [|constructor]. right. exists s. cbn. auto.
      - intros x l H. cbn in H. unfold ev_ident in H. destruct (dbn (sTable sch) x) eqn:E; [|discriminate]. injection H as <-.
        constructor; [constructor| |constructor|reflexivity|constructor]. cbn. constructor; [|constructor].
        apply col_ident; [reflexivity|]. now apply resolves_iff.
      - intros xs l H. cbn in H. unfold ev_ref in H. destruct xs as [|r [|f [|? ?]]]; try discriminate.
        destruct (assoc r (sRelations sch)) as [[t|]|] eqn:E; try discriminate. destruct (dbn t f) eqn:E2; [|discriminate]. injection H as <-.
        constructor; [constructor| |constructor|reflexivity|constructor]. cbn. constructor; [|constructor].
        apply (col_ref _ _ (mk_reference [r; f]) r f t); try reflexivity; [exact E|]. now apply resolves_iff.
      - intros l o Hl Ho IHl IHo. cbn [leaves functions ev mk_predicate nType nLeft nOp nRight evp_with].
        apply sums_seq; [exact IHl|]. apply sums_seq; [apply sums_pre; [cbn; tauto|exact IHo]|]. intros k [= <-]. apply summ_nil.
      - intros l o r Hl Ho Hr IHl IHo IHr. cbn [leaves functions ev mk_compare nType nLeft nOp nRight evp_with].
        apply sums_seq; [exact IHl|]. apply sums_seq; [apply sums_pre; [cbn; tauto|exact IHo]|]. apply sums_pre; [cbn; tauto|exact IHr].
      - intros l o r Hl Ho Hr IHl IHo IHr. cbn [leaves functions ev mk_logic nType nLeft nOp nRight evp_with].
        apply sums_seq; [exact IHl|]. apply sums_seq; [apply sums_pre; [cbn; tauto|exact IHo]|]. apply sums_pre; [cbn; tauto|exact IHr].
      - intros e He IH. cbn [leaves functions ev mk_paren nType nExpression evp_with]. apply sums_always; [cbn; tauto|]. apply sums_pre; [cbn; tauto|exact IH].
      - intros e He IH. cbn [leaves functions ev mk_not nType nExpression evp_with]. apply sums_pre; [cbn; tauto|exact IH].
      - intros l o a b Hl Ho Ha Hb _ _ IHl IHo IHa IHb. cbn [leaves functions ev mk_between nType nLeft nOp nParams evp_with map concat].
        apply sums_seq; [exact IHl|]. apply sums_seq; [apply sums_pre; [cbn; tauto|exact IHo]|].
        apply sums_seq; [apply sums_pre; [cbn; tauto|exact IHa]|]. rewrite !app_nil_r. apply sums_pre; [cbn; tauto|exact IHb].
      - intros f ms _ IH. rewrite ev_fun. cbn [leaves functions mk_function nType nName nParams]. rewrite !map_map.
        destruct (streq_spec f #"date") as [->|]; [|intros l H; discriminate].
        assert (K : sums (concat (map leaves ms)) (concat (map functions ms)) (ev_all ms)).
        { induction IH as [|m ms Hm _ IHm]; [intros l [= <-]; apply summ_nil|]. cbn [map concat ev_all]. now apply sums_seq. }
        intros l H. change (evseq (evseq (evt #"date") (evt #"(")) (evseq (ev_all ms) (evt #")")) = Some (l, None)) in H.
        assert (G : sums (concat (map leaves ms)) (concat (map functions ms)) (evseq (evseq (evt #"date") (evt #"(")) (evseq (ev_all ms) (evt #")")))).
        { rewrite <- (app_nil_l (concat (map leaves ms))), <- (app_nil_l (concat (map functions ms))). apply sums_seq.
          - apply sums_pre; [cbn; tauto|]. apply sums_text. cbn. tauto.
          - rewrite <- (app_nil_r (concat (map leaves ms))), <- (app_nil_r (concat (map functions ms))). apply sums_seq; [exact K|]. apply sums_text. cbn. tauto. }
        destruct (G l H) as [G1 G2 G3 G4 G5]. constructor; auto.
    Qed.

    (** ** When it succeeds, and that it does not panic *)
    Definition supported (n : node) : Prop :=
      Forall (fun m => exists c, column fold_eq sch m c) (names n) /\ Forall (eq #"date") (functions n).
    Definition supp (L : list node) (F : list (list N)) : Prop :=
      Forall (fun m => exists c, column fold_eq sch m c) (names_in L) /\ Forall (eq #"date") F.
    Lemma supp_app : forall L1 L2 F1 F2, supp (L1 ++ L2) (F1 ++ F2) <-> supp L1 F1 /\ supp L2 F2.
    Proof. intros. unfold supp, names_in. rewrite filter_app, !Forall_app. tauto. Qed.
    Lemma summ_supp : forall L F l, summ L F l -> supp L F.
    Proof.
      intros L F l [_ H _ _ HF]. split; [|exact HF]. induction H as [|m c L' l' H _ IH]; constructor; eauto.
    Qed.
    (** no panic; success exactly when supported *)
    Definition right_ (L : list node) (F : list (list N)) (r : evres) : Prop := exists l e, r = Some (l, e) /\ (supp L F -> e = None).
    Lemma right_seq : forall L1 F1 a L2 F2 b, right_ L1 F1 a -> right_ L2 F2 b -> right_ (L1 ++ L2) (F1 ++ F2) (evseq a b).
    Proof.
      intros L1 F1 a L2 F2 b (la & ea & -> & Ha) (lb & eb & -> & Hb). destruct ea as [e|]; cbn.
      - exists la, (Some e). split; [reflexivity|]. rewrite supp_app. intros [H _]. now apply Ha.
      - exists (la ++ lb), eb. split; [reflexivity|]. rewrite supp_app. intros [_ H]. now apply Hb.
    Qed.
    Lemma right_text : forall t, right_ [] [] (evt t).
    Proof. intro t. exists [EvP (PText t)], None. auto. Qed.
    Lemma right_pre : forall t L F b, right_ L F b -> right_ L F (evseq (evt t) b).
    Proof. intros t L F b Hb. apply (right_seq [] [] (evt t) L F b); [apply right_text|exact Hb]. Qed.
    Lemma right_always : forall t L F a, right_ L F a -> right_ L F (evalways t a).
    Proof. intros t L F a (l & e & -> & H). exists (l ++ [EvP (PText t)]), e. auto. Qed.
    Lemma ev_right : schema_ok sch -> forall n, safe n -> right_ (leaves n) (functions n) (ev n).
    Proof.
      intro HS. apply (safe_shape_ind (fun n => right_ (leaves n) (functions n) (ev n))).
      - intros n v Hn HT Hv Hg. destruct n as [ty vt i b st fl arr op na ns ex le oo ri ps]. cbn [nType] in HT. subst ty.
        cbn [leaves functions ev nType]. rewrite Hv. eexists _, _. split; [reflexivity|]. auto.
      - intros s. eexists _, _. split; [reflexivity|]. auto.
      - intros x. cbn [leaves functions ev nType mk_ident nName]. unfold ev_ident. destruct (dbn (sTable sch) x) eqn:E.
        + eexists _, _. split; [reflexivity|]. auto.
        + eexists _, _. split; [reflexivity|]. intros [H _]. cbn in H. inversion_clear H as [|? ? H1 _]. destruct H1 as (c & [db _ Hr|r f t db HT _ _ _]); [|discriminate].
          apply resolves_iff in Hr. cbn in Hr. congruence.
      - intros xs. cbn [leaves functions ev nType mk_reference nNames].
        assert (X : supp [mk_reference xs] [] -> exists r f t db, xs = [r; f] /\ assoc r (sRelations sch) = Some (Some t) /\ dbn t f = Some db).
        { intros [H _]. cbn in H. inversion_clear H as [|? ? H1 _]. destruct H1 as (c & [db HT _|r f t db _ HN HA HR]); [discriminate|].
          cbn in HN. exists r, f, t, db. repeat split; auto. now apply resolves_iff. }
        unfold ev_ref. destruct xs as [|r [|f [|? ?]]]; try (eexists _, _; split; [reflexivity|]; intro H; destruct (X H) as (? & ? & ? & ? & HX & _); discriminate).
        destruct (assoc r (sRelations sch)) as [[t|]|] eqn:E.
        + destruct (dbn t f) eqn:E2; eexists _, _; split; try reflexivity; auto. intro H. destruct (X H) as (r' & f' & t' & db & [= <- <-] & H1 & H2). congruence.
        + destruct (HS r E).
        + eexists _, _; split; try reflexivity; auto. intro H. destruct (X H) as (r' & f' & t' & db & [= <- <-] & H1 & H2). congruence.
      - intros l o Hl Ho IHl IHo. cbn [leaves functions ev mk_predicate nType nLeft nOp nRight evp_with].
        apply right_seq; [exact IHl|]. apply right_seq; [apply right_pre; exact IHo|]. eexists _, _. split; [reflexivity|]. auto.
      - intros l o r Hl Ho Hr IHl IHo IHr. cbn [leaves functions ev mk_compare nType nLeft nOp nRight evp_with].
        apply right_seq; [exact IHl|]. apply right_seq; [apply right_pre; exact IHo|]. apply right_pre; exact IHr.
      - intros l o r Hl Ho Hr IHl IHo IHr. cbn [leaves functions ev mk_logic nType nLeft nOp nRight evp_with].
        apply right_seq; [exact IHl|]. apply right_seq; [apply right_pre; exact IHo|]. apply right_pre; exact IHr.
      - intros e He IH. cbn [leaves functions ev mk_paren nType nExpression evp_with]. apply right_always. apply right_pre. exact IH.
      - intros e He IH. cbn [leaves functions ev mk_not nType nExpression evp_with]. apply right_pre. exact IH.
      - intros l o a b Hl Ho Ha Hb _ _ IHl IHo IHa IHb. cbn [leaves functions ev mk_between nType nLeft nOp nParams evp_with map concat].
        apply right_seq; [exact IHl|]. apply right_seq; [apply right_pre; exact IHo|].
        apply right_seq; [apply right_pre; exact IHa|]. rewrite !app_nil_r. apply right_pre. exact IHb.
      - intros f ms _ IH. rewrite ev_fun. cbn [leaves functions mk_function nType nName nParams]. rewrite !map_map.
        destruct (streq_spec f #"date") as [->|Hf].
        2: { eexists _, _. split; [reflexivity|]. intros [_ H]. inversion_clear H. congruence. }
        assert (K : right_ (concat (map leaves ms)) (concat (map functions ms)) (ev_all ms)).
        { induction IH as [|m ms Hm _ IHm]; [eexists _, _; split; [reflexivity|]; auto|]. cbn [map concat ev_all]. now apply right_seq. }
        assert (G : right_ (concat (map leaves ms)) (concat (map functions ms)) (evseq (evseq (evt #"date") (evt #"(")) (evseq (ev_all ms) (evt #")")))).
        { rewrite <- (app_nil_l (concat (map leaves ms))), <- (app_nil_l (concat (map functions ms))). apply right_seq.
          - apply right_pre. apply right_text.
          - rewrite <- (app_nil_r (concat (map leaves ms))), <- (app_nil_r (concat (map functions ms))). apply right_seq; [exact K|]. apply right_text. }
        destruct G as (l & e & -> & HG). exists l, e. split; [reflexivity|]. intros [H1 H2]. apply HG. split; [exact H1|]. now inversion_clear H2.
    Qed.
  End Sch.
End GP.
