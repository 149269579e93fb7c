(** Facts about gormq at the level of WireMiniQuery (C26-C36). *)
From Verif Require Import Base Peg Node Vocab Tree Parse Syntax Blank ParseProofs NormProofs Unique ParserFacts ParserFacts2 ParserMain Build BuildProofs NodeFacts SafeInd
  Gorm GormSpec GormProofs.
Require Import Arith.
Strategy expand [parse_machine rule_trace].
Strategy 1000 [parse_fuel mrun tok_trace].

Section GF.
  Variable fold_eq : list N -> list N -> bool.
  Variable quote : list N -> list N.
  Variable lo : N -> N.
  Notation wire := (wire_mini_query fold_eq quote lo).
  Notation ev := (ev fold_eq).
  Notation visit := (visit fold_eq quote).

  Lemma known_schema : forall d, (exists sch, schema_of d = Some sch /\ get_or_parse_schema d = (inl sch, with_schema sch d)) \/
    (schema_of d = None /\ exists e, get_or_parse_schema d = (inr e, d) /\ (e = GMissingModel \/ e = GParseModel)).
  Proof.
    intros [sc mo js ws es]. unfold schema_of, get_or_parse_schema. cbn. destruct sc as [s|]; [left; exists s; auto|].
    destruct mo as [[s|]|]; [left; exists s; auto|right|right]; eauto 6.
  Qed.
  Definition start : qst := QS [] [] [] [].
  Lemma start_inv : jinv start.
  Proof. intro r. cbn. tauto. Qed.
  (** what a successful or failing visit does to the db *)
  Definition after (sch : schema) (d : gdb) (l : list event) (e : option gerr) : gdb :=
    let d1 := add_joins (firsts [] (rels l)) (with_schema sch d) in
    match e with None => add_where (sql_text quote (pieces l), values (pieces l)) d1 | Some x => add_err x d1 end.
  Lemma wire_ev : forall d q n sch, q <> [] -> safe n -> parse lo q = Ok (Some n) -> schema_of d = Some sch ->
    wire d q = match ev sch n with None => None | Some (l, e) => Some (after sch d l e) end.
  Proof.
    intros d q n sch Hq Hn Hp Hs. unfold wire_mini_query. destruct q as [|c q]; [congruence|]. rewrite Hp.
    destruct (known_schema d) as [(s & Hs' & ->)|[Hs' _]]; [|congruence]. rewrite Hs in Hs'. injection Hs' as <-.
    rewrite (visit_ev fold_eq quote sch n Hn). change (QS [] [] [] []) with start.
    destruct (ev sch n) as [[l [e|]]|]; [| |reflexivity]; cbn [out]; unfold after.
    - destruct (run_joins fold_eq quote l start start_inv) as [_ ->]. reflexivity.
    - destruct (run_joins fold_eq quote l start start_inv) as [_ ->]. now rewrite run_buf, run_vals.
  Qed.
  Lemma parse_nonempty : forall q n, parse lo q = Ok n -> q <> [].
  Proof. intros q n H ->. vm_compute in H. discriminate. Qed.

  (** ** C29, C34 *)
  Lemma wire_cases : forall d q, valid_runes q ->
    (q = [] /\ wire d q = Some d) \/
    (exists e, q <> [] /\ parse lo q = Err e /\ wire d q = Some (add_err (GSyntax e) d)) \/
    (exists n e, q <> [] /\ parse lo q = Ok (Some n) /\ schema_of d = None /\ (e = GMissingModel \/ e = GParseModel) /\ wire d q = Some (add_err e d)) \/
    (exists n sch, q <> [] /\ parse lo q = Ok (Some n) /\ safe n /\ schema_of d = Some sch /\
       wire d q = match ev sch n with None => None | Some (l, e) => Some (after sch d l e) end).
  Proof.
    intros d q Hq. destruct q as [|c q']; [now left|]. set (q := c :: q') in *. assert (Hne : q <> []) by discriminate. right.
    destruct (parse_total lo q Hq) as [(n & Hn)|(e & He)].
    - right. destruct (known_schema d) as [(sch & Hs & Hg)|(Hs & e & Hg & He)].
      + right. exists n, sch. pose proof (parse_safe lo q n Hq Hn) as HS. refine (conj Hne (conj Hn (conj HS (conj Hs _)))). now apply wire_ev.
      + left. exists n, e. refine (conj Hne (conj Hn (conj Hs (conj He _)))). unfold wire_mini_query, q. fold q. now rewrite Hn, Hg.
    - left. exists e. refine (conj Hne (conj He _)). unfold wire_mini_query, q. fold q. now rewrite He.
  Qed.
  Lemma db_schema_ok : forall d sch, db_ok d -> schema_of d = Some sch -> schema_ok sch.
  Proof.
    intros [sc mo js ws es] sch [H1 H2] H. unfold schema_of in H. cbn in *. destruct sc; [injection H as <-; now apply H1|].
    destruct mo as [[s|]|]; try discriminate. injection H as <-. now apply H2.
  Qed.
  Lemma wire_total : forall d q, valid_runes q -> db_ok d -> exists d', wire d q = Some d'.
  Proof.
    intros d q Hq Hd. destruct (wire_cases d q Hq) as [[-> H]|[(e & _ & _ & H)|[(n & e & _ & _ & _ & _ & H)|(n & sch & _ & _ & HS & Hs & H)]]]; eauto.
    destruct (ev_right fold_eq quote sch (db_schema_ok d sch Hd Hs) n HS) as (l & e & E & _). rewrite E in H. eauto.
  Qed.
  Lemma wire_all_or_nothing : forall d q d', valid_runes q -> wire d q = Some d' ->
    (q = [] /\ d' = d) \/
    (q <> [] /\ (exists js, dJoins d' = dJoins d ++ js) /\
      ((exists w, dWheres d' = dWheres d ++ [w] /\ dErrors d' = dErrors d) \/
       (exists e, dWheres d' = dWheres d /\ dErrors d' = dErrors d ++ [e]))).
  Proof.
    intros d q d' Hq H. destruct (wire_cases d q Hq) as [[-> K]|[(e & Hn & _ & K)|[(n & e & Hn & _ & _ & _ & K)|(n & sch & Hn & _ & HS & Hs & K)]]];
      rewrite K in H.
    - left. split; congruence.
    - injection H as <-. right. split; [exact Hn|]. split; [exists []; cbn; now rewrite app_nil_r|]. right. exists (GSyntax e). auto.
    - injection H as <-. right. split; [exact Hn|]. split; [exists []; cbn; now rewrite app_nil_r|]. right. exists e. auto.
    - destruct (ev sch n) as [[l [e|]]|]; [| |discriminate]; injection H as <-; right; (split; [exact Hn|]); (split; [eexists; reflexivity|]).
      + right. exists e. auto.
      + left. eexists. split; reflexivity.
  Qed.

  (** ** C26, C27, C30, C31 *)
  Definition succeeded (d d' : gdb) : Prop := dErrors d' = dErrors d.
  Lemma app_neq : forall A (l : list A) x, l ++ [x] <> l.
  Proof. intros A l x H. rewrite <- (app_nil_r l) in H at 2. apply app_inv_head in H. discriminate. Qed.
  Lemma wire_ok : forall d q n d', valid_runes q -> parse lo q = Ok (Some n) -> wire d q = Some d' -> succeeded d d' ->
    exists sch l, schema_of d = Some sch /\ safe n /\ ev sch n = Some (l, None) /\ d' = after sch d l None /\ summ fold_eq sch (leaves n) (functions n) l.
  Proof.
    intros d q n d' Hq Hp H Hs.
    destruct (wire_cases d q Hq) as [[-> K]|[(e & Hn & Hp' & K)|[(n' & e & Hn & _ & _ & _ & K)|(n' & sch & Hn & Hp' & HS & Hsc & K)]]].
    - exfalso. apply parse_nonempty in Hp. congruence.
    - congruence.
    - exfalso. rewrite K in H. injection H as <-. unfold succeeded in Hs. cbn in Hs. now apply app_neq in Hs.
    - rewrite Hp in Hp'. injection Hp' as <-. rewrite K in H. destruct (ev sch n) as [[l [e|]]|] eqn:E; [| |discriminate].
      + exfalso. injection H as <-. unfold succeeded in Hs. cbn in Hs. now apply app_neq in Hs.
      + injection H as <-. exists sch, l. refine (conj Hsc (conj HS (conj E (conj eq_refl _)))). exact (ev_sums fold_eq quote sch n HS l E).
  Qed.
  Lemma wire_pieces : forall d q n d', valid_runes q -> parse lo q = Ok (Some n) -> wire d q = Some d' -> succeeded d d' ->
    exists sch ps, schema_of d = Some sch /\ dWheres d' = dWheres d ++ [(sql_text quote ps, values ps)] /\
      Forall2 go_value (literals n) (values ps) /\ Forall2 (column fold_eq sch) (names n) (columns ps) /\
      Forall (fun t => In t sql_fixed \/ exists o, In o (operations n) /\ t = normalize_sql o) (fixed ps).
  Proof.
    intros d q n d' Hq Hp H Hs. destruct (wire_ok d q n d' Hq Hp H Hs) as (sch & l & H1 & H2 & H3 & -> & [S1 S2 S3 S4 S5]).
    exists sch, (pieces l). split; [exact H1|]. split; [reflexivity|]. repeat split; auto.
    change (literals n) with (lits_in (leaves n)). revert S1. generalize (lits_in (leaves n)) (values (pieces l)). induction 1 as [|m v a b [_ Hv] _ IH]; constructor; auto.
  Qed.
  Lemma leaf_reach : forall n, safe n -> forall m, In m (leaves n) -> reach n m.
  Proof.
    assert (X : forall n k m, In (Some k) (children n) -> reach k m -> reach n m) by (intros; eapply reach_step; eassumption).
    apply (safe_shape_ind (fun n => forall m, In m (leaves n) -> reach n m)).
    - intros n v Hn HT _ _ m Hm. rewrite leaf_ev in Hm; [|exact Hn|rewrite HT; cbn; auto]. destruct Hm as [<-|[]]. constructor.
    - intros s m [<-|[]]. constructor.
    - intros s m [<-|[]]. constructor.
    - intros s m [<-|[]]. constructor.
    - intros l o _ _ IHl IHo m Hm. cbn [leaves mk_predicate nType nLeft nOp nRight] in Hm. rewrite app_nil_r in Hm. apply in_app_iff in Hm as [Hm|Hm];
        [apply (X _ l)|apply (X _ o)]; auto; cbn; auto.
    - intros l o r _ _ _ IHl IHo IHr m Hm. cbn [leaves mk_compare nType nLeft nOp nRight] in Hm. rewrite !in_app_iff in Hm. destruct Hm as [Hm|[Hm|Hm]];
        [apply (X _ l)|apply (X _ o)|apply (X _ r)]; auto; cbn; auto.
    - intros l o r _ _ _ IHl IHo IHr m Hm. cbn [leaves mk_logic nType nLeft nOp nRight] in Hm. rewrite !in_app_iff in Hm. destruct Hm as [Hm|[Hm|Hm]];
        [apply (X _ l)|apply (X _ o)|apply (X _ r)]; auto; cbn; auto.
    - intros e _ IH m Hm. apply (X _ e); auto. cbn. auto.
    - intros e _ IH m Hm. apply (X _ e); auto. cbn. auto.
    - intros l o a b _ _ _ _ _ _ IHl IHo IHa IHb m Hm. cbn [leaves mk_between nType nLeft nOp nParams map concat] in Hm. rewrite !in_app_iff in Hm.
      destruct Hm as [Hm|[Hm|[Hm|[Hm|[]]]]]; [apply (X _ l)|apply (X _ o)|apply (X _ a)|apply (X _ b)]; auto; cbn; auto 7.
    - intros f ms _ IH m Hm. cbn [leaves mk_function nType nParams] in Hm. rewrite map_map in Hm. apply in_concat in Hm as (ls & H1 & H2).
      apply in_map_iff in H1 as (k & <- & Hk). rewrite Forall_forall in IH. apply (X _ k); [|now apply IH]. cbn. do 4 right. now apply in_map.
  Qed.
  Lemma sql_vocab : forall o, In o vocabulary -> In (normalize_sql o) sql_operators.
  Proof. intros o H. cbn [In vocabulary] in H. repeat (destruct H as [<-|H]; [vm_compute; tauto|]). destruct H. Qed.
  Lemma ops_vocab : forall q n o, valid_runes q -> parse lo q = Ok (Some n) -> marker_free q -> In o (operations n) -> In o vocabulary.
  Proof.
    intros q n o Hq Hp Hm Ho. unfold operations in Ho. apply in_map_iff in Ho as (m & <- & Hm'). apply filter_In in Hm' as [Hl Ht].
    eapply (parse_vocab lo q n m); eauto.
    - apply leaf_reach; [eapply parse_safe; eassumption|exact Hl].
  Qed.
End GF.
