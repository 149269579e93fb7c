(** Which error a back end reports (C68-C70). *)
From Verif Require Import Base Peg Node Vocab Tree Parse Syntax ParseProofs NormProofs Unique ParserFacts ParserFacts2 ParserMain Build BuildProofs NodeFacts SafeInd
  Gorm GormSpec GormProofs GormFacts GormFacts2 GormFacts3 GormFacts4 EntSQL EntSQLSpec EntSQLProofs EntSQLFacts EntQL BlameSpec.
Require Import Arith.
Strategy expand [parse_machine rule_trace].
Strategy 1000 [parse_fuel mrun tok_trace].

Section GB.
  Variable fold_eq : list N -> list N -> bool.
  Variable quote : list N -> list N.
  Variable lo : N -> N.
  Section Sch.
    Variable sch : schema.
    Notation ev := (ev fold_eq sch).
    Notation fault := (gorm_fault fold_eq sch).
    Definition blame (r : evres) (cs : list node) : Prop :=
      (exists l, r = Some (l, None) /\ rels l = referred cs /\ none_of fault cs) \/
      (exists l e before, r = Some (l, Some e) /\ rels l = referred before /\ first_of fault cs before e).
    Lemma referred_app : forall a b, referred (a ++ b) = referred a ++ referred b.
    Proof. intros. unfold referred. now rewrite filter_app, map_app. Qed.
    Lemma blame_seq : forall r r' cs cs', blame r cs -> blame r' cs' -> blame (evseq r r') (cs ++ cs').
    Proof.
      intros r r' cs cs' [(l & -> & R & F)|(l & e & bf & -> & R & m & af & -> & Fm & Fb)] H'.
      - destruct H' as [(l' & -> & R' & F')|(l' & e & bf & -> & R' & m & af & -> & Fm & Fb)].
        + left. exists (l ++ l'). cbn [evseq]. split; [reflexivity|]. split; [now rewrite rels_app, R, R', referred_app|]. now apply Forall_app.
        + right. exists (l ++ l'), e, (cs ++ bf). cbn [evseq]. split; [reflexivity|]. split; [now rewrite rels_app, R, R', referred_app|].
          exists m, af. split; [now rewrite app_assoc|]. split; [exact Fm|]. now apply Forall_app.
      - right. exists l, e, bf. cbn [evseq]. split; [reflexivity|]. split; [exact R|]. exists m, (af ++ cs'). split; [now rewrite <- app_assoc|]. auto.
    Qed.
    Lemma blame_text : forall t, blame (evt t) [].
    Proof. intro t. left. exists [EvP (PText t)]. split; [reflexivity|]. split; [reflexivity|constructor]. Qed.
    Lemma blame_none : blame (Some ([], None)) [].
    Proof. left. exists []. split; [reflexivity|]. split; [reflexivity|constructor]. Qed.
    Lemma blame_always : forall t r cs, blame r cs -> blame (evalways t r) cs.
    Proof.
      intros t r cs [(l & -> & R & F)|(l & e & bf & -> & R & F)]; [left|right]; cbn [evalways].
      - eexists. split; [reflexivity|]. split; [|exact F]. rewrite rels_app, R. apply app_nil_r.
      - eexists _, e, bf. split; [reflexivity|]. split; [|exact F]. rewrite rels_app, R. apply app_nil_r.
    Qed.
    Lemma blame_here : forall e m cs, fault m e -> blame (Some ([], Some e)) (m :: cs).
    Proof. intros e m cs F. right. exists [], e, []. split; [reflexivity|]. split; [reflexivity|]. exists m, cs. auto. Qed.
    Lemma ev_blame : schema_ok sch -> forall n, safe n -> blame (ev n) (constructs n).
    Proof.
      intro OK. apply (safe_shape_ind (fun n => blame (ev n) (constructs n))).
      - intros n v Hn HT Hv G. destruct n as [ty vt i b st fl arr op na ns ex le oo ri ps]. cbn [nType] in HT. subst ty. cbn [GormProofs.ev constructs nType].
        rewrite Hv. left. eexists. split; [reflexivity|]. split; [reflexivity|]. constructor; [|constructor]. intros e F. inversion F.
      - intros s. cbn [GormProofs.ev constructs nType mk_op]. left. eexists. split; [reflexivity|]. split; [reflexivity|]. constructor; [|constructor]. intros e F. inversion F.
      - intros x. cbn [GormProofs.ev constructs nType mk_ident nName]. unfold ev_ident. destruct (get_db_name fold_eq (sTable sch) x) as [c|] eqn:E.
        + left. eexists. split; [reflexivity|]. split; [reflexivity|]. constructor; [|constructor]. intros e F. inversion F as [x' H| | | |]; subst.
          apply (H c). now apply lookup_spec.
        + apply blame_here. constructor. intros c R. apply lookup_spec in R. congruence.
      - intros xs. cbn [GormProofs.ev constructs nType mk_reference nNames]. unfold ev_ref. destruct xs as [|r [|x [|y xs]]].
        + apply blame_here. constructor. cbn. lia.
        + apply blame_here. constructor. cbn. lia.
        + destruct (assoc r (sRelations sch)) as [[t|]|] eqn:E.
          * destruct (get_db_name fold_eq t x) as [c|] eqn:E2.
            -- left. eexists. split; [reflexivity|]. split; [reflexivity|]. constructor; [|constructor]. intros e F. inversion F as [|xs H|r' x' H|r' x' t' H1 H2|]; subst.
               ++ now apply H.
               ++ congruence.
               ++ rewrite E in H1. injection H1 as <-. apply (H2 c). now apply lookup_spec.
            -- apply blame_here. eapply gf_rel_field; [exact E|]. intros c R. apply lookup_spec in R. congruence.
          * destruct (OK r E).
          * apply blame_here. now constructor.
        + apply blame_here. constructor. cbn. lia.
      - intros l o Hl Ho IHl IHo. cbn [GormProofs.ev constructs mk_predicate nType nLeft nOp nRight evp_with].
        apply blame_seq; [exact IHl|]. apply blame_seq; [|exact blame_none]. change (constructs o) with ([] ++ constructs o). apply blame_seq; [apply blame_text|exact IHo].
      - intros l o r Hl Ho Hr IHl IHo IHr. cbn [GormProofs.ev constructs mk_compare nType nLeft nOp nRight evp_with].
        apply blame_seq; [exact IHl|]. apply blame_seq; [change (constructs o) with ([] ++ constructs o); apply blame_seq; [apply blame_text|exact IHo]|].
        change (constructs r) with ([] ++ constructs r). apply blame_seq; [apply blame_text|exact IHr].
      - intros l o r Hl Ho Hr IHl IHo IHr. cbn [GormProofs.ev constructs mk_logic nType nLeft nOp nRight evp_with].
        apply blame_seq; [exact IHl|]. apply blame_seq; [change (constructs o) with ([] ++ constructs o); apply blame_seq; [apply blame_text|exact IHo]|].
        change (constructs r) with ([] ++ constructs r). apply blame_seq; [apply blame_text|exact IHr].
      - intros e He IH. cbn [GormProofs.ev constructs mk_paren nType nExpression evp_with]. apply blame_always. change (constructs e) with ([] ++ constructs e).
        apply blame_seq; [apply blame_text|exact IH].
      - intros e He IH. cbn [GormProofs.ev constructs mk_not nType nExpression evp_with]. change (constructs e) with ([] ++ constructs e).
        apply blame_seq; [apply blame_text|exact IH].
      - intros l o a b Hl Ho Ha Hb _ _ IHl IHo IHa IHb. cbn [GormProofs.ev constructs mk_between nType nLeft nOp nParams evp_with map concat].
        rewrite app_nil_r. apply blame_seq; [exact IHl|]. apply blame_seq; [change (constructs o) with ([] ++ constructs o); apply blame_seq; [apply blame_text|exact IHo]|].
        apply blame_seq; [change (constructs a) with ([] ++ constructs a); apply blame_seq; [apply blame_text|exact IHa]|].
        change (constructs b) with ([] ++ constructs b). apply blame_seq; [apply blame_text|exact IHb].
      - intros f ms _ IH. rewrite ev_fun. cbn [constructs mk_function nType nParams]. fold (mk_function f (map Some ms)).
        destruct (streq_spec f #"date") as [->|Hf]; [|apply blame_here; now constructor].
        assert (K : blame (ev_all fold_eq sch ms) (concat (map (fun p => match p with Some m => constructs m | None => [] end) (map Some ms)))).
        { induction IH as [|m ms Hm _ IHm]; [exact blame_none|]. cbn [map concat ev_all]. now apply blame_seq. }
        assert (D : forall e, ~ fault (mk_function #"date" (map Some ms)) e) by (intros e F; inversion F as [| | | |f ps Hf]; subst; now apply Hf).
        match goal with |- blame _ (?m :: ?cs) => change (m :: cs) with ([m] ++ cs) end. apply blame_seq.
        + rewrite <- (app_nil_r [_]). apply blame_seq; [|apply blame_text]. left. eexists. split; [reflexivity|]. split; [reflexivity|]. constructor; [exact D|constructor].
        + rewrite <- (app_nil_r (concat _)). apply blame_seq; [exact K|apply blame_text].
    Qed.
    Lemma first_unique : forall (A E : Type) (P : A -> E -> Prop), (forall m e e', P m e -> P m e' -> e = e') -> forall l b b' e e',
      first_of P l b e -> first_of P l b' e' -> b = b' /\ e = e'.
    Proof.
      intros A E P HP. induction l as [|x l IH]; intros b b' e e' (m & a & H & F & N) (m' & a' & H' & F' & N').
      - destruct b; discriminate H.
      - destruct b as [|y b]; destruct b' as [|y' b']; cbn [app] in H, H'.
        + injection H as <- <-. injection H' as <- _. split; [reflexivity|]. eapply HP; eassumption.
        + exfalso. injection H as <- <-. injection H' as <- _. inversion N' as [|? ? K _]; subst. now apply (K e).
        + exfalso. injection H as <- _. injection H' as <- <-. inversion N as [|? ? K _]; subst. now apply (K e').
        + injection H as <- H. injection H' as <- H'. inversion N; inversion N'; subst.
          destruct (IH b b' e e') as [-> ->]; [exists m, a; auto|exists m', a'; auto|auto].
    Qed.
    Lemma none_first : forall (A E : Type) (P : A -> E -> Prop) l b e, none_of P l -> first_of P l b e -> False.
    Proof. intros A E P l b e H (m & a & -> & F & _). apply Forall_app in H as [_ H]. inversion H as [|? ? K _]; subst. now apply (K e). Qed.
    Lemma gorm_fault_fun : forall m e e', fault m e -> fault m e' -> e = e'.
    Proof.
      intros m e e' F F'. inversion F; subst; inversion F'; subst; try reflexivity; cbn in *; try congruence; try lia.
    Qed.
  End Sch.
  Notation wire := (wire_mini_query fold_eq quote lo).
  Lemma wire_blame : forall d q n sch, valid_runes q -> parse lo q = Ok (Some n) -> schema_of d = Some sch -> schema_ok sch ->
    (none_of (gorm_fault fold_eq sch) (constructs n) /\ exists d', wire d q = Some d' /\ dErrors d' = dErrors d) \/
    (exists before e, first_of (gorm_fault fold_eq sch) (constructs n) before e /\
       wire d q = Some (add_err e (add_joins (firsts [] (referred before)) (with_schema sch d)))).
  Proof.
    intros d q n sch Hq Hp Hs OK. pose proof (parse_safe lo q n Hq Hp) as HS. rewrite (wire_ev fold_eq quote lo d q n sch (parse_nonempty lo q _ Hp) HS Hp Hs).
    destruct (ev_blame sch OK n HS) as [(l & -> & R & F)|(l & e & bf & -> & R & F)].
    - left. split; [exact F|]. eexists. split; [reflexivity|]. reflexivity.
    - right. exists bf, e. split; [exact F|]. unfold after. now rewrite R.
  Qed.
  Lemma wire_error : forall d q n sch e, valid_runes q -> parse lo q = Ok (Some n) -> schema_of d = Some sch -> schema_ok sch ->
    ((exists d', wire d q = Some d' /\ dErrors d' = dErrors d ++ [e]) <-> exists before, first_of (gorm_fault fold_eq sch) (constructs n) before e).
  Proof.
    intros d q n sch e Hq Hp Hs OK. destruct (wire_blame d q n sch Hq Hp Hs OK) as [(F & d' & H & E)|(bf & e' & F & H)]; rewrite H; clear H Hp; split.
    - intros (x & [= <-] & K). rewrite E in K. symmetry in K. now apply app_neq in K.
    - intros (bf & K). destruct (none_first _ _ _ _ _ _ F K).
    - intros (x & [= <-] & K). cbn in K. apply app_inv_head in K. injection K as <-. eauto.
    - intros (b2 & K). destruct (first_unique _ _ _ (gorm_fault_fun sch) _ _ _ _ _ F K) as [_ ->]. eexists. split; reflexivity.
  Qed.
End GB.

Section SB.
  Variable lo : N -> N.
  Variable ident_sql : list N -> list N -> list N.
  Variable edge_sql : bool -> list N -> gnode -> gspec -> gnode -> option (list N * list N).
  Variable heap : nat -> gnode.
  Notation visit := (svisit ident_sql edge_sql heap).
  Notation fault := (sql_fault heap).
  Notation grows := (grows).
  Notation query := (query lo ident_sql edge_sql heap).

  Definition verdict (c : option nat) (n : node) (e : option serr) : Prop :=
    match e with None => none_of (fault c) (examined n) | Some e => exists before, first_of (fault c) (examined n) before e end.
  Definition blames (d : list N) (dis : bool) (c : option nat) (n : node) : Prop :=
    panics d (fun b => visit dis c n (ST b None)) \/
    (exists e es, grows d (fun b => visit dis c n (ST b None)) e es /\ verdict c n e /\ (edgeless n -> es = [])).
  Lemma edgeless_sub : forall n m, (forall k, visits m k -> visits n k) -> edgeless n -> edgeless m.
  Proof. intros n m H E ps V. apply (E ps). auto. Qed.
  Lemma none_here : forall c n, examined n = [n] -> (forall x, ~ fault c n x) -> verdict c n None.
  Proof. intros c n E H. cbn [verdict]. unfold none_of. rewrite E. constructor; [exact H|constructor]. Qed.
  Lemma first_here : forall c n r e, examined n = n :: r -> fault c n e -> verdict c n (Some e).
  Proof. intros c n r e E F. exists [], n, r. split; [exact E|]. split; [exact F|constructor]. Qed.
  Lemma blames_fails : forall d dis c n r e, (forall b, bDialect b = d -> visit dis c n (ST b None) = Some (ST b None, Some e)) ->
    examined n = n :: r -> fault c n e -> blames d dis c n.
  Proof.
    intros d dis c n r e H E F. right. exists (Some e), []. split; [|split; [now apply (first_here c n r)|reflexivity]]. intros b Hb. exists [], [].
    rewrite (H b Hb). now rewrite join_nil.
  Qed.
  Lemma blames_emits : forall d dis c n ps, EntSQLSpec.emits edge_sql heap d dis c n ps -> verdict c n None -> blames d dis c n.
  Proof. intros d dis c n ps H V. right. exists None, []. split; [exact (emits_grows ident_sql edge_sql heap d dis c n ps H)|]. auto. Qed.
  Lemma verdict_same : forall c n m e, examined n = examined m -> verdict c m e -> verdict c n e.
  Proof. intros c n m e E. unfold verdict. now rewrite E. Qed.
  Lemma verdict_after : forall c n m e, examined n = n :: examined m -> (forall x, ~ fault c n x) -> verdict c m e -> verdict c n e.
  Proof.
    intros c n m e E H V. unfold verdict in *. rewrite E. destruct e as [e|].
    - destruct V as (b & k & a & K & F & N). exists (n :: b), k, a. split; [cbn; now rewrite K|]. split; [exact F|]. now constructor.
    - now constructor.
  Qed.
  Lemma verdict_left : forall c n l r e, examined n = n :: examined l ++ examined r -> (forall x, ~ fault c n x) -> verdict c l (Some e) -> verdict c n (Some e).
  Proof.
    intros c n l r e E H (b & k & a & K & F & N). exists (n :: b), k, (a ++ examined r). split; [rewrite E, K; cbn; now rewrite <- app_assoc|].
    split; [exact F|]. now constructor.
  Qed.
  Lemma verdict_right : forall c n l r e, examined n = n :: examined l ++ examined r -> (forall x, ~ fault c n x) -> verdict c l None -> verdict c r e -> verdict c n e.
  Proof.
    intros c n l r e E H VL VR. unfold verdict in *. rewrite E. destruct e as [e|].
    - destruct VR as (b & k & a & K & F & N). exists (n :: examined l ++ b), k, a. split; [cbn; rewrite K; now rewrite <- app_assoc|].
      split; [exact F|]. constructor; [exact H|]. now apply Forall_app.
    - constructor; [exact H|]. now apply Forall_app.
  Qed.

  Lemma infix_blames : forall d dis c l k r (mk : option node -> option node -> option node -> node), (mk = mk_compare \/ mk = mk_logic) ->
    blames d dis c l -> blames d dis c r -> blames d dis c (mk (Some l) (Some k) (Some r)).
  Proof.
    intros d dis c l k r mk Hmk Hl Hr.
    assert (VL : forall m, visits l m -> visits (mk (Some l) (Some k) (Some r)) m) by (intros m H; destruct Hmk as [-> | ->]; now constructor).
    assert (VR : forall m, visits r m -> visits (mk (Some l) (Some k) (Some r)) m) by (intros m H; destruct Hmk as [-> | ->]; [now apply vis_cmp_r|now apply vis_logic_r]).
    assert (UN : ~ In (nOperation k) (map fst infix_words) -> fault c (mk (Some l) (Some k) (Some r)) (SOp (nOperation k))) by (intros H; destruct Hmk as [-> | ->]; now constructor).
    assert (FI : In (nOperation k) (map fst infix_words) -> forall x, ~ fault c (mk (Some l) (Some k) (Some r)) x).
    { intros H x F. destruct Hmk as [-> | ->]; inversion F; subst; contradiction. }
    assert (EX : examined (mk (Some l) (Some k) (Some r)) = mk (Some l) (Some k) (Some r) :: examined l ++ examined r) by (destruct Hmk as [-> | ->]; reflexivity).
    set (n := mk (Some l) (Some k) (Some r)) in *.
    assert (EV : forall b, visit dis c n (ST b None) = match visit dis c l (ST b None), Some k with
      | Some (s, e), Some o =>
          match assoc (nOperation o) entsql_ops with
          | Some op => unless_err (Some (emit (write_op op) s, e)) (visit dis c r)
          | None =>
              if streq (nOperation o) #"not like" || streq (nOperation o) #"and" || streq (nOperation o) #"or"
              then unless_err (Some (emit (fun b => pad (write (to_upper (nOperation o)) (pad b))) s, e)) (visit dis c r)
              else Some (s, Some (SOp (nOperation o)))
          end
      | _, _ => None
      end) by (intro b; subst n; destruct Hmk as [-> | ->]; reflexivity).
    clearbody n.
    destruct Hl as [Hp|(e & es & G & R & L)].
    { left. intros b Hb. now rewrite EV, (Hp b Hb). }
    destruct (in_dec (list_eq_dec N.eq_dec) (nOperation k) (map fst infix_words)) as [HK|HK].
    - specialize (FI HK).
      assert (T : exists t, exists g : sst -> sst, (forall b, g (ST b None) = ST (join t [] [] b) None) /\ In (nOperation k, t) infix_words /\
        (forall b, visit dis c n (ST b None) = unless_err (always (visit dis c l (ST b None)) g) (visit dis c r))).
      { apply in_map_iff in HK as ((o & w) & E & HK). cbn [fst] in E. subst o. exists w. destruct (infix_cases _ _ HK) as [(p & E1 & E2)|(E1 & E2 & E3)].
        - exists (emit (write_op p)). split; [intro b; cbn; now rewrite join_op, E2|]. split; [exact HK|]. intro b. rewrite EV.
          destruct (visit dis c l (ST b None)) as [[s e']|]; [|reflexivity]. now rewrite E1.
        - exists (emit (fun b => pad (write (to_upper (nOperation k)) (pad b)))). split; [|split; [exact HK|]].
          + intro b. cbn. unfold pad. rewrite !join_write, !join_join, E3, ?app_nil_r, <- ?app_assoc. reflexivity.
          + intro b. rewrite EV. destruct (visit dis c l (ST b None)) as [[s e']|]; [|reflexivity]. now rewrite E1, E2. }
      destruct T as (t & g & Hg & HW & E). pose proof (grows_write d _ e es t g Hg G) as G'. destruct e as [e|].
      + right. exists (Some e), es. split; [intros b Hb; cbv beta; rewrite E; exact (grows_stop d _ e es _ G' b Hb)|].
        split; [now apply (verdict_left c n l r e EX)|]. intro H. apply L. now apply (edgeless_sub n).
      + destruct Hr as [Hp|(e2 & es2 & G2 & R2 & L2)].
        * left. intros b Hb; rewrite E; exact (panics_then d _ es _ G' Hp b Hb).
        * right. exists e2, (es ++ es2). split; [intros b Hb; cbv beta; rewrite E; exact (grows_then d _ es e2 es2 _ G' G2 b Hb)|].
          split; [now apply (verdict_right c n l r e2 EX)|]. intro H. rewrite L, L2; [reflexivity| |]; now apply (edgeless_sub n).
    - right. exists (Some (SOp (nOperation k))), es. split; [|split; [apply (first_here c n _ _ EX); now apply UN|intro H; apply L; now apply (edgeless_sub n)]].
      intros b Hb. destruct (G b Hb) as (t & a & E). exists t, a. cbv beta. rewrite EV, E.
      rewrite infix_known in HK. destruct (assoc (nOperation k) entsql_ops) as [p|] eqn:EA; [exfalso; apply HK; left; discriminate|].
      destruct (streq (nOperation k) #"not like" || streq (nOperation k) #"and" || streq (nOperation k) #"or"); [exfalso; apply HK; now right|reflexivity].
  Qed.
  Lemma visit_blames : forall d dis n, safe n -> forall c, blames d dis c n.
  Proof.
    intros d dis. apply (safe_shape_ind (fun n => forall c, blames d dis c n)).
    - intros n v _ HT _ G c. destruct (value_emits edge_sql heap d dis c n v G) as (ps & H). apply (blames_emits d dis c n ps H).
      apply none_here; [inversion G; reflexivity|]. intros x F. inversion G; subst; inversion F.
    - intros o c. apply (blames_fails _ _ _ _ [] (SOpNode o)); [reflexivity|reflexivity|constructor].
    - intros x c. apply (blames_emits _ _ _ _ [SName x]); [constructor|]. apply none_here; [reflexivity|]. intros e F. inversion F.
    - intros ns c. apply (blames_fails _ _ _ _ [] (SType NReference)); [reflexivity|reflexivity|constructor].
    - intros l o _ _ IH _ c. destruct (assoc (nOperation o) entsql_ops) as [p|] eqn:EA.
      + assert (E : forall b, visit dis c (mk_predicate (Some l) (Some o)) (ST b None) = always (visit dis c l (ST b None)) (emit (write_op p))).
        { intro b. cbn [svisit mk_predicate nType nLeft nOp]. now rewrite EA. }
        destruct (IH c) as [Hp|(e & es & G & R & L)].
        * left. intros b Hb; rewrite E, (Hp b Hb); reflexivity.
        * right. exists e, es. split; [|split].
          -- intros b Hb. cbv beta. rewrite E. refine (grows_write d (fun b => visit dis c l (ST b None)) e es _ _ _ G b Hb). intro b'. cbn [emit sExt sOwn]. now rewrite join_op.
          -- apply (verdict_after c _ l); [reflexivity| |exact R]. intros x F. inversion F as [| | |? ? H| | | | | | |]; subst. apply H, pred_known. congruence.
          -- intro H. apply L. eapply edgeless_sub; [|exact H]. intros; now constructor.
      + apply (blames_fails _ _ _ _ (examined l) (SPredOp (nOperation o))).
        * intros b _. cbn [svisit mk_predicate nType nLeft nOp]. now rewrite EA.
        * reflexivity.
        * constructor. rewrite pred_known. congruence.
    - intros l o r _ _ _ IHl _ IHr c. apply infix_blames; auto.
    - intros l o r _ _ _ IHl _ IHr c. apply infix_blames; auto.
    - intros e _ IH c. assert (E : forall b, visit dis c (mk_paren (Some e)) (ST b None) = always (visit dis c e (ST (join #"(" [] [] b) None)) (emit (write #")"))).
      { intro b. cbn [svisit mk_paren nType nExpression emit sExt sOwn]. now rewrite join_write. }
      destruct (IH c) as [Hp|(er & es & G & R & L)].
      + left. intros b Hb; rewrite E, Hp; [reflexivity|exact Hb].
      + right. exists er, es. split; [|split].
        * intros b Hb. cbv beta. rewrite E. refine (grows_write d (fun b => visit dis c e (ST (join #"(" [] [] b) None)) er es #")" _ _ _ b Hb).
          -- intro b'. cbn. now rewrite join_write.
          -- exact (grows_after d (fun b => visit dis c e (ST b None)) er es #"(" G).
        * now apply (verdict_same c _ e).
        * intro H. apply L. eapply edgeless_sub; [|exact H]. intros; now constructor.
    - intros e _ IH c. assert (E : forall b, visit dis c (mk_not (Some e)) (ST b None) = visit dis c e (ST (join #"NOT " [] [] b) None)).
      { intro b. cbn [svisit mk_not nType nExpression emit sExt sOwn]. now rewrite join_write. }
      destruct (IH c) as [Hp|(er & es & G & R & L)].
      + left. intros b Hb; rewrite E, Hp; [reflexivity|exact Hb].
      + right. exists er, es. split; [|split].
        * intros b Hb. cbv beta. rewrite E. exact (grows_after d (fun b => visit dis c e (ST b None)) er es #"NOT " G b Hb).
        * now apply (verdict_same c _ e).
        * intro H. apply L. eapply edgeless_sub; [|exact H]. intros; now constructor.
    - intros l o a b _ _ Sa Sb Ta Tb IHl _ _ _ c.
      destruct (safe_go a Sa Ta) as (va & _ & Ga). destruct (safe_go b Sb Tb) as (vb & _ & Gb).
      destruct (value_emits edge_sql heap d dis c a va Ga) as (pa & Ea). destruct (value_emits edge_sql heap d dis c b vb Gb) as (pb & Eb).
      set (neg := streq (nOperation o) #"not between"). set (p1 := if neg then OpLT else OpGTE). set (p2 := if neg then OpGT else OpLTE).
      assert (E : forall x, visit dis c (mk_between (Some l) (Some o) (Some a) (Some b)) (ST x None) =
        unless_err (visit dis c l (ST x None)) (fun s => unless_err (visit dis c a (emit (write_op p1) s)) (fun s =>
          unless_err (visit dis c l (emit (write #" AND ") s)) (fun s => visit dis c b (emit (write_op p2) s))))) by reflexivity.
      assert (V : forall m, visits l m -> visits (mk_between (Some l) (Some o) (Some a) (Some b)) m) by (intros; now constructor).
      destruct (IHl c) as [Hp|(e & es & G & R & L)].
      { left. intros x Hx; rewrite E, (Hp x Hx); reflexivity. }
      destruct e as [e|].
      { right. exists (Some e), es. split; [intros x Hx; cbv beta; rewrite E; exact (grows_stop d _ e es _ G x Hx)|]. split; [exact R|].
        intro H. apply L. now apply (edgeless_sub _ _ V). }
      assert (GA : grows d (fun x => visit dis c a (emit (write_op p1) (ST x None))) None []).
      { intros x Hx. destruct (emits_grows ident_sql edge_sql heap d dis c a pa Ea (write_op p1 x)) as (t & u & K); [rewrite join_op; exact Hx|].
        eexists _, _. cbn [emit sExt sOwn]. cbv beta in K. rewrite K, join_op, join_join. reflexivity. }
      assert (GB : grows d (fun x => visit dis c b (emit (write_op p2) (ST x None))) None []).
      { intros x Hx. destruct (emits_grows ident_sql edge_sql heap d dis c b pb Eb (write_op p2 x)) as (t & u & K); [rewrite join_op; exact Hx|].
        eexists _, _. cbn [emit sExt sOwn]. cbv beta in K. rewrite K, join_op, join_join. reflexivity. }
      assert (GL : grows d (fun x => visit dis c l (emit (write #" AND ") (ST x None))) None es).
      { intros x Hx. destruct (G (write #" AND " x)) as (t & u & K); [rewrite join_write; exact Hx|].
        eexists _, _. cbn [emit sExt sOwn]. cbv beta in K. rewrite K, join_write, join_join. reflexivity. }
      right. exists None, (es ++ [] ++ es ++ []). split; [|split].
      + intros x Hx. cbv beta. rewrite E. revert x Hx. apply grows_then; [exact G|]. apply grows_then; [exact GA|]. apply grows_then; [exact GL|exact GB].
      + exact R.
      + intro H. rewrite L; [reflexivity|]. now apply (edgeless_sub _ _ V).
    - intros f ms _ IH c. destruct (streq_spec f #"date") as [->|Hd].
      + assert (FI : forall ps x, ~ fault c (mk_function #"date" ps) x).
        { intros ps x F. inversion F; subst; try discriminate; match goal with H : _ <> _ |- _ => solve [apply H; reflexivity] end. }
        destruct ms as [|a ms]; [left; intros b Hb; reflexivity|].
        apply Forall_inv in IH. cbn [map].
        assert (E : forall b, visit dis c (mk_function #"date" (Some a :: map Some ms)) (ST b None) = always (visit dis c a (ST (join #"DATE(" [] [] b) None)) (emit (write #")"))).
        { intro b. cbn [svisit mk_function nType nName nParams]. change (streq #"date" #"date") with true. cbn [emit sExt sOwn]. now rewrite join_write. }
        destruct (IH c) as [Hp|(er & es & G & R & L)].
        * left. intros b Hb; rewrite E, Hp; [reflexivity|exact Hb].
        * right. exists er, es. split; [|split].
          -- intros b Hb. cbv beta. rewrite E. refine (grows_write d (fun b => visit dis c a (ST (join #"DATE(" [] [] b) None)) er es #")" _ _ _ b Hb).
             ++ intro b'. cbn. now rewrite join_write.
             ++ exact (grows_after d (fun b => visit dis c a (ST b None)) er es #"DATE(" G).
          -- apply (verdict_after c _ a); [reflexivity|apply FI|exact R].
          -- intro H. apply L. eapply edgeless_sub; [|exact H]. intros; now constructor.
      + destruct (streq_spec f #"has_edge") as [->|He].
        2:{ apply (blames_fails _ _ _ _ [] (SFunc f)); [| |now constructor].
            - intros b _. cbn [svisit mk_function nType nName]. destruct (streq_spec f #"date"); [contradiction|]. destruct (streq_spec f #"has_edge"); [contradiction|reflexivity].
            - cbn [examined mk_function nType nName]. destruct (streq_spec f #"date"); [contradiction|reflexivity]. }
        assert (E : forall b, visit dis c (mk_function #"has_edge" (map Some ms)) (ST b None) =
          match map Some ms with
          | [] => Some (ST b None, Some SEdgeParam)
          | None :: _ => None
          | Some p0 :: rest =>
              if streq (nName p0) [] then Some (ST b None, Some SEdgeParam)
              else match c with None => None | Some c => match assoc (nName p0) (gnEdges (heap c)) with
                | None => Some (ST b None, Some (SNoEdge (nName p0)))
                | Some edge =>
                    match rest with
                    | [] => match edge_step edge_sql heap false (bDialect b) (heap c) edge with None => None | Some (_, (t1, t2)) => Some (own (join (t1 ++ t2) [] []) (ST b None), None) end
                    | [None] => None
                    | [Some p1] =>
                        if negb (compound p1) then Some (ST b None, Some (SEdgeCond p1))
                        else match edge_step edge_sql heap true (bDialect b) (heap c) edge with
                          | None => None
                          | Some (t, (t1, t2)) =>
                              match visit dis (Some t) p1 (ST (SB [] [] (bTotal b) (bDialect b) []) None) with
                              | None => None
                              | Some (s', None) => Some (own (join (t1 ++ bText (sOwn s') ++ t2) (bArgs (sOwn s')) (bErrs (sOwn s'))) (ST b None), None)
                              | Some (s', Some e) => Some (own (join (t1 ++ t2) [] (bErrs (sOwn s') ++ [e])) (ST b None), None)
                              end
                          end
                    | _ => Some (ST b None, Some SEdgeParam)
                    end end end end) by reflexivity.
        assert (X : forall ps, examined (mk_function #"has_edge" ps) = [mk_function #"has_edge" ps]) by reflexivity.
        destruct ms as [|p ms]; [apply (blames_fails _ _ _ _ [] SEdgeParam); [reflexivity|reflexivity|apply sf_edge_none]|]. cbn [map] in *.
        destruct (streq_spec (nName p) []) as [HN|HN]; [apply (blames_fails _ _ _ _ [] SEdgeParam); [intros b _; rewrite E; reflexivity|reflexivity|now apply sf_edge_nameless]|].
        destruct c as [c|]; [|left; intros b Hb; now rewrite E].
        destruct (assoc (nName p) (gnEdges (heap c))) as [edge|] eqn:EA;
          [|apply (blames_fails _ _ _ _ [] (SNoEdge (nName p))); [intros b _; rewrite E; reflexivity|reflexivity|now apply (sf_edge_unknown heap (Some c) c)]].
        assert (NE : ~ edgeless (mk_function #"has_edge" (Some p :: map Some ms))) by (intro H; apply (H (Some p :: map Some ms)); constructor).
        destruct ms as [|q ms].
        { assert (FI : forall x, ~ fault (Some c) (mk_function #"has_edge" [Some p]) x) by (intros x F; inversion F; subst; try congruence; match goal with H : _ <> _ |- _ => solve [apply H; reflexivity] end).
          destruct (edge_step edge_sql heap false d (heap c) edge) as [(t & (s1 & s2))|] eqn:ES.
          - right. exists None, []. split; [|split; [now apply none_here|reflexivity]]. intros b Hb. cbv beta. rewrite E. cbn [map]. rewrite Hb, ES. eexists _, _. reflexivity.
          - left. intros b Hb. rewrite E. cbn [map]. now rewrite Hb, ES. }
        destruct ms as [|r ms].
        2:{ apply (blames_fails _ _ _ _ [] SEdgeParam); [intros b _; rewrite E; reflexivity|reflexivity|]. eapply sf_edge_many; [reflexivity|eassumption|eassumption]. }
        cbn [map] in *. change (isExpression q) with (compound q) in *. destruct (compound q) eqn:HX.
        2:{ apply (blames_fails _ _ _ _ [] (SEdgeCond q)); [intros b _; rewrite E; reflexivity|reflexivity|]. eapply sf_edge_value; [reflexivity|eassumption|eassumption|exact HX]. }
        assert (FI : forall x, ~ fault (Some c) (mk_function #"has_edge" [Some p; Some q]) x) by (intros x F; inversion F; subst; try congruence; match goal with H : _ <> _ |- _ => solve [apply H; reflexivity] end).
        cbn [negb] in E. destruct (edge_step edge_sql heap true d (heap c) edge) as [(t & (s1 & s2))|] eqn:ES.
        2:{ left. intros b Hb. rewrite E. now rewrite Hb, ES. }
        apply Forall_inv_tail, Forall_inv in IH. destruct (IH (Some t)) as [Hp|(er & es & G & R & L)].
        { left. intros b Hb. rewrite E, Hb, ES. now rewrite Hp. }
        right. destruct er as [er|].
        * exists None, (es ++ [er]). split; [|split; [now apply none_here|intro H; now destruct NE]].
          intros b Hb. cbv beta. rewrite E, Hb, ES. destruct (G (SB [] [] (bTotal b) d []) eq_refl) as (u & a & K). cbv beta in K. rewrite K. eexists _, _. reflexivity.
        * exists None, es. split; [|split; [now apply none_here|intro H; now destruct NE]].
          intros b Hb. cbv beta. rewrite E, Hb, ES. destruct (G (SB [] [] (bTotal b) d []) eq_refl) as (u & a & K). cbv beta in K. rewrite K. eexists _, _. reflexivity.
  Qed.

  Lemma sql_fault_fun : forall c m e e', fault c m e -> fault c m e' -> e = e'.
  Proof. intros c m e e' F F'. inversion F; subst; inversion F'; subst; try reflexivity; try congruence; exfalso; match goal with H : _ <> _ |- _ => solve [apply H; reflexivity] end. Qed.
  Lemma query_blame : forall d dis nd q n b r, valid_runes q -> parse lo q = Ok (Some n) -> query (fresh d dis nd q) = Some (b, r) ->
    (none_of (fault nd) (examined n) /\ r = (bText (sOwn (mSt b)), bArgs (sOwn (mSt b)))) \/
    (exists before e es, first_of (fault nd) (examined n) before e /\ r = ([], []) /\ bErrs (sOwn (mSt b)) = es ++ [e] /\ (edgeless n -> es = [])).
  Proof.
    intros d dis nd q n b r Hq Hp H. rewrite (query_fresh lo ident_sql edge_sql heap d dis nd q n Hp) in H. unfold mrun_ast in H. cbn [mDisable mNode mSt done] in H.
    pose proof (parse_safe lo q n Hq Hp) as HS. clear Hp. destruct (visit_blames d dis n HS nd) as [P|(e & es & G & V & L)]; [rewrite P in H by reflexivity; discriminate|].
    destruct (G (SB [] [] 0 d []) eq_refl) as (u & a & E). cbv beta in E. rewrite E in H. destruct e as [e|]; injection H as <- <-.
    - right. destruct V as (bf & V). exists bf, e, es. split; [exact V|]. split; [reflexivity|]. split; [reflexivity|exact L].
    - left. split; [exact V|reflexivity].
  Qed.
  Lemma query_named : forall d dis nd q n b r e, valid_runes q -> parse lo q = Ok (Some n) -> edgeless n -> query (fresh d dis nd q) = Some (b, r) ->
    (bErrs (sOwn (mSt b)) = [e] <-> exists before, first_of (fault nd) (examined n) before e).
  Proof.
    intros d dis nd q n b r e Hq Hp HE H. destruct (visit_blames d dis n (parse_safe lo q n Hq Hp) nd) as [P|(e' & es & G & V & L)];
      rewrite (query_fresh lo ident_sql edge_sql heap d dis nd q n Hp) in H; clear Hp; unfold mrun_ast in H; cbn [mDisable mNode mSt done] in H.
    { rewrite P in H by reflexivity. discriminate. }
    destruct (G (SB [] [] 0 d []) eq_refl) as (u & a & E). cbv beta in E. rewrite E in H. rewrite (L HE) in H. destruct e' as [e'|]; injection H as <- <-; cbn; split.
    - intros [= <-]. exact V.
    - intros (bf & K). destruct V as (bf' & V). destruct (first_unique _ _ _ (sql_fault_fun nd) _ _ _ _ _ V K) as [_ ->]. reflexivity.
    - discriminate.
    - intros (bf & K). destruct (none_first _ _ _ _ _ _ V K).
  Qed.

  (** ** Errors that are there stay there; those that are added have a cause *)
  Definition caused (n : node) (x : serr) : Prop := exists c m, reach n m /\ fault c m x.
  Definition keeps (P : serr -> Prop) (s : sst) (r : sres) : Prop := forall s' e, r = Some (s', e) ->
    exists es, bErrs (sOwn s') = bErrs (sOwn s) ++ es /\ Forall P es /\ match e with Some x => P x | None => True end.
  Section Keeps.
    Variable P : serr -> Prop.
    Notation keeps := (keeps P).
    Lemma keeps_here : forall s f, (forall b, bErrs (f b) = bErrs b) -> keeps s (Some (emit f s, None)).
    Proof. intros [o [x|]] f Hf s' e' [= <- <-]; exists []; cbn; rewrite ?Hf, app_nil_r; auto. Qed.
    Lemma keeps_fail : forall s e, P e -> keeps s (Some (s, Some e)).
    Proof. intros s e He s' e' [= <- <-]. exists []. rewrite app_nil_r. auto. Qed.
    Lemma keeps_emit : forall s f r, (forall b, bErrs (f b) = bErrs b) -> keeps (emit f s) r -> keeps s r.
    Proof. intros [o [x|]] f r Hf H s' e' E; destruct (H s' e' E) as (es & K & KP); exists es; cbn in K; rewrite ?Hf in K; auto. Qed.
    Lemma keeps_always : forall s f r, (forall b, bErrs (f b) = bErrs b) -> keeps s r -> keeps s (always r (emit f)).
    Proof.
      intros s f r Hf H s' e' E. destruct r as [[s1 e1]|]; [|discriminate]. cbn [always] in E. injection E as <- <-. destruct (H s1 e1 eq_refl) as (es & K & KP). exists es.
      rewrite <- K. split; [|exact KP]. destruct s1 as [o [x|]]; cbn; now rewrite ?Hf.
    Qed.
    Lemma keeps_then : forall s r k, keeps s r -> (forall s1, keeps s1 (k s1)) -> keeps s (unless_err r k).
    Proof.
      intros s r k H K s' e' E. destruct r as [[s1 [e1|]]|]; cbn [unless_err] in E; [|  |discriminate].
      - now apply (H s' e').
      - destruct (H s1 None eq_refl) as (es & E1 & P1 & _). destruct (K s1 s' e' E) as (es' & E2 & P2 & P3). exists (es ++ es'). rewrite E2, E1, app_assoc.
        split; [reflexivity|]. split; [now apply Forall_app|exact P3].
    Qed.
    Lemma keeps_own : forall s t a es, Forall P es -> keeps s (Some (own (join t a es) s, None)).
    Proof. intros s t a es He s' e' [= <- <-]. exists es. auto. Qed.
    Lemma keeps_none : forall s, keeps s None.
    Proof. intros s s' e. discriminate. Qed.
  End Keeps.
  Lemma keeps_imp : forall (P Q : serr -> Prop) s r, (forall x, P x -> Q x) -> keeps P s r -> keeps Q s r.
  Proof.
    intros P Q s r H K s' e E. destruct (K s' e E) as (es & E1 & E2 & E3). exists es. split; [exact E1|]. split; [eapply Forall_impl; [exact H|exact E2]|]. destruct e; auto.
  Qed.
  Lemma caused_child : forall n m x, In (Some m) (children n) -> caused m x -> caused n x.
  Proof. intros n m x H (c & k & R & F). exists c, k. split; [eapply reach_step; eassumption|exact F]. Qed.
  Lemma caused_here : forall n c x, fault c n x -> caused n x.
  Proof. intros n c x F. exists c, n. split; [apply reach_refl|exact F]. Qed.
  Lemma errs_write : forall t b, bErrs (write t b) = bErrs b.
  Proof. reflexivity. Qed.
  Lemma errs_op : forall o b, bErrs (write_op o b) = bErrs b.
  Proof. intros []; reflexivity. Qed.
  Lemma errs_arg : forall a b, bErrs (write_arg a b) = bErrs b.
  Proof. intros a b. unfold write_arg. repeat match goal with |- context [match ?x with _ => _ end] => destruct x; try reflexivity end. Qed.
  Lemma errs_args : forall l b, bErrs (write_args l b) = bErrs b.
  Proof. induction l as [|a [|a' l] IH]; intro b; [reflexivity|apply errs_arg|]. change (bErrs (write_args (a' :: l) (write #", " (write_arg a b))) = bErrs b). rewrite IH. apply errs_arg. Qed.
  Lemma visit_keeps : forall dis n, safe n -> forall c s, keeps (caused n) s (visit dis c n s).
  Proof.
    assert (W : forall t (b : sqlb), bErrs (write t b) = bErrs b) by reflexivity.
    assert (C : forall n m c dis s, In (Some m) (children n) -> (forall c s, keeps (caused m) s (visit dis c m s)) -> keeps (caused n) s (visit dis c m s)).
    { intros n m c dis s H K. eapply keeps_imp; [|apply K]. intro x. now apply caused_child. }
    assert (X : forall dis l o r mk, mk = mk_compare \/ mk = mk_logic -> (forall c s, keeps (caused l) s (visit dis c l s)) -> (forall c s, keeps (caused r) s (visit dis c r s)) ->
      forall c s, keeps (caused (mk (Some l) (Some o) (Some r))) s (visit dis c (mk (Some l) (Some o) (Some r)) s)).
    { intros dis l o r mk Hmk IHl IHr c s. set (n := mk (Some l) (Some o) (Some r)).
      assert (IL : keeps (caused n) s (visit dis c l s)) by (apply C; [destruct Hmk as [-> | ->]; cbn; auto|exact IHl]).
      assert (IR : forall s, keeps (caused n) s (visit dis c r s)) by (intro s'; apply C; [destruct Hmk as [-> | ->]; cbn; auto|exact IHr]).
      assert (UN : ~ In (nOperation o) (map fst infix_words) -> caused n (SOp (nOperation o))).
      { intro H. apply (caused_here n c). destruct Hmk as [-> | ->]; now constructor. }
      assert (EV : visit dis c n s = match visit dis c l s with
        | Some (s, e) =>
            match assoc (nOperation o) entsql_ops with
            | Some op => unless_err (Some (emit (write_op op) s, e)) (visit dis c r)
            | None =>
                if streq (nOperation o) #"not like" || streq (nOperation o) #"and" || streq (nOperation o) #"or"
                then unless_err (Some (emit (fun b => pad (write (to_upper (nOperation o)) (pad b))) s, e)) (visit dis c r)
                else Some (s, Some (SOp (nOperation o)))
            end
        | _ => None
        end) by (subst n; destruct Hmk as [-> | ->]; reflexivity).
      rewrite EV. clear EV. clearbody n. destruct (visit dis c l s) as [[s1 e1]|]; [|apply keeps_none].
      destruct (assoc (nOperation o) entsql_ops) as [p|] eqn:EA;
        [apply keeps_then; [apply (keeps_always (caused n) s (write_op p) (Some (s1, e1))); [apply errs_op|exact IL]|exact IR]|].
      destruct (streq (nOperation o) #"not like" || streq (nOperation o) #"and" || streq (nOperation o) #"or") eqn:ES.
      - apply keeps_then; [|exact IR]. apply (keeps_always (caused n) s (fun b => pad (write (to_upper (nOperation o)) (pad b))) (Some (s1, e1))); [reflexivity|exact IL].
      - intros s' e' [= <- <-]. destruct (IL s1 e1 eq_refl) as (es & K & KP & _). exists es. split; [exact K|]. split; [exact KP|]. apply UN. rewrite infix_known.
        intros [H|H]; congruence. }
    intros dis. apply (safe_shape_ind (fun n => forall c s, keeps (caused n) s (visit dis c n s))).
    - intros n v _ HT HV G c s. inversion G; subst; try (apply keeps_here; intros ?; apply errs_arg). cbn [svisit mk_array nType nVType]. change (value _) with (value (mk_array l)). rewrite HV.
      apply keeps_here. intro b. now rewrite W, errs_args.
    - intros o c s. apply keeps_fail. apply (caused_here _ c). constructor.
    - intros x c s. apply keeps_here. reflexivity.
    - intros ns c s. apply keeps_fail. apply (caused_here _ c). constructor.
    - intros l o _ _ IH _ c s. cbn [svisit mk_predicate nType nLeft nOp]. destruct (assoc (nOperation o) entsql_ops) eqn:EA.
      + apply keeps_always; [apply errs_op|]. apply C; [cbn; auto 9|exact IH].
      + apply keeps_fail. apply (caused_here _ c). apply (sf_predicate heap c l o). rewrite pred_known. congruence.
    - intros l o r _ _ _ IHl _ IHr. apply X; auto.
    - intros l o r _ _ _ IHl _ IHr. apply X; auto.
    - intros e _ IH c s. cbn [svisit mk_paren nType nExpression]. apply keeps_always; [apply W|]. apply (keeps_emit _ s (write #"(")); [apply W|]. apply C; [cbn; auto 9|exact IH].
    - intros e _ IH c s. cbn [svisit mk_not nType nExpression]. apply (keeps_emit _ s (write #"NOT ")); [apply W|]. apply C; [cbn; auto 9|exact IH].
    - intros l o a b _ _ Sa Sb Ta Tb IHl _ IHa IHb c s. cbn [svisit mk_between nType nLeft nOp nParams]. apply keeps_then; [apply C; [cbn; auto 9|exact IHl]|]. intro s1.
      apply keeps_then; [eapply keeps_emit; [apply errs_op|apply C; [cbn; auto 9|exact IHa]]|]. intro s2.
      apply keeps_then; [eapply keeps_emit; [apply W|apply C; [cbn; auto 9|exact IHl]]|]. intro s3. eapply keeps_emit; [apply errs_op|apply C; [cbn; auto 9|exact IHb]].
    - intros f ms _ IH c s. destruct (streq_spec f #"date") as [->|Hd].
      { destruct ms as [|a ms]; [apply keeps_none|]. apply Forall_inv in IH. cbn [map].
        change (visit dis c (mk_function #"date" (Some a :: map Some ms)) s) with (always (visit dis c a (emit (write #"DATE(") s)) (emit (write #")"))).
        apply keeps_always; [apply W|]. eapply keeps_emit; [apply W|]. apply C; [cbn; auto 9|exact IH]. }
      cbn [svisit mk_function nType nName nParams]. destruct (streq_spec f #"date"); [contradiction|].
      destruct (streq_spec f #"has_edge") as [->|He]; [|apply keeps_fail; apply (caused_here _ c); now apply (sf_function heap c f (map Some ms))].
      destruct ms as [|p ms]; [apply keeps_fail; apply (caused_here _ c); apply sf_edge_none|]. cbn [map].
      destruct (streq_spec (nName p) []) as [HN|HN]; [apply keeps_fail; apply (caused_here _ c); now apply (sf_edge_nameless heap c p (map Some ms))|].
      destruct c as [c|]; [|apply keeps_none]. destruct (assoc (nName p) (gnEdges (heap c))) as [edge|] eqn:EA;
        [|apply keeps_fail; apply (caused_here _ (Some c)); now apply (sf_edge_unknown heap (Some c) c p (map Some ms))].
      destruct ms as [|q [|r ms]]; cbn [map].
      + destruct (edge_step edge_sql heap false _ _ edge) as [(t & (t1 & t2))|]; [apply keeps_own; constructor|apply keeps_none].
      + change (isExpression q) with (compound q). destruct (compound q) eqn:HX; cbn [negb];
          [|apply keeps_fail; apply (caused_here _ (Some c)); eapply (sf_edge_value heap (Some c) c p q); [reflexivity|eassumption|eassumption|exact HX]].
        destruct (edge_step edge_sql heap true _ _ edge) as [(t & (t1 & t2))|]; [|apply keeps_none].
        apply Forall_inv_tail, Forall_inv in IH. pose proof (C (mk_function #"has_edge" [Some p; Some q]) q (Some t) dis) as K.
        match goal with |- context [visit dis (Some t) q ?s0] => specialize (K s0) end. assert (KI : In (Some q) (children (mk_function #"has_edge" [Some p; Some q]))) by (cbn; auto 9). specialize (K KI IH). clear KI.
        destruct (visit dis (Some t) q _) as [[s' [e|]]|]; [| |apply keeps_none].
        * destruct (K _ _ eq_refl) as (es & K1 & K2 & K3). cbn in K1. rewrite K1. apply keeps_own. apply Forall_app. split; [exact K2|]. constructor; [exact K3|constructor].
        * destruct (K _ _ eq_refl) as (es & K1 & K2 & K3). cbn in K1. rewrite K1. now apply keeps_own.
      + apply keeps_fail. apply (caused_here _ (Some c)). eapply (sf_edge_many heap (Some c) c p); [reflexivity|eassumption|eassumption].
  Qed.
  Lemma query_keeps : forall dis nd q s b r, valid_runes q -> query (MB nd q None dis s) = Some (b, r) ->
    exists es, bErrs (sOwn (mSt b)) = bErrs (sOwn s) ++ es /\
      ((exists e, parse lo q = Err e /\ es = [SParse e]) \/ exists n, parse lo q = Ok (Some n) /\ Forall (caused n) es).
  Proof.
    intros dis nd q s b r Hq H. unfold EntSQL.query in H. cbn [mAst mQuery] in H. destruct (parse lo q) as [[n|]|e|] eqn:Hp; try discriminate.
    - pose proof (parse_safe lo q n Hq Hp) as HS. clear Hp. unfold mrun_ast in H. cbn [set_ast mDisable mNode mSt] in H.
      pose proof (visit_keeps dis n HS nd s) as K. destruct (visit dis nd n s) as [[s' e]|]; [|discriminate].
      destruct (K s' e eq_refl) as (es & K1 & K2 & K3). destruct e as [e|]; injection H as <- <-.
      + exists (es ++ [e]). cbn in *. rewrite K1, app_assoc. split; [reflexivity|]. right. exists n. split; [reflexivity|]. apply Forall_app. split; [exact K2|]. constructor; [exact K3|constructor].
      + exists es. split; [exact K1|]. right. eauto.
    - clear Hp. injection H as <- <-. exists [SParse e]. split; [reflexivity|]. left. eauto.
  Qed.
End SB.

Section QB.
  Variable lo : N -> N.
  Lemma ql_known : forall o, In o ql_words <-> assoc o entql_ops <> None.
  Proof.
    intro o. unfold ql_words, entql_ops. cbn [assoc In].
    repeat match goal with |- context [streq o ?w] => destruct (streq_spec o w) as [->|]; [split; [discriminate|intros _; tauto]|] end.
    split; [|congruence]. intro H. exfalso. repeat destruct H as [H|H]; auto.
  Qed.
  Definition ends (n : node) (r : eres) : Prop :=
    match r with XOk _ => none_of ql_fault (evaluated n) | XErr e _ => exists before, first_of ql_fault (evaluated n) before e | XPanic => True end.
  Lemma first_app_l : forall A E (f : A -> E -> Prop) l l' b e, first_of f l b e -> first_of f (l ++ l') b e.
  Proof. intros A E f l l' b e (m & a & -> & F & H). exists m, (a ++ l'). split; [now rewrite <- app_assoc|auto]. Qed.
  Lemma first_app_r : forall A E (f : A -> E -> Prop) l l' b e, none_of f l -> first_of f l' b e -> first_of f (l ++ l') (l ++ b) e.
  Proof. intros A E f l l' b e H (m & a & -> & F & K). exists m, a. split; [now rewrite <- app_assoc|]. split; [exact F|]. now apply Forall_app. Qed.
  Lemma value_ends : forall n v, go_value n v -> none_of ql_fault (evaluated n).
  Proof. intros n v G. inversion G; subst; (constructor; [intros x F; inversion F|constructor]). Qed.
  Lemma infix_ends : forall l o r (mk : option node -> option node -> option node -> node), (mk = mk_compare \/ mk = mk_logic) ->
    (forall s, ends l (evisit l s)) -> (forall s, ends r (evisit r s)) -> forall s, ends (mk (Some l) (Some o) (Some r)) (evisit (mk (Some l) (Some o) (Some r)) s).
  Proof.
    intros l o r mk Hmk IHl IHr s. set (n := mk (Some l) (Some o) (Some r)).
    assert (EV : evaluated n = evaluated l ++ evaluated r ++ [n]) by (subst n; destruct Hmk as [-> | ->]; reflexivity).
    assert (EX : evisit n s = xbind (evisit l s) (fun s => xbind (evisit r s) (fun s =>
      match s with
      | rgt :: lft :: s' => match assoc (nOperation o) entql_ops with None => XErr (XOp (nOperation o)) s' | Some op => XOk (XBinary op lft rgt :: s') end
      | _ => XPanic end))) by (subst n; destruct Hmk as [-> | ->]; reflexivity).
    assert (UN : ~ In (nOperation o) ql_words -> ql_fault n (XOp (nOperation o))) by (intro H; subst n; destruct Hmk as [-> | ->]; now constructor).
    assert (FI : In (nOperation o) ql_words -> forall x, ~ ql_fault n x) by (intros H x F; subst n; destruct Hmk as [-> | ->]; inversion F; subst; contradiction).
    rewrite EX. clear EX. clearbody n. unfold ends. rewrite EV. specialize (IHl s). destruct (evisit l s) as [s1|e s1|]; cbn [ends xbind] in *; [| |exact I].
    2:{ destruct IHl as (b & H). exists b. now apply first_app_l. }
    specialize (IHr s1). destruct (evisit r s1) as [s2|e s2|]; cbn [ends xbind] in *; [| |exact I].
    2:{ destruct IHr as (b & H). exists (evaluated l ++ b). apply first_app_r; [exact IHl|]. now apply first_app_l. }
    destruct s2 as [|x [|y s2]]; [exact I|exact I|]. pose proof (ql_known (nOperation o)) as K. destruct (assoc (nOperation o) entql_ops) as [op|].
    - apply Forall_app. split; [exact IHl|]. apply Forall_app. split; [exact IHr|]. constructor; [|constructor]. apply FI, K. discriminate.
    - exists (evaluated l ++ evaluated r ++ []). apply first_app_r; [exact IHl|]. apply first_app_r; [exact IHr|]. exists n, []. split; [reflexivity|].
      split; [|constructor]. apply UN. rewrite K. congruence.
  Qed.
  Lemma visit_ends : forall n, safe n -> forall s, ends n (evisit n s).
  Proof.
    apply (safe_shape_ind (fun n => forall s, ends n (evisit n s))).
    - intros n v _ HT HV G s. assert (E : evisit n s = XOk (XValue v :: s)) by (inversion G; subst; cbn [evisit mk_int mk_bool mk_string mk_null mk_array nType] in *; unfold mk_int, mk_bool, mk_string, mk_null, mk_array in HV; rewrite HV; reflexivity).
      rewrite E. now apply (value_ends n v).
    - intros o s. exists [], (mk_op o), []. split; [reflexivity|]. split; [constructor|constructor].
    - intros x s. constructor; [|constructor]. intros e F. inversion F.
    - intros ns s. exists [], (mk_reference ns), []. split; [reflexivity|]. split; [constructor|constructor].
    - intros l o _ _ _ _ s. exact I.
    - intros l o r _ _ _ IHl _ IHr. apply infix_ends; auto.
    - intros l o r _ _ _ IHl _ IHr. apply infix_ends; auto.
    - intros e _ IH s. exact (IH s).
    - intros e _ IH s. specialize (IH s). unfold ends in *. change (evaluated (mk_not (Some e))) with (evaluated e). cbn [evisit mk_not nType nExpression].
      destruct (evisit e s) as [s1|x [|y s1]|]; [exact IH|exact I| |exact I]. destruct (is_p y); [exact IH|exact I].
    - intros l o a b _ _ Sa Sb Ta Tb IHl _ IHa IHb s. unfold ends. cbn [evaluated evisit mk_between nType nLeft nOp nParams map concat]. rewrite app_nil_r.
      specialize (IHl s). destruct (evisit l s) as [s1|e s1|]; cbn [ends xbind] in *; [| |exact I].
      2:{ destruct IHl as (bf & H). exists bf. now apply first_app_l. }
      specialize (IHa s1). destruct (evisit a s1) as [s2|e s2|]; cbn [ends xbind] in *; [| |exact I].
      2:{ destruct IHa as (bf & H). exists (evaluated l ++ bf). apply first_app_r; [exact IHl|]. now apply first_app_l. }
      specialize (IHb s2). destruct (evisit b s2) as [s3|e s3|]; cbn [ends xbind] in *; [| |exact I].
      2:{ destruct IHb as (bf & H). exists (evaluated l ++ evaluated a ++ bf). apply first_app_r; [exact IHl|]. now apply first_app_r. }
      destruct s3 as [|x [|y [|z s3]]]; try exact I.
      destruct (streq (nOperation o) #"not between"); apply Forall_app; (split; [exact IHl|]); apply Forall_app; (split; [exact IHa|exact IHb]).
    - intros f ms _ _ s. constructor; [|constructor]. intros e F. inversion F.
  Qed.
  Lemma ql_fault_fun : forall m e e', ql_fault m e -> ql_fault m e' -> e = e'.
  Proof. intros m e e' F F'. inversion F; subst; inversion F'; subst; reflexivity. Qed.
  Lemma build_blame : forall q n, valid_runes q -> parse lo q = Ok (Some n) ->
    match build_entql lo q with
    | Ok _ => none_of ql_fault (evaluated n)
    | Err e => exists before, first_of ql_fault (evaluated n) before e
    | Panic => True end.
  Proof.
    intros q n Hq Hp. pose proof (parse_safe lo q n Hq Hp) as HS. pose proof (parse_nonempty lo q _ Hp) as HN. unfold build_entql, ebuild. destruct q as [|c q]; [congruence|]. rewrite Hp. clear Hp.
    pose proof (visit_ends n HS []) as K. destruct (evisit n []) as [[|x s]|e s|]; cbn in *; [exact K| |exact K|exact I]. destruct (is_p x); [exact K|exact I].
  Qed.
End QB.
