(** The texts of the errors (C71). *)
From Verif Require Import Base Peg Grammar Node Vocab Tree Parse Syntax ParseProofs Complete NormProofs Unique ParserFacts ParserFacts2 ParserMain Build BuildProofs NodeFacts SafeInd
  NameFacts TreeFacts Utf8 Utf8Spec Utf8Proofs QuoteSpec QuoteProofs TrailSpec TrailProofs Ast Report ReportSpec ReportProofs ShowSpec ShowProofs
  Gorm GormSpec GormProofs GormFacts EntQL EntSQL EntSQLSpec BlameSpec BlameProofs Message MessageSpec.
Strategy expand [parse_machine rule_trace].
Strategy 1000 [parse_fuel mrun].

Definition wide (s : list N) : Prop := Forall (fun c => (c < 4294967296)%N) s.
Lemma wide_valid : forall s, valid_runes s -> wide s.
Proof. intros s H. eapply Forall_impl; [|exact H]. cbv beta. unfold endSymbol. intros; lia. Qed.
Lemma wide_app : forall a b, wide (a ++ b) <-> wide a /\ wide b.
Proof. intros a b. apply Forall_app. Qed.
Lemma wide_ascii : forall s, forallb (fun c => (c <? 128)%N) s = true -> wide s.
Proof. intros s H. apply Forall_forall. intros c Hc. rewrite forallb_forall in H. specialize (H c Hc). apply N.ltb_lt in H. lia. Qed.
Lemma ident_wide : forall x, ident x -> wide x.
Proof.
  intros x ((c & r & -> & L & I) & _). apply wide_ascii. cbn [forallb]. apply andb_true_iff. split.
  - unfold letter in L. apply N.ltb_lt. apply orb_prop in L as [L|L]; apply andb_prop in L as [L1 L2]; apply N.leb_le in L1, L2; lia.
  - rewrite forallb_forall in I |- *. intros d Hd. specialize (I d Hd). unfold idchar, letter, is_digit in I. apply N.ltb_lt.
    repeat (apply orb_prop in I as [I|I]); repeat (apply andb_prop in I as [I ?]); repeat match goal with H : (_ <=? _)%N = true |- _ => apply N.leb_le in H | H : (_ =? _)%N = true |- _ => apply N.eqb_eq in H end; lia.
Qed.
Lemma join_wide : forall sep xs, wide sep -> Forall wide xs -> wide (join_with sep xs).
Proof.
  intros sep xs Hs H. induction H as [|x xs Hx H IH]; [constructor|]. destruct xs as [|y xs]; [exact Hx|].
  change (join_with sep (x :: y :: xs)) with (x ++ sep ++ join_with sep (y :: xs)). rewrite !wide_app. auto.
Qed.
Lemma pieces_wide : forall s acc, wide acc -> wide s -> Forall wide (Vocab.pieces acc s).
Proof.
  induction s as [|c s IH]; intros acc Ha Hs; cbn [Vocab.pieces].
  - destruct acc; [constructor|]. constructor; [exact Ha|constructor].
  - inversion Hs as [|? ? Hc Hs']; subst. destruct (white c).
    + destruct acc; [apply IH; [constructor|exact Hs']|constructor; [exact Ha|apply IH; [constructor|exact Hs']]].
    + apply IH; [|exact Hs']. apply wide_app. split; [exact Ha|now constructor].
Qed.
Lemma op_wide : forall lo o, (forall c, (c < 4294967296)%N -> (lo c < 4294967296)%N) -> wide o -> wide (op_name lo o).
Proof.
  intros lo o Hlo Ho. unfold op_name. set (s := join_with _ _).
  assert (H : wide s).
  { apply join_wide; [now apply wide_ascii|]. apply pieces_wide; [constructor|]. apply Forall_forall. intros c Hc. apply in_map_iff in Hc as (d & <- & Hd).
    unfold wide in Ho. rewrite Forall_forall in Ho. specialize (Ho d Hd). unfold lower, ascii_lower. destruct (N.ltb_spec d 128); [|now apply Hlo].
    destruct ((65 <=? d)%N && (d <=? 90)%N); lia. }
  clearbody s. destruct (find _ symbol_names) as [(k & n)|] eqn:E; [|exact H]. apply find_some in E as [E _]. unfold symbol_names in E. cbn [In] in E.
  repeat (destruct E as [[= _ <-]|E]; [now apply wide_ascii|]). destruct E.
Qed.

Section Text.
  Variable ip : N -> bool.
  Variable ff : Z -> list N.

  (** ** Errors of Parse *)
  Lemma errs_digits : (forall e t, lay e t -> Forall (fun x => exists ds, x = PERange ds /\ wide ds) (errs e)) /\
    (forall es t, lays es t -> Forall (fun x => exists ds, x = PERange ds /\ wide ds) (concat (map errs es))).
  Proof.
    assert (D : forall ds, forallb is_digit ds = true -> wide ds).
    { intros ds H. apply wide_ascii. rewrite forallb_forall in H |- *. intros c Hc. specialize (H c Hc). unfold is_digit in H. apply andb_prop in H as [_ H]. apply N.leb_le in H. apply N.ltb_lt. lia. }
    assert (L : forall l t, lit_text l t -> Forall (fun x => exists ds, x = PERange ds /\ wide ds) (lerr l)).
    { intros l t H. destruct H; cbn [lerr]; try constructor.
      destruct (dec_value (c :: ds) <=? maxInt)%Z; constructor; [|constructor]. exists (c :: ds). split; [reflexivity|]. apply D. cbn [forallb]. now rewrite H. }
    assert (LS : forall ls t, lits_text ls t -> Forall (fun x => exists ds, x = PERange ds /\ wide ds) (concat (map lerr ls))).
    { intros ls t H. induction H as [l t H|l t w1 w2 ls ts H _ _ _ IH]; cbn [map concat]; rewrite ?app_nil_r; [now apply (L l t)|]. apply Forall_app. split; [now apply (L l t)|exact IH]. }
    assert (A : forall p c ls t, arr_text p c ls t -> Forall (fun x => exists ds, x = PERange ds /\ wide ds) (verr (VArr p ls))).
    { intros p c ls t H. destruct H; [constructor| |]; eapply LS; eassumption. }
    assert (V : forall v t, val_text v t -> Forall (fun x => exists ds, x = PERange ds /\ wide ds) (verr v)).
    { intros v t [l u H|p c ls u H]; [now apply (L l u)|now apply (A p c ls u)]. }
    apply lay_lays_ind; intros; cbn [errs map concat]; rewrite ?app_nil_r; repeat (apply Forall_app; split); eauto; try constructor.
  Qed.
  Lemma parse_text : forall lo q e, valid_runes q -> parse lo q = Err e -> exists t, perr_text ip q e = Some t /\ parse_says ip q e t.
  Proof.
    intros lo q e Hq H. destruct (parse_cases lo q Hq) as [(x & _ & _ & K)|[(x & ds & R & _ & K & _)|(_ & b & f & K & _)]].
    - rewrite K in H. clear K. discriminate H.
    - rewrite (parse_reads lo q x Hq R) in H. clear K. destruct R as (w1 & t & w2 & _ & _ & _ & Hl). pose proof (proj1 errs_digits x t Hl) as D.
      destruct (errs x) as [|y l]; [discriminate H|]. injection H as ->. apply Forall_inv in D as (ds' & -> & W).
      eexists. split; [reflexivity|]. unfold num_error. apply (ps_range ip q ds' (quoted ip ds')). now apply quoted_ok.
    - rewrite K in H. injection H as <-. destruct (parse_error_span lo q b f Hq K) as (m & Hm & _). clear K.
      destruct (error_message ip false q m Hq Hm) as (T & out & HT & E & M). exists out. split; [|now apply (ps_syntax ip q b f T)].
      cbn [perr_text]. unfold go_error. rewrite Hm. clear Hm. exact E.
  Qed.

  (** ** gormq *)
  Lemma gorm_text : forall me lo fold_eq q n sch m e, valid_runes q -> parse lo q = Ok (Some n) -> reach n m -> gorm_fault fold_eq sch m e ->
    exists t, gerr_text ip me q e = Some t /\ gorm_says ip q e t.
  Proof.
    intros me lo fold_eq q n sch m e Hq Hp Hr F. pose proof (parse_names lo q n m Hq Hp Hr) as NM. clear Hp. unfold named in NM.
    destruct F as [x F|xs F|r x F|r x t F1 F2|f ps F]; cbn in NM; (eexists; split; [reflexivity|]).
    - constructor. apply quoted_ok, ident_wide, NM.
    - constructor.
    - constructor. apply quoted_ok, ident_wide. destruct NM as [NM _]. now inversion NM.
    - destruct NM as [NM _]. inversion NM as [|? ? N1 N2]; subst. inversion N2; subst. constructor; apply quoted_ok, ident_wide; assumption.
    - constructor. apply quoted_ok, ident_wide, NM.
  Qed.
  Lemma cp_reach : forall (f : node -> list node) n m p, (forall k, p = Some k -> In m (f k) -> reach k m) -> In p (children n) ->
    In m (match p with Some k => f k | None => [] end) -> reach n m.
  Proof. intros f n m [k|] IH Hp H; [|destruct H]. eapply reach_step; [exact Hp|]. now apply IH. Qed.
  Lemma constructs_reach : forall n, safe n -> forall m, In m (constructs n) -> reach n m.
  Proof.
    assert (ST : forall n k m, In (Some k) (children n) -> reach k m -> reach n m) by (intros; eapply reach_step; eassumption).
    apply (safe_shape_ind (fun n => forall m, In m (constructs n) -> reach n m)).
    - intros n v _ HT _ _ m H. assert (E : constructs n = [n]) by (destruct n; cbn in HT; subst; reflexivity). rewrite E in H. destruct H as [<-|[]]. apply reach_refl.
    - intros o m [<-|[]]. apply reach_refl.
    - intros o m [<-|[]]. apply reach_refl.
    - intros o m [<-|[]]. apply reach_refl.
    - intros l o _ _ Il Io m H. cbn [constructs mk_predicate nType nLeft nOp nRight] in H. rewrite app_nil_r in H. apply in_app_iff in H as [H|H]; [apply (ST _ l)|apply (ST _ o)]; cbn; auto 9.
    - intros l o r _ _ _ Il Io Ir m H. cbn [constructs mk_compare nType nLeft nOp nRight] in H. apply in_app_iff in H as [H|H]; [apply (ST _ l); cbn; auto 9|].
      apply in_app_iff in H as [H|H]; [apply (ST _ o)|apply (ST _ r)]; cbn; auto 9.
    - intros l o r _ _ _ Il Io Ir m H. cbn [constructs mk_logic nType nLeft nOp nRight] in H. apply in_app_iff in H as [H|H]; [apply (ST _ l); cbn; auto 9|].
      apply in_app_iff in H as [H|H]; [apply (ST _ o)|apply (ST _ r)]; cbn; auto 9.
    - intros e _ IH m H. apply (ST _ e); cbn; auto 9.
    - intros e _ IH m H. apply (ST _ e); cbn; auto 9.
    - intros l o a b _ _ _ _ _ _ Il Io Ia Ib m H. cbn [constructs mk_between nType nLeft nOp nParams map concat] in H. rewrite app_nil_r in H.
      apply in_app_iff in H as [H|H]; [apply (ST _ l); cbn; auto 9|]. apply in_app_iff in H as [H|H]; [apply (ST _ o); cbn; auto 9|].
      apply in_app_iff in H as [H|H]; [apply (ST _ a)|apply (ST _ b)]; cbn; auto 9.
    - intros f ms _ IH m [<-|H]; [apply reach_refl|]. cbn [mk_function nParams] in H. apply in_concat in H as (l & Hl & H). rewrite map_map in Hl. apply in_map_iff in Hl as (k & <- & Hk).
      rewrite Forall_forall in IH. apply (ST _ k); [|now apply IH]. cbn. repeat right. now apply in_map.
  Qed.
  Lemma wire_text : forall me lo fold_eq quote d q d' e, valid_runes q -> db_ok d -> wire_mini_query fold_eq quote lo d q = Some d' -> dErrors d' = dErrors d ++ [e] ->
    (dSchema d = None /\ dModel d = Some None /\ e = GParseModel) \/ exists t, gerr_text ip me q e = Some t /\ gorm_says ip q e t.
  Proof.
    intros me lo fold_eq quote d q d' e Hq [OK1 OK2] H HE. destruct (parse_total lo q Hq) as [(n & Hp)|(e0 & Hp)].
    - destruct (schema_of d) as [sch|] eqn:HS.
      + assert (OK : schema_ok sch).
        { unfold schema_of in HS. destruct (dSchema d) as [s|] eqn:E1; [injection HS as <-; auto|]. destruct (dModel d) as [[s|]|] eqn:E2; try discriminate. injection HS as <-. auto. }
        assert (X : exists before, first_of (gorm_fault fold_eq sch) (constructs n) before e) by (apply (proj1 (wire_error fold_eq quote lo d q n sch e Hq Hp HS OK)); exists d'; split; [exact H|exact HE]).
        clear H. destruct X as (bf & m & af & E & F & _). right. apply (gorm_text me lo fold_eq q n sch m e Hq Hp); [|exact F].
        apply constructs_reach; [exact (parse_safe lo q n Hq Hp)|]. rewrite E. apply in_elt.
      + pose proof (parse_nonempty lo q _ Hp) as HN. unfold wire_mini_query in H. destruct q as [|c q]; [congruence|]. rewrite Hp in H. clear Hp. unfold get_or_parse_schema, schema_of in *.
        destruct (dSchema d) as [s|] eqn:E1; [discriminate|]. destruct (dModel d) as [[s|]|] eqn:E2; [discriminate| |].
        * injection H as <-. cbn in HE. apply app_inv_head in HE. injection HE as <-. left. auto.
        * injection H as <-. cbn in HE. apply app_inv_head in HE. injection HE as <-. right. eexists. split; [reflexivity|constructor].
    - destruct (parse_text lo q e0 Hq Hp) as (t & T1 & T2). unfold wire_mini_query in H. destruct q as [|c q].
      + injection H as <-. symmetry in HE. now apply app_neq in HE.
      + rewrite Hp in H. clear Hp. injection H as <-. cbn in HE. apply app_inv_head in HE. injection HE as <-. right. exists (#"invalid query syntax: " ++ t).
        cbn [gerr_text]. rewrite T1. split; [reflexivity|now constructor].
  Qed.

  (** ** entsql *)
  Definition fine (lo : N -> N) : Prop := forall c, (c < 4294967296)%N -> (lo c < 4294967296)%N.
  Lemma safe_child : forall n k, safe n -> In (Some k) (children n) -> safe k.
  Proof.
    intros n k [m Hs _ H] Hk. apply H. clear H. unfold shaped in Hs. unfold required. destruct (nType m) eqn:HT; try contradiction.
    - destruct (nVType m) eqn:HV; try contradiction; try (rewrite Hs in Hk; cbn in Hk; intuition discriminate). destruct Hs as [Hs _]. rewrite Hs in Hk. cbn in Hk.
      apply in_app_iff in Hk as [Hk|Hk]; [exact Hk|]. cbn in Hk. intuition discriminate.
    - rewrite Hs in Hk. cbn in Hk. intuition discriminate.
    - rewrite Hs in Hk. cbn in Hk. intuition discriminate.
    - rewrite Hs in Hk. cbn in Hk. intuition discriminate.
    - rewrite Hs in Hk. cbn in Hk. cbn. intuition discriminate.
    - rewrite Hs in Hk. cbn in Hk. cbn. intuition discriminate.
    - rewrite Hs in Hk. cbn in Hk. cbn. intuition discriminate.
    - rewrite Hs in Hk. cbn in Hk. cbn. intuition discriminate.
    - rewrite Hs in Hk. cbn in Hk. cbn. intuition discriminate.
    - destruct Hs as (a & b & Hs & _). assert (HP : nParams m = [Some a; Some b]) by now rewrite Hs. rewrite HP. rewrite Hs in Hk. cbn in Hk. cbn. intuition discriminate.
    - rewrite Hs in Hk. cbn in Hk. cbn. intuition discriminate.
  Qed.
  Lemma safe_reach : forall n m, safe n -> reach n m -> safe m.
  Proof. intros n m S R. induction R as [|n k m Hk _ IH]; [exact S|]. apply IH. now apply (safe_child n). Qed.
  Lemma reach_trans : forall a b c, reach a b -> reach b c -> reach a c.
  Proof. intros a b c H K. induction H as [|n k m Hk _ IH]; [exact K|]. eapply reach_step; [exact Hk|auto]. Qed.
  Lemma valid_part : forall a o b, valid_runes (a ++ o ++ b) -> wide o.
  Proof. intros a o b H. apply wide_valid in H. rewrite !wide_app in H. tauto. Qed.
  (** every text of a parsed tree *)
  Definition texts (m : node) : Prop := wide (nOperation m) /\ wide (nName m) /\ Forall wide (nNames m) /\ (is_string m = true -> wide (nStr m)).
  Lemma tree_texts : forall lo q n, fine lo -> valid_runes q -> parse lo q = Ok (Some n) -> forall m, reach n m -> texts m.
  Proof.
    intros lo q n Hlo Hq Hp m Hr. pose proof (parse_names lo q n m Hq Hp Hr) as NM. pose proof (safe_reach n m (parse_safe lo q n Hq Hp) Hr) as HS.
    assert (Hs : shaped m) by now destruct HS. clear HS. split; [|split; [|split]].
    - clear NM. destruct (is_operation m) eqn:E.
      + destruct (ops_spec lo q n m Hq Hp Hr E) as (a & o & b & -> & _ & ->). apply op_wide; [exact Hlo|]. now apply (valid_part a o b).
      + clear Hp Hr. unfold shaped in Hs. unfold is_operation in E.
        destruct (nType m) eqn:HT; try discriminate E; try contradiction; try (rewrite Hs; constructor).
        * destruct (nVType m); try contradiction; try (rewrite Hs; constructor). destruct Hs as [-> _]. constructor.
        * destruct Hs as (a & b & -> & _). constructor.
    - clear Hp. unfold named in NM. unfold shaped in Hs. destruct (nType m); try (destruct NM as [-> _]; constructor); try (apply ident_wide, NM). rewrite Hs. constructor.
    - clear Hp. unfold named in NM. unfold shaped in Hs. destruct (nType m); try (destruct NM as [_ ->]; constructor); try (rewrite Hs; constructor).
      destruct NM as (A & _). eapply Forall_impl; [|exact A]. exact ident_wide.
    - intro E. destruct (parse_strings lo q n m Hq Hp Hr E) as (x & y & d & _ & X). clear Hp. subst q. apply (valid_part (x ++ [d]) (nStr m) (d :: y)). rewrite <- app_assoc. exact Hq.
  Qed.
  Lemma int_wide : forall z t, int_text z t -> wide t.
  Proof.
    assert (D : forall n t, decimal n t -> wide t) by (intros n t (H & _); eapply Forall_impl; [|exact H]; cbv beta; intros; lia).
    intros z t [n u H|n u _ H]; [now apply (D n)|]. apply wide_app. split; [now apply wide_ascii|now apply (D n)].
  Qed.
  Lemma value_wide : (forall n t, value_text n t -> (forall m, reach n m -> texts m) -> wide t) /\
    (forall ns ts, values_text ns ts -> (forall k m, In (Some k) ns -> reach k m -> texts m) -> Forall wide ts).
  Proof.
    apply value_texts_ind.
    - intros z t H _. now apply (int_wide z).
    - intros _. now apply wide_ascii.
    - intros _. now apply wide_ascii.
    - intros s H. now apply (H _ (reach_refl _)).
    - intros _. now apply wide_ascii.
    - intros ns ts _ IH H. rewrite !wide_app. split; [now apply wide_ascii|]. split; [|now apply wide_ascii]. apply join_wide; [now apply wide_ascii|]. apply IH.
      intros k m Hk R. apply H. eapply reach_step; [|exact R]. cbn. apply in_app_iff. now left.
    - constructor.
    - intros n ns t ts _ IH1 _ IH2 H. constructor; [apply IH1; intros m R; apply (H n m); [now left|exact R]|]. apply IH2. intros k m Hk R. apply (H k m); [now right|exact R].
  Qed.
  Lemma form_wide : forall k t, forallb (fun c => (c <? 128)%N) k = true -> wide t -> wide (form k t).
  Proof. intros k t Hk Ht. unfold form. rewrite !wide_app. repeat split; try assumption; now apply wide_ascii. Qed.
  Lemma shows_wide : (forall n t, shows n t -> (forall m, reach n m -> texts m) -> wide t) /\
    (forall ns t, shows_args ns t -> (forall k m, In (Some k) ns -> reach k m -> texts m) -> wide t).
  Proof.
    assert (ST : forall n k, (forall m, reach n m -> texts m) -> In (Some k) (children n) -> forall m, reach k m -> texts m) by (intros n k H Hk m R; apply H; eapply reach_step; eassumption).
    apply shows_all_ind.
    - intros n t V H. apply form_wide; [reflexivity|]. now apply (proj1 value_wide n).
    - intros o H. apply form_wide; [reflexivity|]. exact (proj1 (H _ (reach_refl _))).
    - intros o H. apply form_wide; [reflexivity|]. exact (proj1 (proj2 (H _ (reach_refl _)))).
    - intros xs H. apply form_wide; [reflexivity|]. apply join_wide; [now apply wide_ascii|]. exact (proj1 (proj2 (proj2 (H _ (reach_refl _))))).
    - intros. apply form_wide; [reflexivity|constructor].
    - intros l o r tl to tr _ Il _ Io _ Ir H. apply form_wide; [reflexivity|]. rewrite !wide_app.
      split; [apply Il, (ST _ l H); cbn; auto 9|]. split; [now apply wide_ascii|]. split; [apply Io, (ST _ o H); cbn; auto 9|]. split; [now apply wide_ascii|]. apply Ir, (ST _ r H); cbn; auto 9.
    - intros l o r tl to tr _ Il _ Io _ Ir H. apply form_wide; [reflexivity|]. rewrite !wide_app.
      split; [apply Io, (ST _ o H); cbn; auto 9|]. split; [now apply wide_ascii|]. split; [apply Il, (ST _ l H); cbn; auto 9|]. split; [now apply wide_ascii|]. apply Ir, (ST _ r H); cbn; auto 9.
    - intros e t _ I H. apply form_wide; [reflexivity|]. apply I, (ST _ e H); cbn; auto 9.
    - intros e t _ I H. apply form_wide; [reflexivity|]. apply I, (ST _ e H); cbn; auto 9.
    - intros l o a b ta tb _ Ia _ Ib H. apply form_wide; [reflexivity|]. rewrite !wide_app.
      split; [apply Ia, (ST _ a H); cbn; auto 9|]. split; [now apply wide_ascii|]. apply Ib, (ST _ b H); cbn; auto 9.
    - intros f ns t _ I H. apply form_wide; [reflexivity|]. apply wide_app. split; [exact (proj1 (proj2 (H _ (reach_refl _))))|]. apply I.
      intros k m Hk R. apply H. eapply reach_step; [|exact R]. cbn. auto 9.
    - constructor.
    - intros n ns t u _ I1 _ I2 H. rewrite !wide_app. split; [now apply wide_ascii|]. split; [apply I1; intros m R; apply (H n m); [now left|exact R]|].
      apply I2. intros k m Hk R. apply (H k m); [now right|exact R].
  Qed.
  Lemma node_text : forall lo q n m, fine lo -> valid_runes q -> parse lo q = Ok (Some n) -> reach n m ->
    exists t, node_string ff m = Some t /\ shows m t /\ literal ip t (quoted ip t).
  Proof.
    intros lo q n m Hlo Hq Hp R. destruct (string_shows ff m (safe_reach n m (parse_safe lo q n Hq Hp) R)) as (t & E & S). exists t. split; [exact E|]. split; [exact S|].
    apply quoted_ok. apply (proj1 shows_wide m t S). intros k Rk. apply (tree_texts lo q n Hlo Hq Hp). now apply (reach_trans n m k).
  Qed.
  Lemma caused_text : forall lo heap q n e, fine lo -> valid_runes q -> parse lo q = Ok (Some n) -> caused heap n e ->
    exists t, serr_text ip ff q e = Some t /\ sql_says ip q e t.
  Proof.
    intros lo heap q n e Hlo Hq Hp (c & m & R & F). pose proof (tree_texts lo q n Hlo Hq Hp m R) as TX. pose proof (tree_texts lo q n Hlo Hq Hp) as TA.
    assert (KID : forall k, In (Some k) (children m) -> texts k) by (intros k Hk; apply TA; apply (reach_trans n m); [exact R|]; eapply reach_step; [exact Hk|apply reach_refl]).
    destruct F as [ns|o|f ps F1 F2|l k F|l k r F|l k r F| |p ps F|k p ps F1 F2 F3|k p e x F1 F2 F3 F4|k p e1 e2 ps x F1 F2 F3].
    all: try (eexists; split; [reflexivity|]).
    - constructor. apply quoted_ok. now apply wide_ascii.
    - constructor 2 with (t := form #"operation" o); [constructor|]. apply quoted_ok. apply (form_wide #"operation" o); [reflexivity|]. exact (proj1 TX).
    - constructor; [apply utf8_iff; split; [repeat constructor; unfold scalar; lia|vm_compute; reflexivity]|]. apply quoted_ok. exact (proj1 (proj2 TX)).
    - constructor. apply quoted_ok. exact (proj1 (KID k ltac:(cbn; auto 9))).
    - constructor. apply quoted_ok. exact (proj1 (KID k ltac:(cbn; auto 9))).
    - constructor. apply quoted_ok. exact (proj1 (KID k ltac:(cbn; auto 9))).
    - constructor. apply utf8_iff; split; [repeat constructor; unfold scalar; lia|vm_compute; reflexivity].
    - constructor. apply utf8_iff; split; [repeat constructor; unfold scalar; lia|vm_compute; reflexivity].
    - constructor; [apply utf8_iff; split; [repeat constructor; unfold scalar; lia|vm_compute; reflexivity]|]. apply quoted_ok. exact (proj1 (proj2 (KID p ltac:(cbn; auto 9)))).
    - assert (Re : reach n e) by (apply (reach_trans n _ e R); eapply reach_step; [|apply reach_refl]; cbn; auto 9).
      destruct (node_text lo q n e Hlo Hq Hp Re) as (t & E & S & L). cbn [serr_text]. rewrite E. eexists. split; [reflexivity|]. constructor 8 with (t := t); [|exact S|exact L].
      apply utf8_iff; split; [repeat constructor; unfold scalar; lia|vm_compute; reflexivity].
    - constructor. apply utf8_iff; split; [repeat constructor; unfold scalar; lia|vm_compute; reflexivity].
  Qed.
  Lemma query_text : forall lo ident_sql edge_sql heap dis nd q s b r, fine lo -> valid_runes q -> query lo ident_sql edge_sql heap (MB nd q None dis s) = Some (b, r) ->
    exists es, bErrs (sOwn (mSt b)) = bErrs (sOwn s) ++ es /\ Forall (fun e => exists t, serr_text ip ff q e = Some t /\ sql_says ip q e t) es.
  Proof.
    intros lo ident_sql edge_sql heap dis nd q s b r Hlo Hq H. destruct (query_keeps lo ident_sql edge_sql heap dis nd q s b r Hq H) as (es & E & K). clear H. exists es. split; [exact E|].
    destruct K as [(e & Hp & ->)|(n & Hp & F)].
    - constructor; [|constructor]. destruct (parse_text lo q e Hq Hp) as (t & T1 & T2). clear Hp. exists t. split; [exact T1|now constructor].
    - eapply Forall_impl; [|exact F]. intros e Hc. exact (caused_text lo heap q n e Hlo Hq Hp Hc).
  Qed.

  (** ** entql *)
  Lemma evaluated_reach : forall n, safe n -> forall m, In m (evaluated n) -> reach n m.
  Proof.
    assert (ST : forall n k m, In (Some k) (children n) -> reach k m -> reach n m) by (intros; eapply reach_step; eassumption).
    apply (safe_shape_ind (fun n => forall m, In m (evaluated n) -> reach n m)).
    - intros n v _ HT _ _ m H. assert (E : evaluated n = [n]) by (destruct n; cbn in HT; subst; reflexivity). rewrite E in H. destruct H as [<-|[]]. apply reach_refl.
    - intros o m [<-|[]]. apply reach_refl.
    - intros o m [<-|[]]. apply reach_refl.
    - intros o m [<-|[]]. apply reach_refl.
    - intros l o _ _ Il Io m [<-|[]]. apply reach_refl.
    - intros l o r _ _ _ Il Io Ir m H. cbn [evaluated mk_compare nType nLeft nOp nRight] in H. apply in_app_iff in H as [H|H]; [apply (ST _ l); cbn; auto 9|].
      apply in_app_iff in H as [H|[<-|[]]]; [apply (ST _ r); cbn; auto 9|apply reach_refl].
    - intros l o r _ _ _ Il Io Ir m H. cbn [evaluated mk_logic nType nLeft nOp nRight] in H. apply in_app_iff in H as [H|H]; [apply (ST _ l); cbn; auto 9|].
      apply in_app_iff in H as [H|[<-|[]]]; [apply (ST _ r); cbn; auto 9|apply reach_refl].
    - intros e _ IH m H. apply (ST _ e); cbn; auto 9.
    - intros e _ IH m H. apply (ST _ e); cbn; auto 9.
    - intros l o a b _ _ _ _ _ _ Il Io Ia Ib m H. cbn [evaluated mk_between nType nLeft nOp nParams map concat] in H. rewrite app_nil_r in H.
      apply in_app_iff in H as [H|H]; [apply (ST _ l); cbn; auto 9|]. apply in_app_iff in H as [H|H]; [apply (ST _ a)|apply (ST _ b)]; cbn; auto 9.
    - intros f ms _ IH m [<-|[]]. apply reach_refl.
  Qed.
  Lemma ql_text : forall lo q e, fine lo -> valid_runes q -> build_entql lo q = Err e -> exists u, eerr_text ip q e = Some u /\ ql_says ip q e u.
  Proof.
    intros lo q e Hlo Hq H. destruct (parse_total lo q Hq) as [(n & Hp)|(e0 & Hp)].
    - pose proof (build_blame lo q n Hq Hp) as B. rewrite H in B. clear H. destruct B as (bf & m & af & E & F & _).
      assert (R : reach n m) by (apply evaluated_reach; [exact (parse_safe lo q n Hq Hp)|rewrite E; apply in_elt]).
      pose proof (tree_texts lo q n Hlo Hq Hp m R) as TX. pose proof (tree_texts lo q n Hlo Hq Hp) as TA. clear Hp E.
      assert (KID : forall k, In (Some k) (children m) -> texts k) by (intros k Hk; apply TA; apply (reach_trans n m); [exact R|]; eapply reach_step; [exact Hk|apply reach_refl]).
      destruct F as [ns|o|l k r F|l k r F]; (eexists; split; [reflexivity|]).
      + constructor. apply quoted_ok. now apply wide_ascii.
      + constructor 2 with (t := form #"operation" o); [constructor|]. apply quoted_ok. apply (form_wide #"operation" o); [reflexivity|]. exact (proj1 TX).
      + constructor. apply quoted_ok. exact (proj1 (KID k ltac:(cbn; auto 9))).
      + constructor. apply quoted_ok. exact (proj1 (KID k ltac:(cbn; auto 9))).
    - unfold build_entql, ebuild in H. destruct q as [|c q]; [discriminate H|]. destruct (parse_text lo (c :: q) e0 Hq Hp) as (t & T1 & T2). rewrite Hp in H. clear Hp. injection H as <-.
      exists t. split; [exact T1|now constructor].
  Qed.
  Lemma build_text : forall lo q e, fine lo -> valid_runes q -> build_entql lo q = Err e ->
    exists u t, build_entql_text ip lo q = Some t /\ ql_says ip q e u /\ about ip #"failed to build" q u t.
  Proof.
    intros lo q e Hlo Hq H. destruct (ql_text lo q e Hlo Hq H) as (u & U1 & U2). unfold build_entql_text. rewrite H, U1. cbn [wrapped]. eexists _, _. split; [reflexivity|]. split; [exact U2|].
    eexists. split; [|reflexivity]. apply quoted_ok. now apply wide_valid.
  Qed.
  Lemma apply_text : forall lo good q rest e, fine lo -> valid_runes q -> (forall g, In g good -> exists p, build_entql lo g = Ok p) -> build_entql lo q = Err e ->
    exists u t, apply_entql_text ip lo (good ++ q :: rest) = Some t /\ ql_says ip q e u /\ about ip #"failed to apply" q u t.
  Proof.
    intros lo good q rest e Hlo Hq G H. induction good as [|g good IH].
    - destruct (ql_text lo q e Hlo Hq H) as (u & U1 & U2). cbn [app apply_entql_text]. rewrite H, U1. cbn [wrapped]. eexists _, _. split; [reflexivity|]. split; [exact U2|].
      eexists. split; [|reflexivity]. apply quoted_ok. now apply wide_valid.
    - cbn [app apply_entql_text]. destruct (G g (or_introl eq_refl)) as (p & ->). apply IH. intros g' Hg. apply G. now right.
  Qed.

  (** ** One text for one error *)
  Lemma trail_one : forall q T T', trail Gpeg (PRule rGrammar) q None T -> trail Gpeg (PRule rGrammar) q None T' -> T = T'.
  Proof. intros q T T' A B. now destruct (trail_det _ _ _ _ _ A _ _ B). Qed.
  Lemma parse_one : forall q e t t', parse_says ip q e t -> parse_says ip q e t' -> t = t'.
  Proof.
    intros q e t t' H K. destruct H as [b f T t HT HM|ds l HL]; inversion K; subst.
    - match goal with A : trail _ _ _ _ ?X |- _ => pose proof (trail_one q T X HT A); subst end. eapply message_det; eassumption.
    - match goal with A : literal _ ds ?X |- _ => pose proof (literal_det ip ds l X HL A); subst end. reflexivity.
  Qed.
  Lemma utf8_one : forall b x y, utf8 b x -> utf8 b y -> x = y.
  Proof. intros b x y A B. apply decode_utf8 in A. apply decode_utf8 in B. congruence. Qed.
  Ltac same := repeat match goal with
    | A : literal ip ?x ?a, B : literal ip ?x ?b |- _ => pose proof (literal_det ip x a b A B); subst b; clear B
    | A : utf8 ?x ?a, B : utf8 ?x ?b |- _ => pose proof (utf8_one x a b A B); subst b; clear B
    | A : shows ?x ?a, B : shows ?x ?b |- _ => pose proof (proj1 show_det x a A b B); subst b; clear B
    end.
  Lemma gorm_one : forall q e t t', gorm_says ip q e t -> gorm_says ip q e t' -> t = t'.
  Proof. intros q e t t' H K. destruct H; inversion K; subst; same; try reflexivity. f_equal. eapply parse_one; eassumption. Qed.
  Lemma ql_one : forall q e t t', ql_says ip q e t -> ql_says ip q e t' -> t = t'.
  Proof. intros q e t t' H K. destruct H; inversion K; subst; same; same; try reflexivity. eapply parse_one; eassumption. Qed.
  Lemma sql_one : forall q e t t', sql_says ip q e t -> sql_says ip q e t' -> t = t'.
  Proof. intros q e t t' H K. destruct H; inversion K; subst; same; same; try reflexivity. eapply parse_one; eassumption. Qed.
  Lemma literal_front : forall x y a b u v, literal ip x a -> literal ip y b -> a ++ u = b ++ v -> x = y /\ u = v.
  Proof.
    intros x y a b u v (t & H & ->) (t' & H' & ->) E. cbn [app] in E. injection E as E. rewrite <- !app_assoc in E. exact (spelling_unique ip ip x t y t' u v H H' E).
  Qed.
  (** ** One error for one text *)
  Lemma gorm_who : forall q e e' t, gorm_says ip q e t -> gorm_says ip q e' t -> (exists p p', e = GSyntax p /\ e' = GSyntax p') \/ e = e'.
  Proof.
    intros q e e' t H K. destruct H; inversion K; subst; try discriminate; try (left; eauto; fail); right; try reflexivity;
      try (f_equal; eapply literal_unique; eassumption).
    match goal with A : literal ip ?a ?x, A' : literal ip ?b ?y, B : literal ip ?c ?u, B' : literal ip ?d ?v |- GRelField ?a ?b = GRelField ?c ?d =>
      destruct (literal_front a c x u (#"." ++ y) (#"." ++ v) A B) as [-> E]; [auto|]; injection E as ->; pose proof (literal_unique ip ip b d v A' B'); subst; reflexivity end.
  Qed.
  Lemma ql_who : forall q e e' t, ql_says ip q e t -> ql_says ip q e' t -> (exists p p', e = XParse p /\ e' = XParse p') \/ e = e'.
  Proof.
    assert (P : forall q e t, parse_says ip q e t -> hd 0%N t = 10%N \/ hd 0%N t = 115%N).
    { intros q e t [b f T u _ (a1 & a2 & a3 & a4 & a5 & a6 & a7 & a8 & a9 & _ & _ & _ & _ & _ & ->)|ds l _]; [now left|now right]. }
    assert (N : forall q e t, ql_says ip q e t -> (exists p, e = XParse p) \/ (hd 0%N t = 117%N \/ hd 0%N t = 105%N)) by (intros q e t []; eauto; right; auto).
    intros q e e' t H K. destruct (N q e t H) as [(p & ->)|A]; destruct (N q e' t K) as [(p' & ->)|B]; [left; eauto| | |].
    - exfalso. inversion H; subst. match goal with X : parse_says _ _ _ _ |- _ => destruct (P _ _ _ X) as [Y|Y]; rewrite Y in B end; destruct B; discriminate.
    - exfalso. inversion K; subst. match goal with X : parse_says _ _ _ _ |- _ => destruct (P _ _ _ X) as [Y|Y]; rewrite Y in A end; destruct A; discriminate.
    - right. destruct H as [p u H|o u l S H|x l H|l H].
      + exfalso. destruct (P _ _ _ H) as [Y|Y]; rewrite Y in A; destruct A; discriminate.
      + inversion K; subst; try discriminate.
        * match goal with X : parse_says _ _ _ _ |- _ => destruct (P _ _ _ X) as [Y|Y]; cbn in Y; discriminate Y end.
        * match goal with A' : literal ip ?a l, B' : literal ip ?b l |- _ => pose proof (literal_unique ip ip a b l A' B'); subst end.
          inversion S; subst; [match goal with X : value_text (mk_op _) _ |- _ => inversion X end|].
          assert (Z : forall z u, shows (mk_op z) u -> u = form #"operation" z) by (intros z u Hz; inversion Hz; subst; [match goal with X : value_text (mk_op _) _ |- _ => inversion X end|reflexivity]).
          match goal with X : shows (mk_op ?z) (form _ ?w) |- _ ?w = XOpNode ?z => apply Z in X; unfold form in X; apply app_inv_head in X; apply app_inv_head in X; apply app_inv_tail in X; subst end. reflexivity.
        * exfalso. match goal with X : literal ip _ (110%N :: _) |- _ => destruct X as (? & _ & Y); discriminate Y end.
      + inversion K; subst; try discriminate.
        * match goal with X : parse_says _ _ _ _ |- _ => destruct (P _ _ _ X) as [Y|Y]; cbn in Y; discriminate Y end.
        * exfalso. destruct H as (? & _ & Y). discriminate Y.
        * f_equal. eapply literal_unique; eassumption.
      + inversion K; subst; try discriminate; try reflexivity.
        match goal with X : parse_says _ _ _ _ |- _ => destruct (P _ _ _ X) as [Y|Y]; cbn in Y; discriminate Y end.
  Qed.
  (** the literal of a name is the name in quotes *)
  Lemma name_literal : forall x l, (forall c, idchar c = true -> ip c = true) -> ident x -> literal ip x l -> l = #"""" ++ x ++ #"""".
  Proof.
    intros x l Hp ((c & r & -> & L & I) & _) (t & H & ->). assert (W : forallb idchar (c :: r) = true).
    { cbn [forallb]. rewrite I. unfold idchar. now rewrite L. }
    clear L I. generalize dependent (c :: r). intros y H W. cbn. f_equal. f_equal. induction H as [|d s u v Hd _ IH]; [reflexivity|]. cbn [forallb] in W. apply andb_prop in W as [W1 W2].
    rewrite (IH W2). pose proof (Hp d W1) as P. clear - Hd P W1. inversion Hd; subst; try congruence; [reflexivity|]. destruct H as [->| ->]; discriminate W1.
  Qed.

  (** ** No control characters *)
  Definition tame (t : list N) : Prop := Forall (fun c => control c = false) t.
  Hypothesis printed : forall c, ip c = true -> control c = false.
  Lemma tame_ascii : forall t, forallb (fun c => negb (control c)) t = true -> tame t.
  Proof. intros t H. apply Forall_forall. intros c Hc. rewrite forallb_forall in H. specialize (H c Hc). now apply negb_true_iff in H. Qed.
  Lemma tame_app : forall a b, tame (a ++ b) <-> tame a /\ tame b.
  Proof. intros a b. apply Forall_app. Qed.
  Lemma literal_tame : forall s l, literal ip s l -> tame l.
  Proof. intros s l H. apply tame_ascii. exact (literal_controls ip printed s l H). Qed.
  Lemma gorm_tame : forall q e t, gorm_says ip q e t -> (forall p, e <> GSyntax p) -> tame t.
  Proof.
    intros q e t H K. destruct H; rewrite ?tame_app; try (exfalso; now apply (K e)); repeat split; try (now apply tame_ascii); eapply literal_tame; eassumption.
  Qed.
  Lemma ql_tame : forall q e t, ql_says ip q e t -> (forall p, e <> XParse p) -> tame t.
  Proof.
    intros q e t H K. destruct H; rewrite ?tame_app; try (exfalso; now apply (K e)); repeat split; try (now apply tame_ascii); eapply literal_tame; eassumption.
  Qed.
  Lemma about_tame : forall what q t out, tame what -> tame t -> about ip what q t out -> tame out.
  Proof. intros what q t out A B (l & L & ->). rewrite !tame_app. repeat split; try assumption; try (now apply tame_ascii). eapply literal_tame; eassumption. Qed.
  Lemma phrase_tame : forall b w, utf8 b w -> forallb (fun c => negb (control c)) (decode b) = true -> tame w.
  Proof. intros b w H K. apply decode_utf8 in H. subst w. now apply tame_ascii. Qed.
  Lemma sql_tame : forall q e t, sql_says ip q e t -> (forall p, e <> SParse p) -> tame t.
  Proof.
    intros q e t H K. destruct H; rewrite ?tame_app; try (exfalso; now apply (K e)); repeat split; try (now apply tame_ascii);
      try (eapply phrase_tame; [eassumption|vm_compute; reflexivity]); eapply literal_tame; eassumption.
  Qed.
End Text.
