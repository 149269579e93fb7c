(** The message of a syntax error. *)
From Verif Require Import Base Peg PegSpec PegProofs MachineProofs Grammar Node Vocab Tree Parse GrammarProofs Syntax
  Blank Lex Ops Complete CompleteMain Sound ParseProofs Unique PegSpecProofs ParserFacts ParserFacts2 NormProofs ParserMain
  Build BuildProofs Ast QuoteSpec QuoteProofs AstSpec AstProofs TrailSpec TrailProofs Report ReportSpec.
Require Import Arith.
Strategy expand [parse_machine].
Strategy 1000 [parse_fuel mrun].

Lemma parse_error_iff : forall lo q, valid_runes q ->
  (exists b e, parse lo q = Err (PESyntax b e)) <-> exists m, parse_error q = Some m.
Proof.
  intros lo q Hq. unfold parse_error. split.
  - intros (b & e & H). destruct (syntax_error_machine lo q b e Hq H) as (s & HP & _). rewrite HP. eauto.
  - intros (m & H). unfold parse. pose proof (parse_machine_spec q Hq) as HS.
    destruct (E (PRule rGrammar) q) as [[ev r]|]; destruct HS as (s & HP & _); rewrite HP in *; [clear HP; discriminate H|eauto].
Qed.
Lemma parse_error_span : forall lo q b e, valid_runes q -> parse lo q = Err (PESyntax b e) ->
  exists m, parse_error q = Some m /\ tbegin m = b /\ tend m = e.
Proof.
  intros lo q b e Hq H. destruct (syntax_error_machine lo q b e Hq H) as (s & HP & Hb & He). unfold parse_error. rewrite HP. clear HP. eauto.
Qed.

(** what [max] is *)
Lemma error_blamed : forall q m, valid_runes q -> parse_error q = Some m -> exists T name pre text rest,
  trail Gpeg (PRule rGrammar) q None T /\ blamed T name pre text rest /\ q = pre ++ text ++ rest /\
  tbegin m = length pre /\ tend m = length pre + length text /\ max_name m = name.
Proof.
  intros q m Hq H. unfold parse_error in H. destruct (parse_machine q) as [| |[|] s] eqn:HP; try (clear HP; discriminate H).
  assert (E : mmax s = m) by (clear HP; injection H as H; exact H). clear H.
  destruct (failed_max q s Hq HP) as (T & HT & [[-> H]|([[r p] rest] & HF & (Hp & (pre & Eq) & Hr) & H)]); clear HP; rewrite E in H; clear E.
  - exists [], #"Unknown", [], [], q. split; [exact HT|]. split; [left; auto|]. rewrite H. repeat split.
  - exists T, (title r), pre, p, rest. split; [exact HT|]. split; [right; split; [exact Hp|exists r; auto]|]. split; [exact Eq|].
    rewrite H. cbn [hit_tok tbegin tend]. assert (L : length q = length pre + length p + length rest) by (rewrite Eq, !app_length; lia).
    split; [lia|]. split; [lia|]. unfold max_name. cbn [tbegin tend trule].
    destruct (Nat.eqb_spec (length q - length rest - length p) (length q - length rest)) as [K|K].
    + destruct p; [now elim Hp|]. cbn [length] in *. lia.
    + apply rule_title. destruct r; [reflexivity|reflexivity|destruct Hr].
Qed.
Lemma blamed_unique : forall T q n1 pre1 t1 r1 n2 pre2 t2 r2,
  blamed T n1 pre1 t1 r1 -> blamed T n2 pre2 t2 r2 -> q = pre1 ++ t1 ++ r1 -> q = pre2 ++ t2 ++ r2 ->
  n1 = n2 /\ pre1 = pre2 /\ t1 = t2 /\ r1 = r2.
Proof.
  assert (U : forall T a b, farthest T a -> farthest T b -> a = b).
  { intros T a b (T1 & T2 & E1 & F1 & F2) (U1 & U2 & E2 & K1 & K2). rewrite E1 in E2. clear E1 T.
    revert U1 E2 K1. induction T1 as [|x T1 IH]; intros [|y U1] E2 K1; cbn in E2; injection E2 as -> E2.
    - reflexivity.
    - exfalso. inversion K1 as [|? ? Ky K1']; subst. rewrite Forall_forall in F2. specialize (F2 b ltac:(apply in_or_app; right; now left)). cbv beta in *. lia.
    - exfalso. inversion F1 as [|? ? Ky F1']; subst. rewrite Forall_forall in K2. specialize (K2 a ltac:(apply in_or_app; right; now left)). cbv beta in *. lia.
    - inversion F1; inversion K1; subst. eapply IH; eauto. }
  assert (NF : forall h, ~ farthest [] h) by (intros h ([|? ?] & ? & K & _); discriminate).
  intros T q n1 pre1 t1 r1 n2 pre2 t2 r2 [(-> & -> & -> & ->)|(_ & k1 & F1 & ->)] [(A & -> & -> & ->)|(_ & k2 & F2 & ->)] E1 E2.
  - repeat split. cbn in E1, E2. congruence.
  - now apply NF in F2.
  - subst T. now apply NF in F1.
  - pose proof (U _ _ _ F1 F2) as E. injection E as -> -> ->. rewrite E1 in E2. apply app_inv_tail in E2. auto.
Qed.

Lemma report_place : forall q b e, valid_runes q -> b <= e -> e <= length q ->
  let tr := translate_positions (init_buffer q) b e in
  lookup_pos b tr = (line_of (q ++ [endSymbol]) b, column_of (q ++ [endSymbol]) b) /\
  lookup_pos e tr = (line_of (q ++ [endSymbol]) e, column_of (q ++ [endSymbol]) e) /\
  slice_rng (init_buffer q) b e = Some (slice q b e).
Proof.
  intros q b e Hq Hb He. pose proof (report_ok q b e Hq Hb He) as H. unfold error_report in H.
  destruct (slice_rng (init_buffer q) b e) as [s|]; [|discriminate]. injection H as H1 H2 H3. cbv zeta. now rewrite H1, H2, H3.
Qed.
Lemma error_message : forall ip pr q m, valid_runes q -> parse_error q = Some m -> exists T out,
  trail Gpeg (PRule rGrammar) q None T /\ error_text ip pr (init_buffer q) m = Some out /\ message ip pr q T out.
Proof.
  intros ip pr q m Hq H. destruct (error_blamed q m Hq H) as (T & name & pre & text & rest & HT & HB & Eq & Eb & Ee & En). clear H.
  assert (Hb : tbegin m <= tend m) by lia. assert (He : tend m <= length q) by (rewrite Eq, !app_length; lia).
  destruct (report_place q _ _ Hq Hb He) as (P1 & P2 & P3). cbv zeta in *.
  assert (Es : slice q (tbegin m) (tend m) = text).
  { unfold slice. rewrite Eq, Eb, Ee. rewrite skipn_app, skipn_all, Nat.sub_diag. cbn [skipn app].
    replace (length pre + length text - length pre) with (length text) by lia. rewrite firstn_app, firstn_all, Nat.sub_diag. cbn. apply app_nil_r. }
  assert (Hv : valid_runes text).
  { rewrite <- Es. now apply slice_valid. }
  exists T. eexists. split; [exact HT|]. split.
  - unfold error_text. cbv zeta. rewrite P1, P2, P3, Es, En. cbn [fst snd]. reflexivity.
  - exists name, pre, text, rest. do 4 eexists. exists (quoted ip text). split; [exact HB|]. split; [exact Eq|].
    split; [split; apply print_decimal|]. split; [split; apply print_decimal|]. split; [now apply quoted_valid|].
    rewrite Eb, Ee. unfold coloured. destruct pr; cbn [app]; rewrite <- ?app_assoc; reflexivity.
Qed.

(** ** The specification determines the message *)
Lemma hexd_inj : forall c c' v, hex_digit c = Some v -> hex_digit c' = Some v -> c = c' /\ (v < 16)%N.
Proof.
  intros c c' v H H'. unfold hex_digit in *.
  destruct (N.leb_spec 48 c), (N.leb_spec c 57), (N.leb_spec 97 c), (N.leb_spec c 102); cbn [andb] in H; try discriminate; injection H as <-;
  destruct (N.leb_spec 48 c'), (N.leb_spec c' 57), (N.leb_spec 97 c'), (N.leb_spec c' 102); cbn [andb] in H'; try discriminate; injection H' as H'; lia.
Qed.
Lemma hexv_inj : forall ds ds' v, length ds = length ds' -> hex_value 0 ds = Some v -> hex_value 0 ds' = Some v -> ds = ds'.
Proof.
  induction ds as [|c ds IH] using rev_ind; intros ds' v L H H'.
  - destruct ds'; [reflexivity|discriminate].
  - destruct ds' as [|c' ds' _] using rev_ind; [rewrite app_length in L; cbn in L; lia|].
    rewrite !app_length in L. cbn in L. rewrite hex_value_app in H, H'. destruct (hex_value 0 ds) as [a|] eqn:Ea; [|discriminate].
    destruct (hex_value 0 ds') as [a'|] eqn:Ea'; [|discriminate]. cbn [hex_value] in *.
    destruct (hex_digit c) as [d|] eqn:Ed; [|discriminate]. destruct (hex_digit c') as [d'|] eqn:Ed'; [|discriminate].
    assert (X : (16 * a + d = 16 * a' + d')%N) by congruence. clear H H'. destruct (hexd_inj c c d Ed Ed) as [_ B]. destruct (hexd_inj c' c' d' Ed' Ed') as [_ B'].
    assert (a = a' /\ d = d') as [-> ->] by lia. destruct (hexd_inj c c' d' Ed Ed') as [-> _]. f_equal. eapply IH; [lia|reflexivity|exact Ea'].
Qed.
Lemma spells_det : forall ip c t t', spells ip c t -> spells ip c t' -> t = t'.
Proof.
  intros ip c t t' H H'.
  assert (ES : forall c t, In (c, t) escapes -> (c < 32)%N) by (intros c0 t0 K; unfold escapes in K; cbn in K; repeat (destruct K as [K|K]; [injection K as <- _; lia|]); destruct K).
  assert (ED : forall c t t', In (c, t) escapes -> In (c, t') escapes -> t = t').
  { intros c0 t0 t1 K K'. unfold escapes in K, K'. cbn in K, K'.
    repeat (destruct K as [K|K]; [injection K as <- <-; repeat (destruct K' as [K'|K']; [first [discriminate K' | injection K' as <-; reflexivity]|]); destruct K'|]). destruct K. }
  destruct H as [c H1 H2 H3|c [->| ->]|c t H1 H2|c ds H1 H2 H3 H4 H5|c ds H1 H2 H3 H4 H5 H6 H7|c ds H1 H2 H3 H4];
  inversion H' as [c0 K1 K2 K3|c0 K1|c0 t0 K1 K2|c0 ds0 K1 K2 K3 K4 K5|c0 ds0 K1 K2 K3 K4 K5 K6 K7|c0 ds0 K1 K2 K3 K4]; subst; try reflexivity; try congruence;
  try (destruct K1; subst; congruence || lia);
  try (match goal with K : In _ escapes |- _ => apply ES in K end; lia); try lia; try (f_equal; eauto; fail); try (now apply K2 in H2); try (now apply H2 in K2);
  try (destruct K1; subst; match goal with K : In _ escapes |- _ => apply ES in K end; lia);
  try (f_equal; eapply hexv_inj; [|eassumption|eassumption]; congruence).
Qed.
Lemma literal_det : forall ip s l l', literal ip s l -> literal ip s l' -> l = l'.
Proof.
  intros ip s l l' (t & H & ->) (t' & H' & ->). do 2 f_equal. revert t' H'. induction H as [|c s t u Hc _ IH]; intros t' H'; inversion H'; subst; [reflexivity|].
  f_equal; [eapply spells_det; eassumption|auto].
Qed.
Lemma dec_bounds : forall r, Forall (fun c => (48 <= c <= 57)%N) r -> (0 <= dec_value r < 10 ^ Z.of_nat (length r))%Z.
Proof.
  induction 1 as [|c r Hc Hr IH]; [cbn; lia|]. cbn [dec_value length]. rewrite Nat2Z.inj_succ, Z.pow_succ_r by lia. nia.
Qed.
Lemma dec_inj : forall r r', Forall (fun c => (48 <= c <= 57)%N) r -> Forall (fun c => (48 <= c <= 57)%N) r' -> length r = length r' ->
  dec_value r = dec_value r' -> r = r'.
Proof.
  induction r as [|c r IH]; intros [|c' r'] H H' L E; try discriminate; [reflexivity|]. cbn in L. injection L as L.
  inversion H as [|? ? Hc Hr]; inversion H' as [|? ? Hc' Hr']; subst. cbn [dec_value] in E. rewrite L in E.
  pose proof (dec_bounds r Hr). pose proof (dec_bounds r' Hr'). rewrite L in *.
  assert (c = c') as -> by nia. f_equal. apply IH; auto. lia.
Qed.
Lemma decimal_det : forall n d d', decimal n d -> decimal n d' -> d = d'.
Proof.
  intros n d d' (A & A0 & A1 & A2 & A3) (B & B0 & B1 & B2 & B3). destruct (Nat.eq_dec n 0) as [->|Hn]; [now rewrite A3, B3|].
  destruct (A2 Hn) as (c & r & -> & Hc). destruct (B2 Hn) as (c' & r' & -> & Hc').
  inversion A as [|? ? Kc Kr]; inversion B as [|? ? Kc' Kr']; subst. apply dec_inj; auto; [|congruence]. cbn [length]. f_equal.
  rewrite <- B1 in A1. cbn [dec_value] in A1. pose proof (dec_bounds r Kr). pose proof (dec_bounds r' Kr').
  destruct (Nat.lt_trichotomy (length r) (length r')) as [L|[L|L]]; [|exact L|]; exfalso.
  - assert (10 ^ Z.of_nat (S (length r)) <= 10 ^ Z.of_nat (length r'))%Z as P by (apply Z.pow_le_mono_r; lia). rewrite Nat2Z.inj_succ, Z.pow_succ_r in P by lia. nia.
  - assert (10 ^ Z.of_nat (S (length r')) <= 10 ^ Z.of_nat (length r))%Z as P by (apply Z.pow_le_mono_r; lia). rewrite Nat2Z.inj_succ, Z.pow_succ_r in P by lia. nia.
Qed.
Lemma message_det : forall ip pr q T out out', message ip pr q T out -> message ip pr q T out' -> out = out'.
Proof.
  intros ip pr q T out out' (n & pre & t & r & l1 & c1 & l2 & c2 & lit & B & E & (P1 & P2) & (P3 & P4) & L & ->)
    (n' & pre' & t' & r' & l1' & c1' & l2' & c2' & lit' & B' & E' & (P1' & P2') & (P3' & P4') & L' & ->).
  destruct (blamed_unique T q _ _ _ _ _ _ _ _ B B' E E') as (-> & -> & -> & ->).
  rewrite (decimal_det _ _ _ P1 P1'), (decimal_det _ _ _ P2 P2'), (decimal_det _ _ _ P3 P3'), (decimal_det _ _ _ P4 P4'), (literal_det _ _ _ _ L L').
  reflexivity.
Qed.

(** ** Two lines *)
Lemma title_controls : forall r, forallb (fun c => negb (control c)) (title r) = true.
Proof. intros [r| |n]; [destruct r; reflexivity|reflexivity|reflexivity]. Qed.
Lemma message_lines : forall ip q T out, (forall c, ip c = true -> control c = false) -> message ip false q T out ->
  exists a b, out = [10%N] ++ a ++ [10%N] ++ b ++ [10%N] /\ forallb (fun c => negb (control c)) (a ++ b) = true.
Proof.
  intros ip q T out Hip (n & pre & t & r & l1 & c1 & l2 & c2 & lit & B & E & (P1 & P2) & (P3 & P4) & L & ->).
  exists (#"parse error near " ++ n ++ #" (line " ++ l1 ++ #" symbol " ++ c1 ++ #" - line " ++ l2 ++ #" symbol " ++ c2 ++ #"):"), lit. split.
  - unfold coloured. repeat rewrite <- app_assoc. reflexivity.
  - rewrite !forallb_app, (literal_controls ip Hip _ _ L), (decimal_controls _ _ P1), (decimal_controls _ _ P2), (decimal_controls _ _ P3), (decimal_controls _ _ P4).
    assert (K : forallb (fun c => negb (control c)) n = true) by (destruct B as [(_ & -> & _)|(_ & r0 & _ & ->)]; [reflexivity|apply title_controls]).
    rewrite K. reflexivity.
Qed.

Lemma error_when : forall lo q, valid_runes q ->
  ((exists m, parse_error q = Some m) <-> exists b e, parse lo q = Err (PESyntax b e)) /\
  ((exists m, parse_error q = Some m) <-> ~ exists e, reads q e).
Proof.
  intros lo q Hq. pose proof (parse_error_iff lo q Hq) as H. pose proof (parse_rejects lo q Hq) as R. split; [split; apply H|].
  split.
  - intros K (e & He). exact (proj2 R (proj2 H K) e He).
  - intros K. apply (proj1 H), (proj1 R). intros e He. apply K. eauto.
Qed.
Lemma late_refuted : forall is_print pretty, exists q q2 q3 m out, valid_runes q /\ valid_runes q2 /\ valid_runes q3 /\
  parse_error q = Some m /\ error_text is_print pretty (init_buffer q2) m = None /\
  error_text is_print pretty (init_buffer q3) m = Some out /\ forall T o, trail Gpeg (PRule rGrammar) q o T -> ~ message is_print pretty q T out.
Proof.
  intros ip pr. exists #"abc d", #"a", #"
ab=1", (Tok (TRule rSpace) 3 4). eexists. do 3 (split; [apply valid_runesb_spec; vm_compute; reflexivity|]).
  assert (HE : parse_error #"abc d" = Some (Tok (TRule rSpace) 3 4)) by (vm_compute; reflexivity).
  split; [exact HE|]. split; [vm_compute; reflexivity|]. split; [vm_compute; reflexivity|]. intros T o HT HM.
  assert (Hv : valid_runes #"abc d") by (apply valid_runesb_spec; vm_compute; reflexivity).
  destruct (error_message ip pr _ _ Hv HE) as (T' & out & HT' & EO & HM'). clear HE.
  destruct (trail_det _ _ _ _ _ HT _ _ HT') as [_ ->]. pose proof (message_det _ _ _ _ _ _ HM HM') as K. rewrite <- K in EO. clear -EO.
  vm_compute in EO. destruct pr; discriminate EO.
Qed.
