(** Proofs about Build (C18, C20). *)
From Verif Require Import Base Node Vocab Tree Parse Syntax Blank Lex ParseProofs NormProofs Unique ParserFacts ParserFacts2 ParserMain Build.

(** ** Decimal printing *)
Lemma dec_app : forall a b, dec_value (a ++ b) = (dec_value a * 10 ^ Z.of_nat (length b) + dec_value b)%Z.
Proof.
  induction a as [|c a IH]; intro b; [cbn; lia|]. cbn [app dec_value]. rewrite IH, app_length, Nat2Z.inj_add, Z.pow_add_r by lia. ring.
Qed.
Lemma dec_nonneg : forall ds, forallb is_digit ds = true -> (0 <= dec_value ds)%Z.
Proof.
  induction ds as [|c ds IH]; intro H; [cbn; lia|]. cbn [forallb] in H. apply andb_true_iff in H as [Hc H]. specialize (IH H).
  unfold is_digit in Hc. apply andb_true_iff in Hc as [H1 H2]. apply N.leb_le in H1, H2. cbn [dec_value].
  pose proof (Z.pow_nonneg 10 (Z.of_nat (length ds)) ltac:(lia)). nia.
Qed.
Lemma size_bound : forall n, (n < 2 ^ N.of_nat (N.size_nat n))%N.
Proof.
  destruct n as [|p]; [reflexivity|]. cbn [N.size_nat].
  assert (H : (Npos p < 2 ^ N.of_nat (Pos.size_nat p))%N); [|exact H].
  induction p as [p IH|p IH|]; cbn [Pos.size_nat]; [| |reflexivity];
    rewrite Nat2N.inj_succ, N.pow_succ_r'; lia.
Qed.
Definition dec_ok (n : N) (ds : list N) : Prop :=
  forallb is_digit ds = true /\ dec_value ds = Z.of_N n /\
  exists c r, ds = c :: r /\ ((c =? 48)%N = false \/ (n = 0%N /\ r = [])).
Lemma digits_ok : forall f n acc, (n < 2 ^ N.of_nat f)%N -> exists ds, dec_digits (S f) n acc = ds ++ acc /\ dec_ok n ds.
Proof.
  assert (D : forall d, (d < 10)%N -> is_digit (48 + d)%N = true).
  { intros d Hd. unfold is_digit. apply andb_true_iff. split; apply N.leb_le; lia. }
  assert (S1 : forall n acc f, (n < 10)%N -> exists ds, dec_digits (S f) n acc = ds ++ acc /\ dec_ok n ds).
  { intros n acc f Hn. exists [(48 + n)%N]. cbn [dec_digits]. rewrite (proj2 (N.ltb_lt _ _) Hn), N.mod_small by exact Hn.
    split; [reflexivity|]. split; [cbn [forallb]; rewrite D by exact Hn; reflexivity|].
    split; [cbn [dec_value length]; lia|]. eexists _, _. split; [reflexivity|].
    destruct (N.eqb_spec n 0); [auto|left; apply N.eqb_neq; lia]. }
  induction f as [|f IH]; intros n acc Hn.
  - apply S1. cbn in Hn. lia.
  - destruct (N.ltb_spec n 10) as [Hs|Hs]; [now apply S1|].
    rewrite Nat2N.inj_succ, N.pow_succ_r' in Hn.
    assert (Hq : (n / 10 < 2 ^ N.of_nat f)%N) by (apply N.div_lt_upper_bound; lia).
    destruct (IH (n / 10)%N ((48 + n mod 10)%N :: acc) Hq) as (ds & He & Hd & Hv & c & r & -> & Hc).
    exists ((c :: r) ++ [(48 + n mod 10)%N]).
    assert (M : (n mod 10 < 10)%N) by (apply N.mod_lt; lia).
    split; [|split; [|split]].
    + change (dec_digits (S (S f)) n acc) with (let acc' := (48 + n mod 10)%N :: acc in if (n <? 10)%N then acc' else dec_digits (S f) (n / 10)%N acc').
      cbv zeta. rewrite (proj2 (N.ltb_ge _ _) Hs), He, <- app_assoc. reflexivity.
    + rewrite forallb_app, Hd. cbn [forallb]. rewrite D by exact M. reflexivity.
    + rewrite dec_app, Hv. cbn [dec_value length]. change (10 ^ Z.of_nat 1)%Z with 10%Z. change (10 ^ Z.of_nat 0)%Z with 1%Z.
      pose proof (N.div_mod n 10 ltac:(lia)) as HD. clear -HD M. generalize dependent (n mod 10)%N. generalize (n / 10)%N. intros. lia.
    + eexists _, _. split; [reflexivity|]. destruct Hc as [Hc|[Hc _]]; [now left|].
      pose proof (N.div_mod n 10 ltac:(lia)). lia.
Qed.
Lemma print_N_ok : forall n, dec_ok n (print_N n).
Proof.
  intro n. unfold print_N. destruct (digits_ok (N.size_nat n) n [] (size_bound n)) as (ds & -> & H).
  now rewrite app_nil_r.
Qed.

(** ** Runes escaped by %q *)
Section BP.
  Variable lo : N -> N.
  Variable ip : N -> bool.
  Variable ff : Z -> list N.
  Notation nm := (normalize_operation lo).
  Notation bv := (build_visit ip ff).

  (** a string that %q writes unchanged between its quotes *)
  Definition plain (s : list N) : Prop := Forall (fun c => ip c = true /\ c <> 34%N /\ c <> 92%N) s.
  Lemma quote_plain : forall s, plain s -> quoted ip s = 34%N :: s ++ [34%N].
  Proof.
    intros s Hs. unfold quoted. do 2 f_equal. induction Hs as [|c s (Hp & H1 & H2) _ IH]; [reflexivity|].
    cbn [map concat]. rewrite IH. unfold quote_rune.
    rewrite (proj2 (N.eqb_neq _ _) H1), (proj2 (N.eqb_neq _ _) H2), Hp. reflexivity.
  Qed.
  Lemma plain_noquote : forall s, plain s -> mem 34 s = false.
  Proof.
    unfold plain, mem. intros s Hs. induction Hs as [|c s (_ & H & _) _ IH]; [reflexivity|]. cbn [existsb].
    rewrite IH, orb_false_r. apply N.eqb_neq. congruence.
  Qed.
  Lemma hex_len : forall k n, length (hex k n) = k.
  Proof. induction k as [|k IH]; intros n; [reflexivity|]. cbn [hex]. rewrite app_length, IH. cbn. lia. Qed.
  Lemma quote_rune_len : forall c, quote_rune ip c = [c] /\ (ip c = true /\ c <> 34%N /\ c <> 92%N) \/ 2 <= length (quote_rune ip c).
  Proof.
    intro c. unfold quote_rune.
    destruct (N.eqb_spec c 34); [right; cbn; lia|]. destruct (N.eqb_spec c 92); [right; cbn; lia|]. cbn [orb].
    destruct (ip c); [left; auto|]. right.
    repeat match goal with |- context [if ?b then _ else _] => destruct b; [rewrite ?app_length, ?hex_len; cbn; lia|] end.
    rewrite app_length, hex_len. cbn. lia.
  Qed.
  Lemma quoted_len : forall s, plain s \/ length s + 2 < length (quoted ip s).
  Proof.
    intro s. unfold quoted. cbn [length]. rewrite app_length. cbn [length].
    assert (H : plain s /\ length (concat (map (quote_rune ip) s)) = length s \/ length s < length (concat (map (quote_rune ip) s))).
    { induction s as [|c s IH]; [left; split; [constructor|reflexivity]|]. cbn [map concat length]. rewrite app_length.
      destruct (quote_rune_len c) as [[-> Hc]|Hc]; cbn [length].
      - destruct IH as [[IH1 IH2]|IH]; [left; split; [now constructor|lia]|right; lia].
      - right. destruct IH as [[_ IH]|IH]; lia. }
    destruct H as [[H _]|H]; [now left|right; lia].
  Qed.

  (** ** Build, one step *)
  Definition visp (rn : list N) (p : option node) : option (list N) :=
    match p with None => None | Some m => bv rn m end.
  Fixpoint vlist (rn : list N) (l : list (option node)) : option (list N) :=
    match l with
    | [] => Some []
    | [x] => visp rn x
    | x :: l' => ocat (visp rn x) (ocat (ostr #",") (vlist rn l'))
    end.
  Definition bvstep (rn : list N) (n : node) : option (list N) :=
    match nType n with
    | NNot => ocat (ostr #"not ") (visp rn (nExpression n))
    | NBetween =>
        ocat (visp rn (nLeft n)) (ocat (ostr #" ") (ocat (visp rn (nOp n)) (ocat (ostr #" ")
          match nParams n with
          | a :: b :: _ => ocat (visp rn a) (ocat (ostr #" and ") (visp rn b))
          | _ => None
          end)))
    | NPredicates | NLogic | NCompare =>
        ocat (visp rn (nLeft n)) (ocat (ostr #" ") (ocat (visp rn (nOp n))
          match nRight n with
          | None => ostr []
          | Some _ => ocat (ostr #" ") (visp rn (nRight n))
          end))
    | NParentheses => ocat (ostr #"(") (ocat (visp rn (nExpression n)) (ostr #")"))
    | NOperation => ostr (print_pretty (nOperation n))
    | NIdentifier => ostr (nName n)
    | NReference => ostr (sjoin #"." (nNames n))
    | NFunction => ocat (ostr (rn ++ #"(")) (ocat (vlist rn (nParams n)) (ostr #")"))
    | NValue =>
        match nVType n with
        | VArray => ocat (ostr #"[") (ocat (vlist rn (nArray n)) (ostr #"]"))
        | VString => ostr (quoted ip (nStr n))
        | _ => match value n with
               | None => None
               | Some GNil => ostr #"null"
               | Some v => ostr (fprint ff v)
               end
        end
    | NOther => ostr #"<unknown type>"
    end.
  Lemma bv_S : forall rn n, bv rn n = bvstep rn n.
  Proof.
    intros rn n. destruct n as [ty vt i b s fl arr op nmx nms ex le o ri ps].
    assert (L : forall l, (fix go (l : list (option node)) : option (list N) :=
        match l with
        | [] => Some []
        | [x] => match x with None => None | Some m => bv rn m end
        | x :: l' => ocat (match x with None => None | Some m => bv rn m end) (ocat (ostr #",") (go l'))
        end) l = vlist rn l).
    { induction l as [|x [|y l] IH]; [reflexivity|reflexivity|]. cbn [vlist] in *. now rewrite <- IH. }
    unfold bvstep. rewrite <- !L. destruct ty; reflexivity.
  Qed.

  (** ** What a printed tree must satisfy *)
  (** every node below [n]: its operators come from the closed vocabulary, its
      functions carry the name of the root, its strings need no escape *)
  Definition printable_at (rn : list N) (m : node) : Prop :=
    (is_operation m = true -> In (nOperation m) vocabulary) /\
    (nType m = NFunction -> nName m = rn) /\
    (nType m = NValue -> nVType m = VString -> plain (nStr m)).
  Definition printable_under (rn : list N) (n : node) : Prop := forall m, reach n m -> printable_at rn m.
  Definition printable (n : node) : Prop := printable_under (nName n) n.

  Lemma pu_child : forall rn n k, printable_under rn n -> In (Some k) (children n) -> printable_under rn k.
  Proof. intros rn n k H Hk m Hm. apply H. econstructor; eassumption. Qed.
  Lemma pu_self : forall rn n, printable_under rn n -> printable_at rn n.
  Proof. intros rn n H. apply H. constructor. Qed.

  (** markers survive normalisation *)
  Lemma trim_left_marker : forall m, m = #"--" \/ m = #"//" -> forall a b, exists a', trim_left (a ++ m ++ b) = a' ++ m ++ b.
  Proof.
    intros m Hm a b. induction a as [|c a IH].
    - exists []. destruct Hm as [->| ->]; reflexivity.
    - cbn [app trim_left]. destruct (unicode_space c); [exact IH|]. now exists (c :: a).
  Qed.
  Lemma trim_marker : forall m, m = #"--" \/ m = #"//" -> forall a b, exists a' b', trim_space (a ++ m ++ b) = a' ++ m ++ b'.
  Proof.
    intros m Hm a b. rewrite trim_space_eq. destruct (trim_left_marker m Hm a b) as (a' & ->). unfold trim_right.
    rewrite !rev_app_distr, <- app_assoc.
    replace (rev m) with m by now destruct Hm as [->| ->].
    destruct (trim_left_marker m Hm (rev b) (rev a')) as (b' & ->).
    exists a', (rev b'). rewrite !rev_app_distr, rev_involutive, <- app_assoc.
    replace (rev m) with m by now destruct Hm as [->| ->]. reflexivity.
  Qed.
  Lemma collapse_marker : forall m, m = #"--" \/ m = #"//" -> forall a b i, exists a' b', collapse i (a ++ m ++ b) = a' ++ m ++ b'.
  Proof.
    intros m Hm. induction a as [|c a IH]; intros b i.
    - destruct Hm as [->| ->]; (exists [], (collapse false b); reflexivity).
    - cbn [app collapse]. destruct (re_space c).
      + destruct i; [apply IH|]. destruct (IH b true) as (a' & b' & ->). now exists (32%N :: a'), b'.
      + destruct (IH b false) as (a' & b' & ->). now exists (c :: a'), b'.
  Qed.
  Lemma nm_marker : forall o, marker_free (nm o) -> marker_free o.
  Proof.
    intros o H a m b Hm ->.
    destruct (trim_marker m Hm a b) as (a1 & b1 & H1).
    destruct (collapse_marker m Hm (map (to_lower_rune lo) a1) (map (to_lower_rune lo) b1) false) as (a2 & b2 & H2).
    unfold normalize_operation in H. rewrite H1, !map_app in H.
    assert (Hl : map (to_lower_rune lo) m = m) by now destruct Hm as [->| ->].
    rewrite Hl, H2 in H.
    assert (K : assoc (a2 ++ m ++ b2) normalize_map = None).
    { destruct (assoc (a2 ++ m ++ b2) normalize_map) eqn:E; [|reflexivity]. apply assoc_in in E.
      assert (Q : forallb (fun kv : list N * list N => negb (existsb (fun i => match firstn 2 (skipn i (fst kv)) with
          | [45;45] => true | [47;47] => true | _ => false end%N) [0;1;2;3;4;5;6;7])) normalize_map = true) by reflexivity.
      rewrite forallb_forall in Q. specialize (Q _ E). cbn [fst] in Q. exfalso.
      assert (Hlen : length (a2 ++ m ++ b2) <= 7).
      { assert (Q2 : forallb (fun kv : list N * list N => Nat.leb (length (fst kv)) 7) normalize_map = true) by reflexivity.
        rewrite forallb_forall in Q2. specialize (Q2 _ E). cbn [fst] in Q2. now apply Nat.leb_le in Q2. }
      assert (Hx : existsb (fun i => match firstn 2 (skipn i (a2 ++ m ++ b2)) with
          | [45;45] => true | [47;47] => true | _ => false end%N) [0;1;2;3;4;5;6;7] = true).
      { apply existsb_exists. exists (length a2). split.
        - rewrite !app_length in Hlen. assert (Ha : length a2 <= 7) by lia. clear -Ha.
          cbn. lia.
        - rewrite skipn_app, skipn_all2, Nat.sub_diag by lia. destruct Hm as [->| ->]; reflexivity. }
      rewrite Hx in Q. discriminate. }
    rewrite K in H. exact (H a2 m b2 Hm eq_refl).
  Qed.
  Lemma voc_mf : forall v, In v vocabulary -> marker_free v.
  Proof.
    intros v Hv a m b Hm ->.
    assert (Q : forallb (fun v => forallb (fun c => negb ((c =? 45) || (c =? 47)))%N v) vocabulary = true) by reflexivity.
    rewrite forallb_forall in Q. specialize (Q _ Hv). rewrite !forallb_app in Q.
    apply andb_true_iff in Q as [_ Q]. apply andb_true_iff in Q as [Q _]. destruct Hm as [->| ->]; discriminate.
  Qed.

  (** ** Printed operators *)
  Lemma sp_blank : blank #" ".
  Proof. apply blank_char; [reflexivity|constructor]. Qed.
  Lemma sp_gap : gap1 #" ".
  Proof. split; [apply sp_blank|discriminate]. Qed.
  Hint Resolve sp_blank sp_gap blank_nil : core.
  Definition keeps (P : list N -> Prop) (o : list N) : Prop := P (print_pretty (nm o)) /\ nm (print_pretty (nm o)) = nm o.
  Lemma keep_between : forall o, op_between o -> marker_free o -> keeps op_between o.
  Proof.
    intros o [->|H] Hm; [split; [now left|reflexivity]|].
    unfold keeps. rewrite (norm_not lo _ #"between" _ H eq_refl Hm). split; [|reflexivity].
    right. exists #"not", #" ". split; [reflexivity|split; [exact sp_gap|reflexivity]].
  Qed.
  Lemma keep_in : forall o, op_in o -> marker_free o -> keeps op_in o.
  Proof.
    intros o [H|(x & Hx & H)] Hm; unfold keeps.
    - rewrite (norm_ci lo _ _ H). split; [now left|reflexivity].
    - rewrite (norm_not lo _ _ _ H Hx Hm). split; [|reflexivity]. right. exists #"in". split; [reflexivity|].
      exists #"not", #" ". split; [reflexivity|split; [exact sp_gap|reflexivity]].
  Qed.
  Lemma keep_logic : forall o, op_logic o -> keeps op_logic o.
  Proof.
    intros o [H|[H|[->| ->]]]; unfold keeps; rewrite ?(norm_ci lo _ _ H);
      (split; [|reflexivity]); unfold op_logic; auto.
  Qed.
  Lemma keep_cmp : forall o, op_cmp o -> marker_free o -> keeps op_cmp o.
  Proof.
    intros o H Hm. unfold keeps.
    destruct H as [H|[H|[H|[H|[H|[H|(x & Hx & H)]]]]]];
      [|rewrite (norm_ci lo _ _ H)..|rewrite (norm_not lo _ _ _ H Hx Hm)].
    - unfold cmp_symbols in H. cbn [In] in H.
      repeat (destruct H as [<-|H]; [split; [left; cbn [In]; vm_compute; tauto|reflexivity]|]). destruct H.
    - split; [left; vm_compute; tauto|reflexivity].
    - split; [left; vm_compute; tauto|reflexivity].
    - split; [left; vm_compute; tauto|reflexivity].
    - split; [left; vm_compute; tauto|reflexivity].
    - split; [|reflexivity]. do 5 right. left. reflexivity.
    - split; [|reflexivity]. do 6 right. exists #"like". split; [reflexivity|]. exists #"not", #" ".
      split; [reflexivity|split; [exact sp_gap|reflexivity]].
  Qed.
  Lemma keep_match : forall o, op_match o -> marker_free o -> keeps op_match o.
  Proof.
    intros o [->|[->|[(g & x & Hg & Hx & ->)|(g & g' & x & Hg & Hg' & Hx & ->)]]] Hm; unfold keeps.
    - split; [|reflexivity]. right; right; left. exists #" ", #"null". split; [exact sp_gap|split; [unfold tfn; cbn [In]; tauto|reflexivity]].
    - split; [|reflexivity]. right; right; right. exists #" ", #" ", #"null". split; [exact sp_gap|split; [exact sp_gap|split; [unfold tfn; cbn [In]; tauto|reflexivity]]].
    - mfs. rewrite gap_norm by assumption. unfold tfn in Hx. cbn [In] in Hx.
      destruct Hx as [<-|[<-|[<-|[]]]]; (split; [|reflexivity]); right; right; left;
        [exists #" ", #"true"|exists #" ", #"false"|exists #" ", #"null"]; (split; [exact sp_gap|split; [unfold tfn; cbn [In]; tauto|reflexivity]]).
    - mfs. rewrite gap_norm by assumption.
      rewrite (app_assoc #"is"), (app_assoc _ #"not"), gap_norm by assumption.
      unfold tfn in Hx. cbn [In] in Hx.
      destruct Hx as [<-|[<-|[<-|[]]]]; (split; [|reflexivity]); right; right; right;
        [exists #" ", #" ", #"true"|exists #" ", #" ", #"false"|exists #" ", #" ", #"null"]; (split; [exact sp_gap|split; [exact sp_gap|split; [unfold tfn; cbn [In]; tauto|reflexivity]]]).
  Qed.
  Lemma pretty_valid : forall v, In v vocabulary -> valid_runes (print_pretty v).
  Proof.
    intros v Hv. apply valid_runesb_spec.
    assert (Q : forallb (fun v => valid_runesb (print_pretty v)) vocabulary = true) by reflexivity.
    rewrite forallb_forall in Q. now apply Q.
  Qed.

  Hint Resolve sp_blank sp_gap blank_nil : core.
  (** ** Literals and arrays *)
  Definition lit_out (rn : list N) (l : literal) (t : list N) : Prop :=
    exists l' t', visp rn (Some (lit_node l)) = Some t' /\ lit_text l' t' /\ lit_node l' = lit_node l /\
      lit_fits l' = lit_fits l /\ (valid_runes t -> valid_runes t').
  Lemma lit_build : forall rn l t, lit_text l t -> printable_under rn (lit_node l) -> lit_out rn l t.
  Proof.
    intros rn l t Ht Hp. unfold lit_out. cbn [visp]. rewrite bv_S.
    assert (I : forall ds, forallb is_digit ds = true -> ds <> [] -> l = LInt ds -> lit_out rn l t).
    { intros ds Hd Hne ->. pose proof (print_N_ok (Z.to_N (dec_value ds))) as (H1 & H2 & c & r & H3 & H4).
      assert (HP : (0 <= dec_value ds)%Z) by now apply dec_nonneg.
      rewrite Z2N.id in H2 by exact HP.
      exists (LInt (print_N (Z.to_N (dec_value ds)))), (print_N (Z.to_N (dec_value ds))).
      split; [|split; [|split; [|split]]].
      - cbn [visp]. rewrite bv_S. unfold bvstep. cbn. unfold print_int. destruct (Z.ltb_spec (dec_value ds) 0); [lia|reflexivity].
      - rewrite H3 in *. cbn [forallb] in H1. apply andb_true_iff in H1 as [H1 H1'].
        destruct (N.eqb_spec c 48) as [->|Hc]; [|apply lt_int; auto; now apply N.eqb_neq].
        destruct H4 as [H4|[_ ->]]; [discriminate|]. exact lt_zero.
      - cbn [lit_node]. now rewrite H2.
      - cbn [lit_fits]. now rewrite H2.
      - intros _. now apply digits_valid. }
    destruct Ht as [s Hs|s Hs| |c ds Hc H0 Hds|w Hw|w Hw].
    - pose proof (pu_self _ _ Hp) as (_ & _ & P). specialize (P eq_refl eq_refl). cbn in P.
      exists (LStr true s), (34%N :: s ++ [34%N]). unfold bvstep. cbn. rewrite quote_plain by exact P. repeat split; auto.
      + constructor. exact (plain_noquote _ P).
      + intro V. inversion_clear V as [|? ? _ V']. apply valid_app in V' as [V' _]. constructor; [reflexivity|]. apply valid_app. split; [exact V'|repeat constructor].
    - pose proof (pu_self _ _ Hp) as (_ & _ & P). specialize (P eq_refl eq_refl). cbn in P.
      exists (LStr true s), (34%N :: s ++ [34%N]). unfold bvstep. cbn. rewrite quote_plain by exact P. repeat split; auto. now constructor.
    - destruct (I #"0" eq_refl ltac:(discriminate) eq_refl) as (l' & t' & H & H'). exists l', t'. cbn [visp] in H. rewrite bv_S in H. auto.
    - destruct (I (c :: ds)) as (l' & t' & H & H'); [cbn [forallb]; now rewrite Hc, Hds|discriminate|reflexivity|].
      exists l', t'. cbn [visp] in H. rewrite bv_S in H. auto.
    - cbn [In] in Hw. destruct Hw as [<-|[<-|[<-|[<-|[]]]]];
        [exists (LBool #"true"), #"true"|exists (LBool #"false"), #"false"|exists (LBool #"true"), #"true"|exists (LBool #"false"), #"false"];
        repeat split; try (intros _; apply valid_ascii); constructor; cbn [In]; auto.
    - exists (LNull #"null"), #"null". repeat split; try (intros _; apply valid_ascii); constructor; cbn [In]; auto.
  Qed.
  Lemma lits_build : forall rn ls t, lits_text ls t -> (forall l, In l ls -> printable_under rn (lit_node l)) ->
    exists ls' t', vlist rn (map (fun l => Some (lit_node l)) ls) = Some t' /\ lits_text ls' t' /\
      map lit_node ls' = map lit_node ls /\ forallb lit_fits ls' = forallb lit_fits ls /\ (valid_runes t -> valid_runes t').
  Proof.
    induction 1 as [l t Hl|l t w1 w2 ls ts Hl B1 B2 Hls IH]; intros Hp.
    - destruct (lit_build rn l t Hl (Hp l (or_introl eq_refl))) as (l' & t' & H1 & H2 & H3 & H4 & H5).
      exists [l'], t'. cbn [map vlist forallb]. rewrite H3, H4. repeat split; auto. now constructor.
    - destruct (lit_build rn l t Hl (Hp l (or_introl eq_refl))) as (l' & t' & H1 & H2 & H3 & H4 & H5).
      destruct IH as (ls' & ts' & K1 & K2 & K3 & K4 & K5); [intros; apply Hp; now right|].
      exists (l' :: ls'), (t' ++ [] ++ #"," ++ [] ++ ts').
      split; [|split; [|split; [|split]]].
      + cbn [map]. destruct (map (fun l0 => Some (lit_node l0)) ls) eqn:E; [destruct Hls; discriminate|].
        change (ocat (visp rn (Some (lit_node l))) (ocat (ostr #",") (vlist rn (o :: l0))) = Some (t' ++ [] ++ #"," ++ [] ++ ts')).
        rewrite H1, K1. reflexivity.
      + constructor; auto.
      + cbn [map]. now rewrite H3, K3.
      + cbn [forallb]. now rewrite H4, K4.
      + intro V. apply valid_app in V as [V1 V]. apply valid_app in V as [_ V]. apply valid_app in V as [_ V]. apply valid_app in V as [_ V].
        apply valid_app. split; auto. cbn [app]. apply (proj2 (valid_app #"," ts')). split; [apply valid_ascii|auto].
  Qed.
  Lemma arr_build : forall rn p c ls t, arr_text p c ls t -> printable_under rn (val_node (VArr p ls)) ->
    exists ls' t', visp rn (Some (val_node (VArr p ls))) = Some t' /\ arr_text false false ls' t' /\
      map lit_node ls' = map lit_node ls /\ forallb lit_fits ls' = forallb lit_fits ls /\ (valid_runes t -> valid_runes t').
  Proof.
    intros rn p c ls t Ht Hp.
    assert (Hl : forall l, In l ls -> printable_under rn (lit_node l)).
    { intros l Hl. eapply pu_child; [exact Hp|]. unfold children. cbn [val_node mk_array nArray]. apply in_or_app. left.
      apply in_map_iff. eauto. }
    assert (K : forall tl, lits_text ls tl -> (valid_runes t -> valid_runes tl) -> exists ls' t', visp rn (Some (val_node (VArr p ls))) = Some t' /\ arr_text false false ls' t' /\
      map lit_node ls' = map lit_node ls /\ forallb lit_fits ls' = forallb lit_fits ls /\ (valid_runes t -> valid_runes t')).
    { intros tl Htl Hv. destruct (lits_build rn ls tl Htl Hl) as (ls' & t' & H1 & H2 & H3 & H4 & H5).
      exists ls', (#"[" ++ [] ++ t' ++ [] ++ #"]"). repeat split; auto.
      - cbn [visp]. rewrite bv_S. unfold bvstep. cbn [val_node mk_array nType nVType nArray]. rewrite H1. reflexivity.
      - change #"[" with (opening false). change #"]" with (closing false). constructor; auto.
      - intro V. cbn [app]. apply (proj2 (valid_app #"[" (t' ++ #"]"))). split; [apply valid_ascii|]. apply valid_app. split; auto. apply valid_ascii. }
    destruct Ht as [w Hw|ls tl w1 w2 Hls|ls tl w1 w2 w3 Hls].
    - exists [], (#"[" ++ [] ++ #"]"). repeat split; auto.
      + change #"[" with (opening false). change #"]" with (closing false). constructor; auto.
      + intros _. apply (valid_ascii "[]").
    - apply (K tl Hls). intro V. apply valid_app in V as [_ V]. apply valid_app in V as [_ V]. now apply valid_app in V as [V _].
    - apply (K tl Hls). intro V. apply valid_app in V as [_ V]. apply valid_app in V as [_ V]. now apply valid_app in V as [V _].
  Qed.
  Lemma arr_node : forall p ls ls', map lit_node ls' = map lit_node ls -> val_node (VArr false ls') = val_node (VArr p ls).
  Proof.
    intros p ls ls' H. cbn [val_node]. f_equal. rewrite <- (map_map lit_node Some), <- (map_map lit_node Some ls). now rewrite H.
  Qed.
  Lemma val_build : forall rn v t, val_text v t -> printable_under rn (val_node v) ->
    exists v' t', visp rn (Some (val_node v)) = Some t' /\ val_text v' t' /\ val_node v' = val_node v /\ val_fits v' = val_fits v /\
      (valid_runes t -> valid_runes t').
  Proof.
    intros rn v t [l t' Hl|p c ls t' Ha] Hp.
    - destruct (lit_build rn l t' Hl Hp) as (l' & u & H1 & H2 & H3 & H4 & H5). exists (VLit l'), u. repeat split; auto. now constructor.
    - destruct (arr_build rn p c ls t' Ha Hp) as (ls' & u & H1 & H2 & H3 & H4 & H5). exists (VArr false ls'), u. repeat split; auto.
      + econstructor; exact H2.
      + now apply arr_node.
  Qed.

  (** ** Whole trees *)
  Definition pup (rn : list N) (p : option node) : Prop := forall n, p = Some n -> printable_under rn n.
  Definition built (rn : list N) (e : expr) (t : list N) : Prop :=
    exists e' t', visp rn (ntree lo e) = Some t' /\ lay e' t' /\ ntree lo e' = ntree lo e /\ level e' = level e /\
      fits e' = fits e /\ json_free e' = true /\ ends_bracket e' = false /\ (valid_runes t -> valid_runes t').
  Definition builts (rn : list N) (es : list expr) (t : list N) : Prop :=
    exists es' t', vlist rn (map (ntree lo) es) = Some t' /\ lays es' t' /\ map (ntree lo) es' = map (ntree lo) es /\
      forallb fits es' = forallb fits es /\ forallb json_free es' = true /\ (valid_runes t -> valid_runes t').
  Lemma pup_child : forall rn n p, printable_under rn n -> In p (children n) -> pup rn p.
  Proof. intros rn n p H Hi k ->. eapply pu_child; eauto. Qed.
  Lemma op_voc : forall rn o, pup rn (Some (mk_op (nm o))) -> In (nm o) vocabulary /\ marker_free o.
  Proof.
    intros rn o H. pose proof (pu_self _ _ (H _ eq_refl)) as (P & _). specialize (P eq_refl). cbn in P.
    split; [exact P|]. apply nm_marker. now apply voc_mf.
  Qed.
  Lemma visp_op : forall rn s, visp rn (Some (mk_op s)) = Some (print_pretty s).
  Proof. reflexivity. Qed.
  Lemma seam_sp : forall e o, seam e (#" " ++ o).
  Proof. intros e o _. reflexivity. Qed.
  Ltac child H := eapply pup_child; [exact H|unfold children; cbn; tauto].
  Ltac vsplit := repeat match goal with H : valid_runes (_ ++ _) |- _ => apply valid_app in H as [? ?] end.
  Ltac vgoal := repeat (apply valid_app; split); auto using valid_ascii; try (now constructor).

  Lemma build_lays : forall rn,
    (forall e t, lay e t -> json_free e = true -> pup rn (ntree lo e) -> built rn e t) /\
    (forall es t, lays es t -> forallb json_free es = true -> Forall (pup rn) (map (ntree lo) es) -> builts rn es t).
  Proof.
    intro rn. apply lay_lays_ind.
    - intros l t Hl _ Hp. destruct (lit_build rn l t Hl (Hp _ eq_refl)) as (l' & t' & H1 & H2 & H3 & H4 & H5).
      exists (EVal (VLit l')), t'. repeat split; auto; [now constructor|]. cbn. now rewrite H3.
    - intros p c ls t Ha Hne _ Hp. destruct (arr_build rn p c ls t Ha (Hp _ eq_refl)) as (ls' & t' & H1 & H2 & H3 & H4 & H5).
      exists (EVal (VArr false ls')), t'. repeat split; auto; [econstructor; [exact H2|intros [? _]; discriminate]|].
      cbn [ntree]. now rewrite (arr_node p ls ls' H3).
    - intros x Hx Hw _ _. exists (EName x), x. repeat split; auto. now constructor.
    - intros x y xs Hx Hw _ _. exists (ERef (x :: y :: xs)), (join_with #"." (x :: y :: xs)). split; [|repeat split; auto; now constructor].
      cbn [ntree visp]. rewrite bv_S. reflexivity.
    - intros x y xs Hx Hw Hj. discriminate.
    - intros f w Hf Hw Hb _ Hp. pose proof (pu_self _ _ (Hp _ eq_refl)) as (_ & P & _). specialize (P eq_refl). cbn in P. subst f.
      exists (ECall rn []), (rn ++ #"(" ++ [] ++ #")"). repeat split; auto; [|now constructor|].
      + cbn. unfold ostr. now rewrite <- app_assoc.
      + intro V. vsplit. vgoal.
    - intros f args t w1 w2 Hf Hw Hl IH B1 B2 Hj Hp. pose proof (pu_self _ _ (Hp _ eq_refl)) as (_ & P & _). specialize (P eq_refl). cbn in P. subst f.
      destruct IH as (es' & t' & H1 & H2 & H3 & H4 & H5 & H6); [exact Hj| |].
      { apply Forall_forall. intros p Hi. eapply pup_child; [apply Hp; reflexivity|]. unfold children. cbn. tauto. }
      exists (ECall rn es'), (rn ++ #"(" ++ [] ++ t' ++ [] ++ #")"). repeat split; auto.
      + cbn [ntree visp]. rewrite bv_S. cbn [bvstep mk_function nType nParams]. rewrite H1. unfold ostr, ocat. now rewrite <- !app_assoc.
      + now constructor.
      + cbn [ntree]. now rewrite H3.
      + intro V. vsplit. vgoal.
    - intros f args t w1 w2 w3 Hf Hw Hl IH B1 B2 B3 Hj Hp. pose proof (pu_self _ _ (Hp _ eq_refl)) as (_ & P & _). specialize (P eq_refl). cbn in P. subst f.
      destruct IH as (es' & t' & H1 & H2 & H3 & H4 & H5 & H6); [exact Hj| |].
      { apply Forall_forall. intros p Hi. eapply pup_child; [apply Hp; reflexivity|]. unfold children. cbn. tauto. }
      exists (ECall rn es'), (rn ++ #"(" ++ [] ++ t' ++ [] ++ #")"). repeat split; auto.
      + cbn [ntree visp]. rewrite bv_S. cbn [bvstep mk_function nType nParams]. rewrite H1. unfold ostr, ocat. now rewrite <- !app_assoc.
      + now constructor.
      + cbn [ntree]. now rewrite H3.
      + intro V. vsplit. vgoal.
    - intros e t w1 w2 Hl IH B1 B2 Hj Hp. specialize (Hp _ eq_refl).
      destruct IH as (e' & t' & H1 & H2 & H3 & H4 & H5 & H6 & H7 & H8); [exact Hj|child Hp|].
      exists (EParen e'), (#"(" ++ [] ++ t' ++ [] ++ #")"). repeat split; auto.
      + cbn [ntree visp]. rewrite bv_S. cbn [bvstep mk_paren nType nExpression]. rewrite H1. reflexivity.
      + now constructor.
      + cbn [ntree]. now rewrite H3.
      + intro V. vsplit. vgoal.
    - intros e t w1 o w2 v1 t1 w3 a w4 v2 t2 Hlv Hl IH B1 Ho B2 V1 B3 Ha B4 V2 Hs Hj Hp. specialize (Hp _ eq_refl).
      destruct IH as (e' & t' & H1 & H2 & H3 & H4 & H5 & H6 & H7 & H8); [exact Hj|child Hp|].
      destruct (op_voc rn o) as [O1 O2]; [child Hp|]. destruct (keep_between o Ho O2) as [O3 O4].
      destruct (val_build rn v1 t1 V1) as (v1' & t1' & K1 & K2 & K3 & K4 & K5); [apply (pup_child rn _ (Some (val_node (v1))) Hp); [unfold children; cbn; tauto|reflexivity]|].
      destruct (val_build rn v2 t2 V2) as (v2' & t2' & L1 & L2 & L3 & L4 & L5); [apply (pup_child rn _ (Some (val_node (v2))) Hp); [unfold children; cbn; tauto|reflexivity]|].
      exists (EBetween e' (print_pretty (nm o)) false v1' v2'), (t' ++ #" " ++ print_pretty (nm o) ++ #" " ++ t1' ++ #" " ++ #"and" ++ #" " ++ t2').
      repeat split; auto.
      + cbn [ntree visp]. rewrite bv_S. cbn [bvstep mk_between nType nLeft nOp nParams]. rewrite H1, visp_op, K1, L1. reflexivity.
      + constructor; auto; [lia|reflexivity|apply seam_sp].
      + cbn [ntree]. now rewrite H3, O4, K3, L3.
      + cbn [fits]. now rewrite H5, K4, L4.
      + intro V. vsplit. vgoal. now apply pretty_valid.
    - intros e t w1 o w2 w3 v1 t1 w4 w5 v2 t2 w6 Hlv Hl IH B1 Ho B2 B3 V1 B4 B5 V2 B6 Hs Hj Hp. specialize (Hp _ eq_refl).
      destruct IH as (e' & t' & H1 & H2 & H3 & H4 & H5 & H6 & H7 & H8); [exact Hj|child Hp|].
      destruct (op_voc rn o) as [O1 O2]; [child Hp|]. destruct (keep_between o Ho O2) as [O3 O4].
      destruct (val_build rn v1 t1 V1) as (v1' & t1' & K1 & K2 & K3 & K4 & K5); [apply (pup_child rn _ (Some (val_node (v1))) Hp); [unfold children; cbn; tauto|reflexivity]|].
      destruct (val_build rn v2 t2 V2) as (v2' & t2' & L1 & L2 & L3 & L4 & L5); [apply (pup_child rn _ (Some (val_node (v2))) Hp); [unfold children; cbn; tauto|reflexivity]|].
      exists (EBetween e' (print_pretty (nm o)) false v1' v2'), (t' ++ #" " ++ print_pretty (nm o) ++ #" " ++ t1' ++ #" " ++ #"and" ++ #" " ++ t2').
      repeat split; auto.
      + cbn [ntree visp]. rewrite bv_S. cbn [bvstep mk_between nType nLeft nOp nParams]. rewrite H1, visp_op, K1, L1. reflexivity.
      + constructor; auto; [lia|reflexivity|apply seam_sp].
      + cbn [ntree]. now rewrite H3, O4, K3, L3.
      + cbn [fits]. now rewrite H5, K4, L4.
      + intro V. vsplit. vgoal. now apply pretty_valid.
    - intros e t w o Hlv Hl IH Hg Ho Hj Hp. specialize (Hp _ eq_refl).
      destruct IH as (e' & t' & H1 & H2 & H3 & H4 & H5 & H6 & H7 & H8); [exact Hj|child Hp|].
      destruct (op_voc rn o) as [O1 O2]; [child Hp|]. destruct (keep_match o Ho O2) as [O3 O4].
      exists (EPred e' (print_pretty (nm o))), (t' ++ #" " ++ print_pretty (nm o)). repeat split; auto.
      + cbn [ntree visp]. rewrite bv_S. cbn [bvstep mk_predicate nType nLeft nOp nRight]. rewrite H1, visp_op. unfold ostr, ocat. now rewrite app_nil_r.
      + constructor; auto. lia.
      + cbn [ntree]. now rewrite H3, O4.
      + intro V. vsplit. vgoal. now apply pretty_valid.
    - intros e t w1 o w2 p c ls ta Hlv Hl IH B1 Ho B2 Ha Hs Hj Hp. specialize (Hp _ eq_refl).
      destruct IH as (e' & t' & H1 & H2 & H3 & H4 & H5 & H6 & H7 & H8); [exact Hj|child Hp|].
      destruct (op_voc rn o) as [O1 O2]; [child Hp|]. destruct (keep_in o Ho O2) as [O3 O4].
      destruct (arr_build rn p c ls ta Ha) as (ls' & u & K1 & K2 & K3 & K4 & K5); [apply (pup_child rn _ (Some (val_node (VArr p ls))) Hp); [unfold children; cbn; tauto|reflexivity]|].
      exists (EIn e' (print_pretty (nm o)) false ls'), (t' ++ #" " ++ print_pretty (nm o) ++ #" " ++ u). repeat split; auto.
      + cbn [ntree visp]. rewrite bv_S. cbn [bvstep mk_compare nType nLeft nOp nRight]. rewrite H1, visp_op, K1. reflexivity.
      + econstructor; eauto; [lia|apply seam_sp].
      + cbn [ntree]. rewrite H3, O4. now rewrite (arr_node p ls ls' K3).
      + cbn [fits]. now rewrite H5, K4.
      + intro V. vsplit. vgoal. now apply pretty_valid.
    - intros l tl w1 o w2 r tr Hll Hlr Hl IHl B1 Ho B2 Hr IHr Hs Hj Hp. specialize (Hp _ eq_refl).
      cbn [json_free] in Hj. apply andb_true_iff in Hj as [Hj1 Hj2].
      destruct IHl as (e' & t' & H1 & H2 & H3 & H4 & H5 & H6 & H7 & H8); [exact Hj1|child Hp|].
      destruct IHr as (f' & u' & K1 & K2 & K3 & K4 & K5 & K6 & K7 & K8); [exact Hj2|child Hp|].
      destruct (op_voc rn o) as [O1 O2]; [child Hp|]. destruct (keep_cmp o Ho O2) as [O3 O4].
      exists (ECmp e' (print_pretty (nm o)) f'), (t' ++ #" " ++ print_pretty (nm o) ++ #" " ++ u'). repeat split; auto.
      + cbn [ntree visp]. rewrite bv_S. cbn [bvstep mk_compare nType nLeft nOp nRight]. rewrite H1, visp_op.
        destruct (ntree lo r) as [n|]; [|discriminate K1]. rewrite K1. reflexivity.
      + constructor; auto; [lia|lia|apply seam_sp].
      + cbn [ntree]. now rewrite H3, O4, K3.
      + cbn [fits]. now rewrite H5, K5.
      + cbn [json_free]. now rewrite H6, K6.
      + intro V. vsplit. vgoal. now apply pretty_valid.
    - intros n g e t Hn Hg Hlv Hl IH Hj Hp. specialize (Hp _ eq_refl).
      destruct IH as (e' & t' & H1 & H2 & H3 & H4 & H5 & H6 & H7 & H8); [exact Hj|child Hp|].
      exists (ENot e'), (#"not" ++ #" " ++ t'). repeat split; auto.
      + cbn [ntree visp]. rewrite bv_S. cbn [bvstep mk_not nType nExpression]. rewrite H1. reflexivity.
      + constructor; auto; [reflexivity|lia].
      + cbn [ntree]. now rewrite H3.
      + intro V. vsplit. vgoal.
    - intros l tl w1 o w2 r tr Hlr Hl IHl B1 Ho B2 Hr IHr Hs Hb Hj Hp. specialize (Hp _ eq_refl).
      cbn [json_free] in Hj. apply andb_true_iff in Hj as [Hj1 Hj2].
      destruct IHl as (e' & t' & H1 & H2 & H3 & H4 & H5 & H6 & H7 & H8); [exact Hj1|child Hp|].
      destruct IHr as (f' & u' & K1 & K2 & K3 & K4 & K5 & K6 & K7 & K8); [exact Hj2|child Hp|].
      destruct (op_voc rn o) as [O1 O2]; [child Hp|]. destruct (keep_logic o Ho) as [O3 O4].
      exists (ELogic e' (print_pretty (nm o)) f'), (t' ++ #" " ++ print_pretty (nm o) ++ #" " ++ u'). repeat split; auto.
      + cbn [ntree visp]. rewrite bv_S. cbn [bvstep mk_logic nType nLeft nOp nRight]. rewrite H1, visp_op.
        destruct (ntree lo r) as [n|]; [|discriminate K1]. rewrite K1. reflexivity.
      + constructor; auto; [lia|apply seam_sp|]. intros [Hx _]. congruence.
      + cbn [ntree]. now rewrite H3, O4, K3.
      + cbn [fits]. now rewrite H5, K5.
      + cbn [json_free]. now rewrite H6, K6.
      + intro V. vsplit. vgoal. now apply pretty_valid.
    - intros e t Hl IH Hj Hp. cbn [forallb map] in *. rewrite andb_true_r in Hj. inversion_clear Hp as [|? ? Hp1 _].
      destruct IH as (e' & t' & H1 & H2 & H3 & H4 & H5 & H6 & H7 & H8); [exact Hj|exact Hp1|].
      exists [e'], t'. cbn [map forallb vlist]. rewrite H3, H5, H6. repeat split; auto. now constructor.
    - intros e t w1 w2 es ts Hl IH B1 B2 Hls IHs Hj Hp. cbn [forallb map] in *. apply andb_true_iff in Hj as [Hj1 Hj2]. inversion_clear Hp as [|? ? Hp1 Hp2].
      destruct IH as (e' & t' & H1 & H2 & H3 & H4 & H5 & H6 & H7 & H8); [exact Hj1|exact Hp1|].
      destruct IHs as (es' & u & K1 & K2 & K3 & K4 & K5 & K6); [exact Hj2|exact Hp2|].
      exists (e' :: es'), (t' ++ [] ++ #"," ++ [] ++ u). split; [|split; [|split; [|split; [|split]]]].
      + cbn [map]. destruct (map (ntree lo) es) eqn:E; [destruct Hls; discriminate|].
        change (ocat (visp rn (ntree lo e)) (ocat (ostr #",") (vlist rn (o :: l))) = Some (t' ++ [] ++ #"," ++ [] ++ u)).
        rewrite H1, K1. reflexivity.
      + constructor; auto.
      + cbn [map]. now rewrite H3, K3.
      + cbn [forallb]. now rewrite H5, K4.
      + cbn [forallb]. now rewrite H6, K5.
      + intro V. vsplit. vgoal.
  Qed.

  (** ** Round trip *)
  Lemma build_parse : forall q e n, valid_runes q -> reads q e -> json_free e = true ->
    parse lo q = Ok (Some n) -> printable n ->
    exists t, build ip ff (Some n) = Some t /\ parse lo t = Ok (Some n).
  Proof.
    intros q e n Hq He Hj Hn Hp.
    assert (Hf : fits e = true).
    { destruct (parse_ok_inv lo q _ Hq Hn) as (e2 & H2 & Hf & _). now rewrite (reads_unique _ _ _ He H2). }
    rewrite (parse_tree lo q e Hq He Hf Hj) in Hn. injection Hn as Hn.
    destruct He as (w1 & t & w2 & -> & _ & _ & Hl). apply valid_app in Hq as [_ Hq]. apply valid_app in Hq as [Hq _].
    destruct (proj1 (build_lays (nName n)) e t Hl Hj) as (e' & t' & H1 & H2 & H3 & _ & H5 & H6 & _ & H8).
    { intros m Hm. rewrite Hn in Hm. injection Hm as <-. exact Hp. }
    exists t'. rewrite Hn in H1, H3. split; [exact H1|].
    rewrite (parse_tree lo t' e'); auto; [now rewrite H3|now apply lay_reads|congruence].
  Qed.
End BP.
