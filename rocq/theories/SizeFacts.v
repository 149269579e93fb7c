(** How large trees, conditions and argument lists get. *)
From Verif Require Import Base Peg Node Vocab Tree Parse Syntax ParseProofs Complete NormProofs Unique ParserFacts ParserFacts2 ParserMain TreeFacts NodeFacts
  Gorm GormSpec GormProofs GormFacts GormFacts2 GormFacts3 GormFacts4 EntSQL EntSQLSpec EntSQLProofs EntSQLFacts EntSQLFacts2 EntSQLFacts3 SizeSpec Size.
Strategy expand [parse_machine].
Strategy 1000 [parse_fuel mrun].

(** ** Height *)
Definition oht (x : option node) : nat := match x with Some m => nheight m | None => 0 end.
Lemma list_max_sum : forall l, list_max l <= list_sum l.
Proof. induction l as [|x l IH]; [reflexivity|]. cbn [list_max list_sum fold_right] in *. unfold list_max, list_sum in IH. lia. Qed.
Lemma height_size : forall k n, nsize n <= k -> nheight n <= nsize n.
Proof.
  induction k as [|k IH]; intros n H; [destruct n; cbn in H; lia|].
  assert (HO : forall x, osz x <= k -> oht x <= osz x) by (intros [m|] Hm; [now apply IH|cbn; lia]).
  assert (HL : forall l, ssz l <= k -> list_max (map oht l) <= ssz l).
  { induction l as [|x l IHl]; [reflexivity|]. unfold ssz in *. cbn [map list_max list_sum fold_right] in *. intro Hx. unfold list_max, list_sum in *.
    specialize (IHl ltac:(lia)). specialize (HO x ltac:(lia)). lia. }
  rewrite nsize_eq in H |- *. assert (E : nheight n = S (Nat.max (list_max (map oht (nArray n))) (Nat.max (oht (nExpression n)) (Nat.max (oht (nLeft n)) (Nat.max (oht (nOp n))
     (Nat.max (oht (nRight n)) (list_max (map oht (nParams n))))))))) by (destruct n; reflexivity).
  rewrite E. pose proof (HL (nArray n) ltac:(lia)). pose proof (HL (nParams n) ltac:(lia)). pose proof (HO (nExpression n) ltac:(lia)).
  pose proof (HO (nLeft n) ltac:(lia)). pose proof (HO (nOp n) ltac:(lia)). pose proof (HO (nRight n) ltac:(lia)). lia.
Qed.

(** ** Nodes and their sizes *)
Lemma sz_paren : forall e, nsize (mk_paren (Some e)) = S (nsize e).
Proof. intros. cbn. lia. Qed.
Lemma sz_not : forall e, nsize (mk_not (Some e)) = S (nsize e).
Proof. intros. cbn. lia. Qed.
Lemma sz_pred : forall l o, nsize (mk_predicate (Some l) (Some o)) = S (nsize l + nsize o).
Proof. intros. cbn. lia. Qed.
Lemma sz_cmp : forall l o r, nsize (mk_compare (Some l) (Some o) (Some r)) = S (nsize l + nsize o + nsize r).
Proof. intros. cbn. lia. Qed.
Lemma sz_log : forall l o r, nsize (mk_logic (Some l) (Some o) (Some r)) = S (nsize l + nsize o + nsize r).
Proof. intros. cbn. lia. Qed.
Lemma sz_btw : forall l o x y, nsize (mk_between (Some l) (Some o) (Some x) (Some y)) = S (nsize l + nsize o + nsize x + nsize y).
Proof. intros. cbn. lia. Qed.
Lemma sz_fn : forall f ps, nsize (mk_function f ps) = S (ssz ps).
Proof. intros. rewrite nsize_eq. cbn [mk_function mk_array nArray nExpression nLeft nOp nRight nParams osz]. change (ssz []) with 0. lia. Qed.
Lemma sz_arr : forall l, nsize (mk_array l) = S (ssz l).
Proof. intros. rewrite nsize_eq. cbn [mk_function mk_array nArray nExpression nLeft nOp nRight nParams osz]. change (ssz []) with 0. lia. Qed.
Lemma sz_pos : forall n, 1 <= nsize n.
Proof. intros. rewrite nsize_eq. lia. Qed.

(** ** gorm *)
Section GormSize.
  Variable fold_eq : list N -> list N -> bool.
  Variable sch : schema.
  Scheme renders_mind := Induction for renders Sort Prop with renders_all_mind := Induction for renders_all Sort Prop.
  Lemma renders_size : forall n ps, renders fold_eq sch n ps -> length ps <= 3 * nsize n.
  Proof.
    apply (renders_mind fold_eq sch (fun n ps _ => length ps <= 3 * nsize n) (fun l ps _ => length ps <= 3 * ssz (map Some l)));
      intros; rewrite ?sz_paren, ?sz_not, ?sz_pred, ?sz_cmp, ?sz_log, ?sz_btw, ?sz_fn; cbn [length]; rewrite ?app_length; cbn [length]; rewrite ?app_length; cbn [length]; rewrite ?app_length; cbn [length];
      try (match goal with |- 1 <= 3 * nsize ?n => pose proof (sz_pos n) end); try lia.
    cbn [map]. change (ssz (Some n :: map Some l)) with (nsize n + ssz (map Some l)). lia.
  Qed.
End GormSize.

(** ** entsql *)
Definition obd (x : option node) : nat := match x with Some m => bdepth m | None => 0 end.
Definition brest (n : node) : nat := Nat.max (list_max (map obd (nArray n))) (Nat.max (obd (nExpression n)) (Nat.max (obd (nOp n))
     (Nat.max (obd (nRight n)) (list_max (map obd (nParams n)))))).
Lemma bd_eq : forall n, bdepth n = match nType n with NBetween => Nat.max (S (obd (nLeft n))) (brest n) | _ => Nat.max (obd (nLeft n)) (brest n) end.
Proof. destruct n as [t ? ? ? ? ? ? ? ? ? ? ? ? ? ?]; destruct t; reflexivity. Qed.
Lemma commas_len : forall vs, length (commas vs) <= 2 * length vs.
Proof.
  induction vs as [|v [|w vs] IH]; cbn [commas length] in *; try lia.
Qed.
Lemma go_values_len : forall l vs, go_values l vs -> length vs <= ssz l.
Proof. intros l vs H. induction H as [|n l v vs Hn _ IH]; [cbn; lia|]. cbn [length]. change (ssz (Some n :: l)) with (nsize n + ssz l). pose proof (sz_pos n). lia. Qed.

Lemma pow_le : forall a b, a <= b -> 2 ^ a <= 2 ^ b.
Proof. intros a b H. apply Nat.pow_le_mono_r; lia. Qed.
Lemma sum3 : forall s d d', d <= d' -> 3 * s * 2 ^ d <= 3 * s * 2 ^ d'.
Proof. intros s d d' H. apply Nat.mul_le_mono_l. now apply pow_le. Qed.
Lemma pow_pos : forall d, 1 <= 2 ^ d.
Proof. intro d. pose proof (Nat.pow_nonzero 2 d ltac:(lia)). lia. Qed.

Section EntSize.
  Variable edge_sql : bool -> list N -> gnode -> gspec -> gnode -> option (list N * list N).
  Variable heap : nat -> gnode.
  Variable d : list N.
  Variable dis : bool.
  (** [k] pieces of its own, the rest from children *)
  Lemma up_le : forall l s D D', l <= 3 * s * 2 ^ D -> D <= D' -> l <= 3 * s * 2 ^ D'.
  Proof. intros l s D D' H K. apply (sum3 s) in K. lia. Qed.
  Ltac bd := match goal with |- _ <= bdepth ?P => rewrite (bd_eq P) end; cbn [mk_paren mk_not mk_predicate mk_compare mk_logic mk_between mk_function mk_array nType nLeft obd];
    unfold brest; cbn [mk_paren mk_not mk_predicate mk_compare mk_logic mk_between mk_function mk_array nArray nExpression nOp nRight nParams map obd list_max fold_right]; lia.
  Ltac up c := match goal with H : _ <= 3 * nsize c * 2 ^ bdepth c |- _ <= _ * 2 ^ bdepth ?P => pose proof (up_le _ _ _ (bdepth P) H ltac:(bd)); clear H end.
  Lemma emits_size : forall c n ps, emits edge_sql heap d dis c n ps -> length ps <= 3 * nsize n * 2 ^ bdepth n.
  Proof.
    induction 1.
    - pose proof (sz_pos n). pose proof (pow_pos (bdepth n)). cbn [length]. nia.
    - cbn [length]. rewrite app_length. cbn [length]. pose proof (commas_len vs). match goal with H : go_values _ _ |- _ => apply go_values_len in H end.
      rewrite sz_arr. pose proof (pow_pos (bdepth (mk_array l))). nia.
    - cbn. lia.
    - match goal with H : _ <= 3 * nsize e * 2 ^ bdepth e |- _ <= _ * 2 ^ bdepth ?P => pose proof (up_le _ _ _ (bdepth P) H ltac:(bd)); clear H end. rewrite sz_paren. cbn [length]. rewrite app_length. cbn [length]. pose proof (pow_pos (bdepth (mk_paren (Some e)))). nia.
    - up e. rewrite sz_not. cbn [length]. pose proof (pow_pos (bdepth (mk_not (Some e)))). nia.
    - up a. rewrite sz_fn. change (ssz (Some a :: rest)) with (nsize a + ssz rest). cbn [length]. rewrite app_length. cbn [length].
      match goal with |- _ <= _ * 2 ^ ?D => pose proof (pow_pos D) end. nia.
    - rewrite sz_fn. match goal with |- _ <= _ * 2 ^ ?D => pose proof (pow_pos D) end. cbn [length]. nia.
    - up e. rewrite sz_fn. change (ssz [Some p; Some e]) with (nsize p + (nsize e + 0)). cbn [length]. rewrite app_length. cbn [length].
      match goal with |- _ <= _ * 2 ^ ?D => pose proof (pow_pos D) end. nia.
    - up l. rewrite sz_pred, app_length. cbn [length]. match goal with |- _ <= _ * 2 ^ ?D => pose proof (pow_pos D) end. nia.
    - up l. up r. rewrite sz_cmp, app_length. cbn [length]. match goal with |- _ <= _ * 2 ^ ?D => pose proof (pow_pos D) end. nia.
    - up l. up r. rewrite sz_log, app_length. cbn [length]. match goal with |- _ <= _ * 2 ^ ?D => pose proof (pow_pos D) end. nia.
    - up x. up y. rewrite sz_btw. rewrite !app_length. cbn [length]. rewrite !app_length. cbn [length]. rewrite !app_length. cbn [length].
      assert (K : S (bdepth l) <= bdepth (mk_between (Some l) (Some k) (Some x) (Some y))) by (rewrite (bd_eq (mk_between _ _ _ _)); cbn [mk_between nType nLeft obd]; lia).
      apply (sum3 (nsize l)) in K. cbn [Nat.pow] in K. match goal with |- _ <= _ * 2 ^ ?D => pose proof (pow_pos D) end. nia.
    - up x. up y. rewrite sz_btw. rewrite !app_length. cbn [length]. rewrite !app_length. cbn [length]. rewrite !app_length. cbn [length].
      assert (K : S (bdepth l) <= bdepth (mk_between (Some l) (Some k) (Some x) (Some y))) by (rewrite (bd_eq (mk_between _ _ _ _)); cbn [mk_between nType nLeft obd]; lia).
      apply (sum3 (nsize l)) in K. cbn [Nat.pow] in K. match goal with |- _ <= _ * 2 ^ ?D => pose proof (pow_pos D) end. nia.
  Qed.
End EntSize.

Section Main.
  Variable lo : N -> N.
  Lemma parse_height : forall q n, valid_runes q -> parse lo q = Ok (Some n) -> nheight n <= nsize n < 2 * length q.
  Proof. intros q n Hq H. split; [now apply (height_size (nsize n))|now apply (parse_size lo)]. Qed.
  Lemma wire_size : forall fold_eq quote d q n d', valid_runes q -> parse lo q = Ok (Some n) ->
    wire_mini_query fold_eq quote lo d q = Some d' -> succeeded d d' ->
    exists ps, dWheres d' = dWheres d ++ [(sql_text quote ps, values ps)] /\ length ps <= 6 * length q.
  Proof.
    intros fold_eq quote d q n d' Hq Hp Hw Hs. destruct (renders_complete fold_eq quote lo d q n d' Hq Hp Hw Hs) as (sch & ps & HS & HR).
    exists ps. pose proof (renders_sound fold_eq quote lo d sch q n ps Hq Hp HS HR) as E. rewrite Hw in E. apply some_inj in E. subst d'.
    split; [|apply renders_size in HR; apply (parse_size lo q n Hq) in Hp; lia].
    destruct d; reflexivity.
  Qed.
  Lemma query_size : forall ident_sql edge_sql heap d dis nd q m t a, valid_runes q ->
    query lo ident_sql edge_sql heap (fresh d dis nd q) = Some (m, (t, a)) -> no_error m ->
    exists n ps, parse lo q = Ok (Some n) /\ t = sql_of ident_sql d 0 ps /\ a = sargs ps /\ length ps <= 6 * length q * 2 ^ bdepth n.
  Proof.
    intros ident_sql edge_sql heap d dis nd q m t a Hq H HE. destruct (query_complete lo ident_sql edge_sql heap d dis nd q m t a Hq H HE) as (n & ps & Hp & K & Ht & Ha).
    exists n, ps. split; [assumption|]. split; [assumption|]. split; [assumption|]. apply emits_size in K. apply (parse_size lo q n Hq) in Hp.
    apply (Nat.le_trans _ _ _ K). apply Nat.mul_le_mono_r. lia.
  Qed.

  (** ** The blow-up *)
  Fixpoint nest (k : nat) : list N := match k with O => #"x" | S k => #"(" ++ nest k ++ #" between 1 and 2)" end.
  Definition v1 : val := VLit (LInt #"1").
  Definition v2 : val := VLit (LInt #"2").
  Fixpoint neste (k : nat) : expr := match k with O => EName #"x" | S k => EParen (EBetween (neste k) #"between" false v1 v2) end.
  Lemma nest_len : forall k, length (nest k) = 18 * k + 1.
  Proof. induction k as [|k IH]; [reflexivity|]. cbn [nest]. rewrite !app_length, IH. change (length #"(") with 1. change (length #" between 1 and 2)") with 17. lia. Qed.
  Lemma blank_sp : blank #" ".
  Proof. repeat constructor. Qed.
  Lemma neste_lay : forall k, lay (neste k) (nest k).
  Proof.
    induction k as [|k IH].
    - apply (lay_name #"x"); [|intro H; unfold starts_word, prefix in H; repeat (destruct H as [(r & H)|H]; [discriminate|]); destruct H as (r & H); discriminate].
      split; [exists 120%N, []; repeat split|]. intros (a & b & E & H). apply ci_len in H. apply (f_equal (@length N)) in E. rewrite app_length, H in E. cbn in E. lia.
    - cbn [neste nest]. pose proof blank_sp as HB. assert (Hb : blank []) by constructor.
      assert (E : #"(" ++ nest k ++ #" between 1 and 2)" =
        #"(" ++ [] ++ (nest k ++ #" " ++ #"between" ++ #" " ++ #"1" ++ #" " ++ #"and" ++ #" " ++ #"2") ++ [] ++ #")") by (now rewrite <- !app_assoc).
      rewrite E. apply lay_paren; [|assumption|assumption]. apply lay_between; try assumption.
      + destruct k; cbn; lia.
      + now left.
      + constructor. apply (lt_int 49%N []); reflexivity.
      + reflexivity.
      + constructor. apply (lt_int 50%N []); reflexivity.
      + intro. reflexivity.
  Qed.
  Fixpoint nestn (k : nat) : node :=
    match k with O => mk_ident #"x" | S k => mk_paren (Some (mk_between (Some (nestn k)) (Some (mk_op #"between")) (Some (mk_int 1)) (Some (mk_int 2)))) end.
  Lemma neste_tree : forall k, tree_of lo (neste k) = Some (nestn k).
  Proof. induction k as [|k IH]; [reflexivity|]. cbn [neste tree_of nestn]. rewrite IH. reflexivity. Qed.
  Lemma neste_flat : forall k, fits (neste k) = true /\ json_free (neste k) = true.
  Proof. induction k as [|k [H1 H2]]; [now split|]. cbn [neste fits json_free]. now rewrite H1, H2. Qed.
  Lemma nest_valid : forall k, valid_runes (nest k).
  Proof. induction k as [|k IH]; [repeat constructor|]. cbn [nest]. apply Forall_app. split; [repeat constructor|]. apply Forall_app. split; [exact IH|repeat constructor]. Qed.
  Lemma nest_parse : forall k, parse lo (nest k) = Ok (Some (nestn k)).
  Proof.
    intro k. rewrite <- neste_tree. destruct (neste_flat k) as [H1 H2]. apply parse_spec; [apply nest_valid| |assumption|assumption].
    exists [], (nest k), []. cbn [app]. rewrite app_nil_r. repeat split; try constructor. apply neste_lay.
  Qed.
  Lemma nest_emits : forall edge_sql heap d dis c k, exists ps, emits edge_sql heap d dis c (nestn k) ps /\ length (sargs ps) + 2 = 2 ^ (k + 1).
  Proof.
    intros edge_sql heap d dis c. induction k as [|k (ps & IH & IL)]; [exists [SName #"x"]; split; [constructor|reflexivity]|].
    eexists. split; [cbn [nestn]; apply em_paren; apply em_between; [discriminate|exact IH|apply em_value; [constructor|discriminate]|apply em_value; [constructor|discriminate]]|].
    assert (SA : forall a b, sargs (a ++ b) = sargs a ++ sargs b) by (intros a b; unfold sargs; now rewrite map_app, concat_app).
    assert (SC : forall z, length (sargs [scalar_piece dis (GInt z)]) = 1) by (intro z; now destruct dis).
    change (SFix #" >= " :: [scalar_piece dis (GInt 1)] ++ ?x) with ([SFix #" >= "] ++ [scalar_piece dis (GInt 1)] ++ x).
    repeat match goal with |- context [?x :: ?l] => match l with [] => fail 1 | _ => change (x :: l) with ([x] ++ l) end end.
    rewrite !SA, !app_length, !SC. cbn [Nat.add Nat.pow] in *. rewrite Nat.add_0_r. change (length (sargs [SFix ?t])) with 0.
    lia.
  Qed.
  Lemma query_blowup : forall ident_sql edge_sql heap d dis nd k, exists q m t a,
    valid_runes q /\ length q = 18 * k + 1 /\ query lo ident_sql edge_sql heap (fresh d dis nd q) = Some (m, (t, a)) /\ no_error m /\ length a + 2 = 2 ^ (k + 1).
  Proof.
    intros ident_sql edge_sql heap d dis nd k. destruct (nest_emits edge_sql heap d dis nd k) as (ps & HE & HL).
    destruct (query_success lo ident_sql edge_sql heap d dis nd (nest k) (nestn k) ps (nest_parse k) HE) as (m & Hq & Hm).
    exists (nest k), m, (sql_of ident_sql d 0 ps), (sargs ps).
    split; [apply nest_valid|]. split; [apply nest_len|]. split; [exact Hq|]. split; [exact Hm|exact HL].
  Qed.
End Main.
