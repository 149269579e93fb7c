(** Proofs for C98: the conditions of gormq for misbuilt trees are not SQL. *)
From Verif Require Import Base Peg Node Vocab Tree Parse Syntax Blank ParseProofs NormProofs ParserFacts ParserFacts2 ParserMain NodeFacts
  Gorm GormSpec GormProofs GormFacts GormFacts2 GormFacts3 GormFacts4 TreeFacts SqlSpec SqlSpecDb SqlProofs SqlProofs2 SqlProofs3 SqlGorm
  GormSQL SqlSpecWhere SqlWhere SqlWhere2 SqlWhere3 PathSpec PathFacts PathUse PathSqlSpec.
Require Import Lia.
Strategy expand [parse_machine].
Strategy 1000 [parse_fuel mrun].

(** ** Tokens that no condition has *)
(** a name, or a parenthesis, after any number of "not" *)
Fixpoint opens (ts : list tok) : bool :=
  match ts with
  | TName _ :: _ | TOpen :: _ => true
  | TWord w :: r => streq w #"not" && opens r
  | _ => false
  end.
(** somewhere a name stands directly before such *)
Fixpoint stray (ts : list tok) : bool :=
  match ts with
  | TName _ :: r => opens r || stray r
  | _ :: r => stray r
  | [] => false
  end.
Definition more (g : goal) : bool := match g with GOrMore _ | GAndMore _ | GCondMore _ | GMore _ => true | _ => false end.
Lemma opens_more : forall go g ts a rest, more g = true -> opens ts = true -> step go g ts = Some (a, rest) -> opens rest = true.
Proof.
  intros go g ts a rest M O H. destruct g; try discriminate; destruct ts as [|[x|w|s| | | | |k|v] ts]; try discriminate;
    try (cbn [step] in H; injection H as <- <-; exact O); cbn [opens] in O; try (apply andb_prop in O as [W O]; apply streq_eq in W; subst w); cbn [step] in H.
  - change (streq #"not" #"or") with false in H. cbv iota in H. injection H as <- <-. cbn. exact O.
  - change (streq #"not" #"and") with false in H. cbv iota in H. injection H as <- <-. cbn. exact O.
  - change (streq #"not" #"like") with false in H. change (streq #"not" #"in") with false in H. change (streq #"not" #"between") with false in H.
    change (streq #"not" #"not") with true in H. cbv iota in H. destruct ts as [|[x|w|s| | | | |k|v] ts]; try discriminate.
    cbn [opens] in O. apply andb_prop in O as [W O]. apply streq_eq in W. subst w. discriminate H.
Qed.
Definition ill (ts : list tok) : Prop := stray ts = true \/ opens ts = true.
Lemma stray_word : forall w ts, stray (TWord w :: ts) = stray ts.
Proof. reflexivity. Qed.
Lemma ill_close : forall ts, ill (TClose :: ts) -> stray ts = true.
Proof. intros ts [H|H]; [exact H|discriminate]. Qed.
Lemma ill_and : forall w ts, streq w #"and" = true -> ill (TWord w :: ts) -> stray ts = true.
Proof. intros w ts E [H|H]; [exact H|]. apply streq_eq in E. subst. discriminate. Qed.
Lemma stray_rest : forall f g ts a rest, rd f g ts = Some (a, rest) -> stray ts = true -> ill rest.
Proof.
  induction f as [|f IH]; intros g ts a rest H S; [discriminate|].
  assert (B : forall g ts a rest, more g = true -> rd f g ts = Some (a, rest) -> ill ts -> ill rest).
  { intros g' ts' a' rest' M K [J|J]; [now apply (IH g' ts' a')|]. right. destruct f as [|f']; [discriminate|]. cbn [rd] in K. now apply (opens_more (rd f') g' ts' a'). }
  cbn [rd] in H. unfold step in H.
  destruct g;
    repeat match goal with
    | H : match rd ?f ?g ?ts with Some _ => _ | None => _ end = Some _ |- _ =>
        let E := fresh "E" in destruct (rd f g ts) as [[? ?]|] eqn:E; [|discriminate]
    | H : Some _ = Some _ |- _ => injection H as <- <-
    | H : None = Some _ |- _ => discriminate
    | H : match ?x with _ => _ end = Some _ |- _ => is_var x; destruct x
    | H : (if ?b then _ else _) = Some _ |- _ => destruct b eqn:?
    end; cbn [stray] in *.
  all: try (left; assumption).
  all: try (apply IH in H; assumption).
  all: repeat match goal with
    | E : rd _ _ _ = Some _, S : stray _ = true |- _ => apply IH in E; [|exact S]; clear S; try (apply ill_close in E); try (apply ill_and in E; [|eassumption])
    end; try assumption; try (left; assumption).
  all: try (eapply B; [|eassumption|assumption]; reflexivity).
  all: try (apply orb_prop in S as [S|S]; [now right|now left]).
Qed.
Lemma not_read : forall nl bts t vs, TK nl bind_marks t vs bts -> stray bts = true -> forall a, ~ reads_marks nl t vs a.
Proof.
  intros nl bts t vs (f & ts & L1 & B1) S a (f' & ts' & us' & L2 & B2 & R2).
  apply (lex_fuel nl f (max f f')) in L1; [|lia]. apply (lex_fuel nl f' (max f f')) in L2; [|lia]. rewrite L1 in L2. injection L2 as <-.
  rewrite B1 in B2. injection B2 as <-. apply stray_rest in R2; [|exact S]. destruct R2; discriminate.
Qed.
Lemma stray_in : forall a b c, stray b = true -> stray (a ++ b ++ c) = true.
Proof.
  intros a b c H. assert (O : forall b c, opens b = true -> opens (b ++ c) = true).
  { induction b0 as [|[] b0 IH]; intros c0 K; cbn [opens app] in *; try discriminate; try reflexivity. apply andb_prop in K as [-> K]. now apply IH. }
  assert (K : stray (b ++ c) = true).
  { induction b as [|t b IH]; [discriminate|]. destruct t; cbn [stray app] in *; try (now apply IH). apply orb_prop in H as [H|H]; [now rewrite (O _ _ H)|rewrite (IH H); apply orb_true_r]. }
  induction a as [|t a IH]; [exact K|]. destruct t; cbn [stray app] in *; try assumption. rewrite IH. apply orb_true_r.
Qed.
Lemma stray_left : forall b c, stray b = true -> stray (b ++ c) = true.
Proof. intros b c. apply (stray_in []). Qed.
Lemma stray_right : forall a b, stray b = true -> stray (a ++ b) = true.
Proof. intros a b H. rewrite <- (app_nil_r b). now apply stray_in. Qed.
Lemma opens_left : forall b c, opens b = true -> opens (b ++ c) = true.
Proof. induction b as [|[] b IH]; intros c K; cbn [opens app] in *; try discriminate; try reflexivity. apply andb_prop in K as [-> K]. now apply IH. Qed.

Section PS.
  Variable fold_eq : list N -> list N -> bool.
  Variable lo : N -> N.
  Variable sch : schema.
  Notation rend := (renders fold_eq sch).
  (** The pieces are written as the tokens.  If [strict], this is known of lists of values
      only if they are not empty and come after an operator. *)
  Variable strict : bool.
  Variable LL : list piece -> list tok -> Prop.
  Hypothesis H_column : forall c, is_column fold_eq sch c -> LL [PColumn c] [TName c].
  Hypothesis H_value : forall v g, (strict = true -> scalar v = true) -> go_value (vnode v) g -> LL [PValue g] [TVal g].
  Hypothesis H_list : forall a ta p ls g, LL a ta -> (strict = true -> ls <> []) -> go_value (vnode (VArr p ls)) g -> exists tb, LL (a ++ PText #" " :: [PValue g]) (ta ++ tb).
  Hypothesis H_paren : forall a ta, LL a ta -> LL (PText #"(" :: a ++ [PText #")"]) (TOpen :: ta ++ [TClose]).
  Hypothesis H_not : forall a ta, LL a ta -> LL (PText #"not " :: a) (TWord #"not" :: ta).
  Hypothesis H_date : forall a ta, LL a ta -> LL (PText #"date" :: PText #"(" :: a ++ [PText #")"]) (TWord #"date" :: TOpen :: ta ++ [TClose]).
  Hypothesis H_blank : forall a ta b tb, LL a ta -> LL b tb -> LL (a ++ PText #" " :: b) (ta ++ tb).
  Hypothesis H_and : forall a ta b tb, LL a ta -> LL b tb -> LL (a ++ PText #" and " :: b) (ta ++ TWord #"and" :: tb).
  Hypothesis H_op : forall s, In s (#"and" :: #"or" :: cmp_ops ++ in_ops ++ between_ops ++ pred_ops) -> exists bts, LL [PText s] bts.
  Ltac noval := match goal with K : go_value _ _ |- _ => apply go_value_type in K; discriminate K end.

  (** what is written for a node are tokens *)
  Definition lexes (n : node) : Prop := forall ps, rend n ps -> exists bts, LL ps bts.
  Definition written (e : expr) (n : node) : Prop := forall ps, rend n ps -> exists bts, LL ps bts /\
    (lean true e = false -> stray bts = true) /\ (lean true e = true -> heads e <> [] -> opens bts = true).
  Definition ok (e : expr) : Prop := tame lo e = true /\ (strict = true -> listed e = true).
  Definition left_by (e : expr) : Prop := ok e -> exists l n, stk lo e = map Some l ++ [Some n] /\ Forall lexes l /\ written e n /\
    (lean true e = true -> l = map mk_ident (heads e)).
  Lemma written_lexes : forall e n, written e n -> lexes n.
  Proof. intros e n H ps K. destruct (H ps K) as (bts & HL & _). eauto. Qed.

  Lemma rend_vnode : forall v ps, rend (vnode v) ps -> exists g, ps = [PValue g] /\ go_value (vnode v) g.
  Proof.
    intros v ps H. assert (T : nType (vnode v) = NValue) by (destruct v as [[]|]; reflexivity).
    inversion H; subst; try (match goal with K : _ = vnode v |- _ => rewrite <- K in T; discriminate T end). eauto.
  Qed.
  Lemma rend_ident : forall x ps, rend (mk_ident x) ps -> exists c, LL ps [TName c].
  Proof.
    intros x ps H. inversion H; subst; try noval. match goal with K : resolves _ _ _ _ |- _ => rename K into S end.
    exists c. apply H_column. exists (mk_ident x). now constructor.
  Qed.
  Lemma rend_opn : forall o ps, edged o -> rend (mk_op (normalize_operation lo o)) ps -> ps = [PText (op_sql lo o)].
  Proof. intros o ps E H. rewrite (norm_name lo o E) in H. exact (rend_op fold_eq lo sch o ps H). Qed.
  Lemma lexes_cmp : forall o, op_cmp o -> named lo cmp_ops o = true -> lexes (mk_op (normalize_operation lo o)).
  Proof.
    intros o E H ps K. apply rend_opn in K; [|now apply edged_cmp]. subst ps. apply H_op. apply existsb_streq in H. right. right. apply in_or_app. now left.
  Qed.
  Lemma lexes_logic : forall o, op_logic o -> lexes (mk_op (normalize_operation lo o)).
  Proof.
    intros o E ps K. apply rend_opn in K; [|now apply edged_logic]. subst ps. rewrite (logic_op lo o E). destruct (is_or o).
    - apply H_op. right. now left.
    - apply H_op. now left.
  Qed.
  Lemma lexes_idents : forall xs, Forall lexes (map mk_ident xs).
  Proof. intro xs. apply Forall_forall. intros n H. apply in_map_iff in H as (x & <- & _). intros ps K. destruct (rend_ident x ps K) as (c & HL). eauto. Qed.

  (** one operand: the tokens of the whole are its tokens, with something before and after *)
  Lemma left_red1 : forall e e' f, left_by e -> (ok e' -> ok e) -> stk lo e' = red1 f (stk lo e) -> lean true e' = lean true e -> heads e' = heads e ->
    (ok e' -> forall n ps, rend (f (Some n)) ps -> exists a, rend n a /\ forall bts, LL a bts -> exists x y, LL ps (x ++ bts ++ y) /\ (opens bts = true -> opens (x ++ bts ++ y) = true)) ->
    left_by e'.
  Proof.
    intros e e' f H T HS HL HH HF T'. destruct (H (T T')) as (l & n & E & F & W & K). exists l, (f (Some n)). rewrite HS, HL, HH, E, red1_snoc.
    split; [reflexivity|]. split; [exact F|]. split; [|exact K]. intros ps R. destruct (HF T' n ps R) as (a & Ra & G). destruct (W a Ra) as (bts & L1 & S1 & O1).
    destruct (G bts L1) as (x & y & L2 & O2). exists (x ++ bts ++ y). rewrite HL, HH. split; [exact L2|]. split; [intro Z; apply stray_in; auto|]. intros Z1 Z2. apply O2. auto.
  Qed.
  Lemma rend_two : forall f l o r ps, two f -> rend (f (Some l) (Some o) (Some r)) ps ->
    exists a w b, rend l a /\ rend o w /\ rend r b /\ ps = a ++ PText #" " :: w ++ PText #" " :: b.
  Proof. intros f l o r ps [-> | ->] H; inversion H; subst; try noval; eauto 8. Qed.
  Lemma left_two : forall l r o f e, two f -> left_by l -> left_by r -> (ok e -> ok l /\ ok r /\ lexes (mk_op (normalize_operation lo o))) ->
    stk lo e = red3 f (stk lo l ++ opn lo o :: stk lo r) ->
    lean true e = lean true l && lean true r && match heads r with [] => true | _ => false end -> heads e = heads l -> left_by e.
  Proof.
    intros l r o f e F Hl Hr HT HS HL HH T. destruct (HT T) as (Tl & Tr & LO). destruct (Hl Tl) as (la & na & Ea & Fa & Wa & Ka). destruct (Hr Tr) as (lb & nb & Eb & Fb & Wb & Kb).
    rewrite HS, HL, HH, Ea, Eb, <- app_assoc. cbn [app]. unfold written. rewrite HL, HH. destruct (rev lb) as [|x zs] eqn:E.
    - (* nothing in the way *)
      assert (lb = []) by (rewrite <- (rev_involutive lb), E; reflexivity). subst lb. cbn [app map]. rewrite red3_snoc.
      eexists _, _. split; [reflexivity|]. split; [exact Fa|]. split.
      + intros ps R. unfold opn in R. destruct (rend_two f _ _ _ ps F R) as (a & w & b & Ra & Rw & Rb & ->).
        destruct (Wa a Ra) as (ba & LA & SA & OA). destruct (LO w Rw) as (bw & LW). destruct (Wb b Rb) as (bb & LB & SB & OB).
        exists (ba ++ bw ++ bb). split; [apply H_blank; [exact LA|]; now apply H_blank|]. split.
        * intro Z. apply andb_false_iff in Z as [Z|Z].
          { apply andb_false_iff in Z as [Z|Z]; [now apply stray_left, SA|apply stray_right, stray_right; auto]. }
          destruct (lean true r) eqn:LR; [|apply stray_right, stray_right; auto]. specialize (Kb eq_refl). destruct (heads r); discriminate.
        * intros Z1 Z2. apply andb_prop in Z1 as [Z1 _]. apply andb_prop in Z1 as [Z1 _]. apply opens_left. auto.
      + intro Z. apply andb_prop in Z as [Z _]. apply andb_prop in Z as [Z _]. auto.
    - assert (El : lb = rev zs ++ [x]) by (rewrite <- (rev_involutive lb), E; reflexivity).
      assert (W : exists m v, map Some la ++ Some na :: opn lo o :: map Some lb ++ [Some nb] = map Some m ++ [Some v; Some x; Some nb] /\ Forall lexes m /\ lexes v).
      { rewrite El in *. destruct zs as [|z zs]; cbn [rev app] in *.
        - exists (la ++ [na]), (mk_op (normalize_operation lo o)). rewrite map_app, <- app_assoc. split; [reflexivity|]. split; [|exact LO].
          apply Forall_app. split; [exact Fa|]. repeat constructor. exact (written_lexes l na Wa).
        - exists (la ++ na :: mk_op (normalize_operation lo o) :: rev zs), z. rewrite !map_app. cbn [map]. rewrite <- !app_assoc. split; [reflexivity|].
          apply Forall_app in Fb as [Fb _]. apply Forall_app in Fb as [Fb Fz]. inversion_clear Fz. split; [|assumption].
          apply Forall_app. split; [exact Fa|]. constructor; [exact (written_lexes l na Wa)|]. now constructor. }
      destruct W as (m & v & W & Fm & Lv). rewrite W, red3_snoc. eexists m, _. split; [reflexivity|]. split; [exact Fm|].
      assert (LF : lean true l && lean true r && match heads r with [] => true | _ => false end = false).
      { destruct (lean true r) eqn:LR; [|now rewrite andb_false_r]. specialize (Kb eq_refl). destruct (heads r); [|now rewrite andb_false_r].
        rewrite Kb in El. now destruct (rev zs). }
      rewrite LF. split; [|discriminate]. intros ps R. destruct (rend_two f _ _ _ ps F R) as (a & w & b & Ra & Rw & Rb & ->).
      destruct (Lv a Ra) as (ba & LA). destruct (Wb b Rb) as (bb & LB & SB & OB).
      assert (Lx : lexes x) by (rewrite El in Fb; apply Forall_app in Fb as [_ Fb]; now inversion_clear Fb). destruct (lean true r) eqn:LR.
      + specialize (Kb eq_refl). assert (I : In x (map mk_ident (heads r))) by (rewrite <- Kb, El; apply in_app_iff; right; now left).
        apply in_map_iff in I as (y & <- & Iy). destruct (rend_ident y w Rw) as (c & LW). exists (ba ++ [TName c] ++ bb).
        split; [apply H_blank; [exact LA|]; now apply H_blank|]. split; [|discriminate]. intros _. apply stray_right. cbn [app stray].
        rewrite OB; [reflexivity|reflexivity|]. intro Z. rewrite Z in Iy. destruct Iy.
      + destruct (Lx w Rw) as (bw & LW). exists (ba ++ bw ++ bb). split; [apply H_blank; [exact LA|]; now apply H_blank|]. split; [|discriminate].
        intros _. apply stray_right, stray_right. auto.
  Qed.
  Lemma left_leaf : forall e n, stk lo e = [Some n] -> lean true e = true -> heads e = [] -> (ok e -> lexes n) -> left_by e.
  Proof.
    intros e n HS HL HH HN T. exists [], n. rewrite HS, HL, HH. split; [reflexivity|]. split; [constructor|]. split; [|reflexivity].
    intros ps R. destruct (HN T ps R) as (bts & K). exists bts. rewrite HL, HH. split; [exact K|]. split; [discriminate|congruence].
  Qed.
  Lemma left_call : forall f args, Forall left_by args -> left_by (ECall f args).
  Proof.
    intros f args IH [T TL]. cbn [tame listed] in T, TL. destruct args as [|e [|]]; try discriminate. cbn [forallb] in TL.
    pose proof T as T0. apply andb_prop in T as [T HD]. apply andb_prop in T as [T HL]. inversion_clear IH as [|? ? IH1 _].
    destruct (IH1 (conj T (fun K => proj1 (andb_prop _ _ (TL K))))) as (l & n & E & F & W & K). rewrite (K HL) in E. destruct (heads e) eqn:HE; [clear HD|discriminate]. cbn [map app] in E.
    apply (left_leaf _ (mk_function f [Some n])); [cbn [stk map concat app]; now rewrite E|cbn [lean forallb]; now rewrite HL|reflexivity| |split; [cbn [tame]; now rewrite HE|exact TL]].
    intros _ ps R. inversion R as [| | | | | | | | | |args qs RA HA]; subst; try noval.
    destruct args as [|m [|]]; try discriminate. match goal with J : map Some [_] = _ |- _ => cbn [map] in J; injection J as -> end.
    inversion RA as [|? ? qa qb K1 K2]; subst. inversion K2; subst. rewrite app_nil_r in *. destruct (W qa K1) as (bts & L1 & _).
    exists (TWord #"date" :: TOpen :: bts ++ [TClose]). now apply H_date.
  Qed.
  Ltac ok_left := let T := fresh in let TL := fresh in let S := fresh in
    intros [T TL]; split; [cbn [tame] in T; now apply andb_prop in T|]; intro S; specialize (TL S); cbn [listed] in TL; repeat (apply andb_prop in TL as [TL ?]); exact TL.
  Lemma left_mut : forall e t, lay e t -> left_by e.
  Proof.
    intros e t H. refine (lay_mind (fun e t _ => left_by e) (fun es t _ => Forall left_by es) _ _ _ _ _ _ _ _ _ _ _ _ _ _ _ _ _ _ e t H); clear e t H; intros.
    - apply (left_leaf _ (vnode (VLit l))); try reflexivity. intros _ ps R. apply rend_vnode in R as (g & -> & G). exists [TVal g]. now apply (H_value (VLit l)).
    - apply (left_leaf _ (vnode (VArr p ls))); try reflexivity. intros [_ TL] ps R. apply rend_vnode in R as (g & -> & G). exists [TVal g]. now apply (H_value (VArr p ls)).
    - apply (left_leaf _ (mk_ident x)); try reflexivity. intros _ ps R. apply rend_ident in R as (c & HL). eauto.
    - apply (left_leaf _ (mk_reference (x :: y :: xs))); try reflexivity. intros _ ps R. inversion R; subst; try noval.
      match goal with K : resolves _ _ _ _ |- _ => rename K into S end. match goal with K : assoc _ _ = _ |- _ => rename K into S2 end.
      exists [TName (x ++ #"." ++ c)]. apply H_column. exists (mk_reference [x; y]). now apply (col_ref fold_eq sch _ x y t c).
    - intros _. exists (map mk_ident (removelast (x :: y :: xs))), (mk_ident (last (x :: y :: xs) [])).
      split; [rewrite map_map; exact (idents_path x y xs)|]. split; [apply lexes_idents|]. split; [|reflexivity].
      intros ps R. apply rend_ident in R as (c & HL). exists [TName c]. split; [exact HL|]. split; [discriminate|reflexivity].
    - apply left_call. constructor.
    - now apply left_call.
    - now apply left_call.
    - apply (left_red1 e _ mk_paren); try reflexivity; [assumption|auto|]. intros _ n ps R. inversion R; subst; try noval. eexists. split; [eassumption|].
      intros bts HL. exists [TOpen], [TClose]. split; [now apply H_paren|reflexivity].
    - apply (left_red1 e _ (fun x => mk_between x (opn lo o) (Some (vnode lo0)) (Some (vnode hi)))); try reflexivity; [assumption|ok_left|].
      intros [T TL] n ps R. cbn [tame listed] in T, TL. apply andb_prop in T as [_ T]. unfold opn in R. inversion R; subst; try noval. eexists. split; [eassumption|].
      match goal with K : rend (mk_op _) _ |- _ => apply rend_opn in K; [subst|now apply edged_between] end.
      match goal with K : rend (vnode lo0) _, K' : rend (vnode hi) _ |- _ => apply rend_vnode in K as (x & -> & G1); apply rend_vnode in K' as (y & -> & G2) end.
      intros bts HL. destruct (H_op (op_sql lo o)) as (bo & HO); [apply existsb_streq in T; right; right; rewrite !in_app_iff; auto|]. exists [], (bo ++ [TVal x] ++ TWord #"and" :: [TVal y]). split.
      + cbn [app]. apply H_blank; [exact HL|]. apply (H_blank [_] bo (_ :: _) (_ :: _)); [exact HO|].
        apply (H_and [_] [_] [_] [_]); [apply (H_value lo0)|apply (H_value hi)]; try assumption; intro S; specialize (TL S); apply andb_prop in TL as [TL TL2]; [now apply andb_prop in TL|exact TL2].
      + cbn [app]. apply opens_left.
    - apply (left_red1 e _ (fun x => mk_between x (opn lo o) (Some (vnode lo0)) (Some (vnode hi)))); try reflexivity; [assumption|ok_left|].
      intros [T TL] n ps R. cbn [tame listed] in T, TL. apply andb_prop in T as [_ T]. unfold opn in R. inversion R; subst; try noval. eexists. split; [eassumption|].
      match goal with K : rend (mk_op _) _ |- _ => apply rend_opn in K; [subst|now apply edged_between] end.
      match goal with K : rend (vnode lo0) _, K' : rend (vnode hi) _ |- _ => apply rend_vnode in K as (x & -> & G1); apply rend_vnode in K' as (y & -> & G2) end.
      intros bts HL. destruct (H_op (op_sql lo o)) as (bo & HO); [apply existsb_streq in T; right; right; rewrite !in_app_iff; auto|]. exists [], (bo ++ [TVal x] ++ TWord #"and" :: [TVal y]). split.
      + cbn [app]. apply H_blank; [exact HL|]. apply (H_blank [_] bo (_ :: _) (_ :: _)); [exact HO|].
        apply (H_and [_] [_] [_] [_]); [apply (H_value lo0)|apply (H_value hi)]; try assumption; intro S; specialize (TL S); apply andb_prop in TL as [TL TL2]; [now apply andb_prop in TL|exact TL2].
      + cbn [app]. apply opens_left.
    - apply (left_red1 e _ (fun x => mk_predicate x (opn lo o))); try reflexivity; [assumption|ok_left|].
      intros [T TL] n ps R. cbn [tame listed] in T, TL. apply andb_prop in T as [_ T]. unfold opn in R. inversion R; subst; try noval. eexists. split; [eassumption|].
      match goal with K : rend (mk_op _) _ |- _ => apply rend_opn in K; [subst|now apply edged_match] end.
      intros bts HL. destruct (H_op (op_sql lo o)) as (bo & HO); [apply existsb_streq in T; right; right; rewrite !in_app_iff; auto|]. exists [], bo. split.
      + cbn [app]. now apply H_blank.
      + cbn [app]. apply opens_left.
    - apply (left_red1 e _ (fun x => mk_compare x (opn lo o) (Some (vnode (VArr p ls))))); try reflexivity; [assumption|ok_left|].
      intros [T TL] n ps R. cbn [tame listed] in T, TL. apply andb_prop in T as [_ T]. unfold opn in R. inversion R; subst; try noval. eexists. split; [eassumption|].
      match goal with K : rend (mk_op _) _ |- _ => apply rend_opn in K; [subst|now apply edged_in] end.
      match goal with K : rend (mk_array _) _ |- _ => apply (rend_vnode (VArr p ls)) in K as (x & -> & G) end.
      intros bts HL. destruct (H_op (op_sql lo o)) as (bo & HO); [apply existsb_streq in T; right; right; rewrite !in_app_iff; auto|].
      destruct (H_list [PText (op_sql lo o)] bo p ls x HO) as (ba & HA); [|exact G|].
      { intros S ->. specialize (TL S). apply andb_prop in TL as [_ TL]. discriminate. }
      exists [], (bo ++ ba). split.
      + cbn [app]. apply H_blank; [exact HL|]. exact HA.
      + cbn [app]. apply opens_left.
    - apply (left_two l r o mk_compare); try reflexivity; try assumption; [now left|]. intros [T TL]. cbn [tame listed] in T, TL. apply andb_prop in T as [T1 T2]. apply andb_prop in T1 as [T1 T3].
      split; [split; [exact T1|intro S; now apply andb_prop in TL]|]. split; [split; [exact T3|intro S; now apply andb_prop in TL]|]. now apply lexes_cmp.
    - apply (left_red1 e _ mk_not); try reflexivity; [assumption|auto|]. intros _ m ps R. inversion R; subst; try noval. eexists. split; [eassumption|].
      intros bts HL. exists [TWord #"not"], []. rewrite app_nil_r. split; [now apply H_not|]. intro O. exact O.
    - apply (left_two l r o mk_logic); try reflexivity; try assumption; [now right|]. intros [T TL]. cbn [tame listed] in T, TL. apply andb_prop in T as [T1 T3].
      split; [split; [exact T1|intro S; now apply andb_prop in TL]|]. split; [split; [exact T3|intro S; now apply andb_prop in TL]|]. now apply lexes_logic.
    - now constructor.
    - now constructor.
  Qed.
  Lemma mis_tokens : forall q e n ps, valid_runes q -> reads q e -> ok e -> lean true e = false -> parse lo q = Ok (Some n) -> rend n ps ->
    exists bts, LL ps bts /\ stray bts = true.
  Proof.
    intros q e n ps Hq He Ht Hl Hp R. pose proof (reads_fits lo q e _ Hq He Hp) as Hf. rewrite (parse_fits lo q e Hq He Hf) in Hp.
    destruct He as (w1 & t & w2 & _ & _ & _ & HL). destruct (left_mut e t HL Ht) as (l & m & E & _ & W & _). rewrite E, last_last in Hp. injection Hp as ->.
    destruct (W ps R) as (bts & L1 & S1 & _). exists bts. auto.
  Qed.
End PS.

(** ** As gormq writes it *)
Lemma unread_pieces : forall fold_eq lo nl quote sch q e n ps, quotes nl quote (fun c => c) (is_column fold_eq sch) ->
  valid_runes q -> reads q e -> tame lo e = true -> lean true e = false -> parse lo q = Ok (Some n) -> renders fold_eq sch n ps ->
  forall a, ~ reads_marks nl (sql_text quote ps) (values ps) a.
Proof.
  intros fold_eq lo nl quote sch q e n ps Q Hq He Ht Hl Hp R.
  destruct (mis_tokens fold_eq lo sch false (L nl quote)) with (q := q) (e := e) (n := n) (ps := ps) as (bts & L1 & S1); try assumption.
  - apply (L_column nl quote _ Q).
  - intros v g _ _. apply (L_value nl quote _ Q).
  - intros a ta p ls g A _ _. exists [TVal g]. apply (L_blank nl quote _ Q); [exact A|apply (L_value nl quote _ Q)].
  - apply (L_paren nl quote _ Q).
  - apply (L_not nl quote _ Q).
  - apply (L_date nl quote _ Q).
  - apply (L_blank nl quote _ Q).
  - apply (L_and nl quote _ Q).
  - intros s [<-|[<-|I]]; [eexists; apply (L_word nl quote _ Q #"and"); [discriminate|reflexivity]|eexists; apply (L_word nl quote _ Q #"or"); [discriminate|reflexivity]|].
    rewrite !in_app_iff in I. destruct I as [I|[I|[I|I]]].
    + destruct (read_cmp fold_eq nl quote sch Q s I) as (bts & K & _). eauto.
    + destruct (read_in fold_eq nl quote sch Q s I) as (bts & K & _). eauto.
    + destruct (read_between fold_eq nl quote sch Q s I) as (bts & K & _). eauto.
    + destruct (read_pred fold_eq nl quote sch Q s I) as (bts & K & _). eauto.
  - split; [exact Ht|discriminate].
  - specialize (L1 [] [] [] I (TK_nil nl bind_marks eq_refl)). rewrite !app_nil_r in L1. exact (not_read nl bts _ _ L1 S1).
Qed.
Lemma wire_parsed : forall fold_eq quote lo d q e d', valid_runes q -> reads q e -> wire_mini_query fold_eq quote lo d q = Some d' -> succeeded d d' ->
  exists n sch ps, parse lo q = Ok (Some n) /\ schema_of d = Some sch /\ renders fold_eq sch n ps /\ dWheres d' = dWheres d ++ [(sql_text quote ps, values ps)].
Proof.
  intros fold_eq quote lo d q e d' Hq He H HS.
  assert (HP : exists n, parse lo q = Ok n).
  { destruct (parse lo q) as [n|er|] eqn:E; [eauto| |]; exfalso; unfold wire_mini_query in H; destruct q as [|c q].
    - now apply reads_empty in He.
    - rewrite E in H. injection H as <-. unfold succeeded in HS. cbn in HS. now apply app_neq in HS.
    - now apply reads_empty in He.
    - rewrite E in H. discriminate. }
  destruct HP as (p & HP). destruct p as [n|].
  2:{ exfalso. pose proof (reads_fits lo q e _ Hq He HP) as Hf. rewrite (parse_fits lo q e Hq He Hf) in HP. destruct He as (w1 & t & w2 & _ & _ & _ & HL).
      destruct (proj1 (top_mut lo true) e t HL) as (l & m & E & _). rewrite E, last_last in HP. discriminate. }
  destruct (renders_complete fold_eq quote lo d q n d' Hq HP H HS) as (sch & ps & Hs & K).
  pose proof (renders_sound fold_eq quote lo d sch q n ps Hq HP Hs K) as E. rewrite H in E. apply some_inj in E. subst d'.
  exists n, sch, ps. auto.
Qed.
Lemma wire_unread : forall fold_eq quote lo nl d q e d' sch, valid_runes q -> reads q e -> tame lo e = true -> lean true e = false -> schema_of d = Some sch ->
  quotes nl quote (fun c => c) (is_column fold_eq sch) -> wire_mini_query fold_eq quote lo d q = Some d' -> succeeded d d' ->
  exists t vs, dWheres d' = dWheres d ++ [(t, vs)] /\ forall a, ~ reads_marks nl t vs a.
Proof.
  intros fold_eq quote lo nl d q e d' sch Hq He Ht Hl Hs HQ H HS. destruct (wire_parsed fold_eq quote lo d q e d' Hq He H HS) as (n & sch' & ps & HP & Hs' & K & E).
  rewrite Hs in Hs'. injection Hs' as <-. exists (sql_text quote ps), (values ps). split; [exact E|]. exact (unread_pieces fold_eq lo nl quote sch q e n ps HQ Hq He Ht Hl HP K).
Qed.

(** With no right operand that begins with a path, the condition is that of the query
    without the names in the way. *)
Lemma wire_last : forall fold_eq quote lo nl d q q' e d' sch, valid_runes q -> valid_runes q' -> reads q e -> reads q' (shown e) -> lean true e = true ->
  neat lo (shown e) = true -> schema_of d = Some sch -> quotes nl quote (fun c => c) (is_column fold_eq sch) ->
  wire_mini_query fold_eq quote lo d q = Some d' -> succeeded d d' ->
  exists t vs a, dWheres d' = dWheres d ++ [(t, vs)] /\ reads_marks nl t vs a /\
    forall w row nm, agrees (wV w) fold_eq sch row nm -> sql_means w row a = query_means w lo nm (shown e).
Proof.
  intros fold_eq quote lo nl d q q' e d' sch Hq Hq' He He' Hl Hn Hs HQ H HS.
  assert (Hf : fits e = true).
  { destruct (parse lo q) as [n|er|] eqn:E; [exact (reads_fits lo q e n Hq He E)| |]; exfalso; unfold wire_mini_query in H; destruct q as [|c q].
    - now apply reads_empty in He.
    - rewrite E in H. injection H as <-. unfold succeeded in HS. cbn in HS. now apply app_neq in HS.
    - now apply reads_empty in He.
    - rewrite E in H. discriminate. }
  destruct (as_last lo q q' e Hq Hq' He He' Hl Hf) as [A _]. rewrite A in H. exact (wire_sql fold_eq quote lo nl d q' (shown e) d' sch Hq' He' Hn Hs HQ H HS).
Qed.

(** ** As gorm writes it *)
Lemma go_simple : forall l g, go_value (lnode l) g -> simple_value g.
Proof. intros [] g H; inversion H; exact I. Qed.
Lemma go_simples : forall ls vs, go_values (map (fun l => Some (lnode l)) ls) vs -> Forall simple_value vs /\ length vs = length ls.
Proof.
  induction ls as [|l ls IH]; intros vs H; cbn [map] in H; inversion H as [|n r v ws Hv Hr]; subst; [split; [constructor|reflexivity]|].
  destruct (IH ws Hr) as [F L]. split; [constructor; [now apply go_simple in Hv|exact F]|cbn [length]; now rewrite L].
Qed.
Lemma no_numeral_two : forall s, In s (#"and" :: #"or" :: cmp_ops ++ in_ops ++ between_ops ++ pred_ops) -> no_numeral s = true.
Proof. apply Forall_forall. unfold cmp_ops, cmp_syms, in_ops, between_ops, pred_ops. cbn [app]. repeat constructor. Qed.
Section Clause.
  Variable fold_eq : list N -> list N -> bool.
  Variable lo : N -> N.
  Variable nl : list N -> option (list N * list N).
  Variable quote : list N -> list N.
  Variable sch : schema.
  Variable d0 : list N.
  Hypothesis Q : quotes nl quote (fun c => c) (is_column fold_eq sch).
  Hypothesis U : unmarked quote (is_column fold_eq sch).
  Lemma stray_pieces : forall q e n ps, valid_runes q -> reads q e -> tame lo e = true -> listed e = true -> lean true e = false -> parse lo q = Ok (Some n) -> renders fold_eq sch n ps ->
    exists bts, SqlWhere2.LL nl quote d0 ps bts /\ stray bts = true.
  Proof.
    intros q e n ps Hq He Ht Hd Hl Hp R.
    apply (mis_tokens fold_eq lo sch true (SqlWhere2.LL nl quote d0)) with (q := q) (e := e) (n := n); try assumption.
    - apply (N_column fold_eq nl quote sch d0 Q U).
    - intros v g S G. apply (N_value fold_eq nl quote sch d0 Q). destruct v as [l|p ls]; [now apply go_simple in G|discriminate (S eq_refl)].
    - intros a ta p ls g A S G. specialize (S eq_refl). cbn [vnode] in G. inversion G as [| | | |l vs Hl']; subst. destruct (go_simples _ _ Hl') as [F L].
      exists (ltoks vs). apply (N_blank0 fold_eq nl quote sch d0 Q); [exact A|]. apply (X_array nl d0 quote _ Q); [|exact F]. intros ->. destruct ls; [congruence|discriminate].
    - apply (N_paren fold_eq nl quote sch d0 Q).
    - apply (N_not fold_eq nl quote sch d0 Q).
    - apply (N_date fold_eq nl quote sch d0 Q).
    - intros a ta b tb A [B _]. now apply (N_blank fold_eq nl quote sch d0 Q).
    - intros a ta b tb [A N] [B _]. split; [now apply (X_and nl d0 quote _ Q)|]. now rewrite text_app, no_numeral_app, N.
    - intros s I. pose proof (no_numeral_two s I) as NN.
      assert (K : exists bts, X nl d0 quote [PText s] bts).
      { destruct I as [<-|[<-|I]]; [eexists; apply (X_word nl d0 quote _ Q #"and"); (discriminate || reflexivity)|eexists; apply (X_word nl d0 quote _ Q #"or"); (discriminate || reflexivity)|].
        rewrite !in_app_iff in I. destruct I as [I|[I|[I|I]]].
        + destruct (x_cmp fold_eq nl quote sch d0 Q s I) as (bts & K & _). eauto.
        + destruct (x_in fold_eq nl quote sch d0 Q s I) as (bts & K & _). eauto.
        + destruct (x_between fold_eq nl quote sch d0 Q s I) as (bts & K & _). eauto.
        + destruct (x_pred fold_eq nl quote sch d0 Q s I) as (bts & K & _). eauto. }
      destruct K as (bts & K). exists bts. split; [exact K|]. unfold sql_text. cbn. now rewrite app_nil_r.
    - now split.
  Qed.
End Clause.

Section Clause2.
  Variable nl : list N -> option (list N * list N).
  Variable d : list N.
  Variable up : N -> N.
  Hypothesis PS : forall c t, unquoted c = true -> nl (c :: t) = None.
  (** a condition that Where takes as it is, and its tokens *)
  Definition standing (c : list N * list gval) (bts : list tok) : Prop := build_condition c = Some [c] /\ stands nl d c bts.
  Lemma standing_all : forall cs bs, Forall2 standing cs bs -> all_conditions cs = Some cs.
  Proof. intros cs bs H. induction H as [|c q cs qs [E _] _ IH]; [reflexivity|]. cbn [all_conditions]. now rewrite E, IH. Qed.
  Lemma standing_one : forall c b many, standing c b -> exists bts,
    (forall before pre, exists t vs, build_one d up many c (Stmt before pre) = Stmt (before ++ t) (pre ++ vs) /\ SqlWhere.lexes nl d pre t vs bts) /\ (stray b = true -> stray bts = true).
  Proof.
    intros c b many (_ & ST1). unfold build_one. destruct (many && spaced up (fst c)) eqn:S.
    - exists (TOpen :: b ++ [TClose]). split; [|apply (stray_in [TOpen])].
      intros before pre. destruct (ST1 (before ++ #"(") pre) as (t & vs & E & L1). exists (#"(" ++ t ++ #")"), vs. split.
      + unfold put at 2. cbn [sSQL sVars]. rewrite E. unfold put. cbn [sSQL sVars]. now rewrite <- !app_assoc.
      + intros post rest br N K. rewrite <- !app_assoc. cbn [app]. rewrite <- app_assoc. apply (TK_open nl (bindd d) (other d) PS (t ++ #")" ++ rest)). apply L1; [reflexivity|]. now apply (TK_close nl (bindd d) (other d) PS).
    - exists b. split; [exact ST1|auto].
  Qed.
  Lemma standing_tail : forall cs bs, Forall2 standing cs bs -> exists bts,
    (forall before pre, exists t vs, fold_left (fun s c => build_one d up true c (put #" AND " s)) cs (Stmt before pre) = Stmt (before ++ t) (pre ++ vs) /\ SqlWhere.lexes nl d pre t vs bts /\
       forall r, ends_name r -> ends_name (t ++ r)) /\ (Exists (fun b => stray b = true) bs -> stray bts = true).
  Proof.
    intros cs bs H. induction H as [|c b cs bs C _ (bt & IH1 & IH2)].
    - exists []. split; [|intro K; inversion K]. intros before pre. exists [], []. rewrite !app_nil_r. split; [reflexivity|]. split; [|auto]. intros post rest br N K. now rewrite app_nil_r in K.
    - destruct (standing_one c b true C) as (bc & O1 & O2). exists (TWord #"and" :: bc ++ bt). split.
      + intros before pre. cbn [fold_left]. unfold put at 2. cbn [sSQL sVars]. destruct (O1 (before ++ #" AND ") pre) as (t1 & v1 & E1 & L1). rewrite E1.
        destruct (IH1 ((before ++ #" AND ") ++ t1) (pre ++ v1)) as (t2 & v2 & E2 & L2 & N2). rewrite E2. exists (#" AND " ++ t1 ++ t2), (v1 ++ v2). split; [now rewrite <- !app_assoc|]. split; [|reflexivity].
        pose proof (lexes_app nl d pre t1 v1 bc t2 v2 bt L1 N2 L2) as L3. intros post rest br N K. specialize (L3 post rest br N K). rewrite <- app_assoc.
        change (#" AND " ++ (t1 ++ t2) ++ rest) with (#" " ++ #"AND" ++ #" " ++ (t1 ++ t2) ++ rest). apply (TK_blank nl (bindd d) PS).
        apply (TK_word nl (bindd d) (other d) PS #"AND"); [discriminate|reflexivity|reflexivity|]. now apply (TK_blank nl (bindd d) PS).
      + intro K. cbn [stray]. inversion K; subst; [apply stray_left|apply stray_right]; auto.
  Qed.
  Lemma clause_unread : forall db bs, Forall2 standing (dWheres db) bs -> Exists (fun b => stray b = true) bs ->
    exists t vs, where_clause d up db = Some (t, vs) /\ forall a, ~ reads_sql nl d t vs a.
  Proof.
    intros db bs H S. unfold where_clause. rewrite (standing_all _ _ H).
    assert (K : exists t vs bts, build_exprs d up (dWheres db) (Stmt [] []) = Stmt t vs /\ SqlWhere.lexes nl d [] t vs bts /\ stray bts = true).
    { destruct H as [|c b cs bs C H]; [inversion S|]. destruct H as [|c' b' cs bs C' H].
      - destruct (standing_one c b false C) as (bc & O1 & O2). destruct (O1 [] []) as (t & vs & E & L1). exists t, vs, bc. split; [exact E|]. split; [exact L1|].
        apply O2. inversion S as [? ? K|? ? K]; subst; [exact K|inversion K].
      - destruct (standing_one c b true C) as (bc & O1 & O2). destruct (standing_tail (c' :: cs) (b' :: bs) (Forall2_cons _ _ C' H)) as (bt & T1 & T2).
        destruct (O1 [] []) as (t1 & v1 & E1 & L1). destruct (T1 ([] ++ t1) ([] ++ v1)) as (t2 & v2 & E2 & L2 & N2). exists (t1 ++ t2), (v1 ++ v2), (bc ++ bt). split.
        + unfold build_exprs. rewrite E1. rewrite E2. now rewrite <- ?app_assoc.
        + split; [now apply lexes_app|]. inversion S; subst; [apply stray_left|apply stray_right]; auto. }
    destruct K as (t & vs & bts & E & L1 & ST). exists t, vs. rewrite E. split; [reflexivity|].
    assert (K : tokens nl d t (seen d [] vs) bts).
    { specialize (L1 [] [] []). rewrite !app_nil_r in L1. apply L1; [exact I|]. unfold tokens, seen. exists 1, []. split; [reflexivity|]. now destruct (numbered d). }
    destruct K as (f & ts & K1 & K2). intros a RD. unfold reads_sql, seen, numbered in *. destruct (streq d #"postgres").
    - destruct RD as (f' & ts' & us' & J1 & J2 & J3). apply (lex_fuel nl f (max f f')) in K1; [|lia]. apply (lex_fuel nl f' (max f f')) in J1; [|lia]. rewrite J1 in K1. injection K1 as <-.
      cbn [app] in K2. rewrite J2 in K2. injection K2 as <-. apply stray_rest in J3; [|exact ST]. destruct J3; discriminate.
    - apply (not_read nl bts t vs) in RD; [exact RD| |exact ST]. exists f, ts. now split.
  Qed.
End Clause2.
Lemma where_unread : forall fold_eq quote lo nl dialect up d q e d' sch guards, valid_runes q -> reads q e -> tame lo e = true -> listed e = true -> lean true e = false -> schema_of d = Some sch ->
  quotes nl quote (fun c => c) (is_column fold_eq sch) -> unmarked quote (is_column fold_eq sch) -> Forall2 (conjunct nl dialect up) (dWheres d) guards ->
  wire_mini_query fold_eq quote lo d q = Some d' -> succeeded d d' ->
  exists t vs, where_clause dialect up d' = Some (t, vs) /\ forall a, ~ reads_sql nl dialect t vs a.
Proof.
  intros fold_eq quote lo nl dialect up d q e d' sch guards Hq He Ht Hd Hl Hs HQ HU HG H HS.
  destruct (wire_parsed fold_eq quote lo d q e d' Hq He H HS) as (n & sch' & ps & HP & Hs' & K & E). rewrite Hs in Hs'. injection Hs' as <-.
  destruct (stray_pieces fold_eq lo nl quote sch dialect HQ HU q e n ps Hq He Ht Hd Hl HP K) as (bts & [X1 N1] & S1).
  assert (G : exists bs, Forall2 (standing nl dialect) (dWheres d) bs).
  { clear - HG. induction HG as [|c a cs qs (B & b & ST & _) _ (bs & IH)]; [now exists []|]. exists (b :: bs). constructor; [now split|exact IH]. }
  destruct G as (bs & G). apply (clause_unread nl dialect up (proj1 HQ) d' (bs ++ [bts])).
  - rewrite E. apply Forall2_app; [exact G|]. constructor; [|constructor]. split.
    + unfold build_condition. cbn [fst snd]. rewrite (no_numeral_number _ N1). destruct (values ps) as [|v vs] eqn:V.
      * destruct (sql_text quote ps); [discriminate|reflexivity].
      * assert (M : mem 63%N (sql_text quote ps) = true) by (apply values_mark; now rewrite V). destruct (sql_text quote ps); now rewrite M.
    + intros before pre. cbn [fst snd]. destruct (X1 false before pre) as (f & tx & vs & E1 & LX). exists tx, vs. split; [|exact LX].
      specialize (E1 [] []). rewrite !app_nil_r in E1. rewrite E1. cbn [expr_build sSQL sVars]. now rewrite app_nil_r.
  - apply Exists_app. right. now constructor.
Qed.
