(** Proofs for C79: conditions of gormq in the WHERE clause of gorm. *)
From Verif Require Import Base Peg Node Vocab Tree Parse Syntax Blank ParseProofs NormProofs Unique ParserFacts ParserFacts2 ParserMain Build BuildProofs NodeFacts SafeInd
  Gorm GormSpec GormProofs GormFacts GormFacts2 GormFacts3 GormFacts4 TreeFacts EntSQL EntSQLSpec EntSQLProofs SqlSpec SqlSpecDb SqlProofs SqlProofs2 SqlProofs3 SqlGorm SqlLoose
  GormSQL SqlSpecWhere.
Require Import Lia.
Strategy expand [parse_machine rule_trace].
Strategy 1000 [parse_fuel mrun tok_trace].

(** ** Texts without placeholders *)
Definition ends_open (after : bool) (w : list N) : bool := fold_left (fun _ c => (c =? 40)%N) w after.
Lemma build_text : forall d w after tpl vars s, mem 63%N w = false -> expr_build d after (w ++ tpl) vars s = expr_build d (ends_open after w) tpl vars (put w s).
Proof.
  intros d w. induction w as [|c w IH]; intros after tpl vars s H.
  - cbn [app ends_open fold_left]. unfold put. rewrite app_nil_r. now destruct s.
  - cbn [mem existsb] in H. apply Bool.orb_false_iff in H as [H1 H2]. cbn [app expr_build]. rewrite N.eqb_sym in H1. rewrite H1. rewrite (IH _ _ _ _ H2). unfold put. cbn [sSQL sVars].
    now rewrite <- app_assoc.
Qed.
Lemma no_numeral_app : forall a b, no_numeral (a ++ b) = no_numeral a || no_numeral b.
Proof. intros. unfold no_numeral. apply existsb_app. Qed.
Lemma no_numeral_number : forall t, no_numeral t = true -> number t = false.
Proof.
  intros t H. destruct (number t) eqn:E; [|reflexivity]. unfold number in E. apply existsb_exists in H as (c & I & H). apply Bool.negb_true_iff, Bool.orb_false_iff in H as [H1 H2].
  destruct t as [|a r]; [discriminate|]. destruct (mem a #"+-") eqn:M.
  - destruct r as [|b r]; [discriminate|]. destruct I as [->|I]; [congruence|]. rewrite forallb_forall in E. rewrite (E c I) in H1. discriminate.
  - rewrite forallb_forall in E. rewrite (E c I) in H1. discriminate.
Qed.

(** ** Tokens of what is built *)
Section Lexes.
  Variable nl : list N -> option (list N * list N).
  Variable d : list N.
  Variable quote : list N -> list N.
  Variable P : list N -> Prop.
  Hypothesis Q : quotes nl quote (fun c => c) P.
  Hypothesis U : unmarked quote P.
  Notation qid := (fun _ : list N => quote).
  Definition lexes (pre : list gval) (t : list N) (vs : list gval) (bts : list tok) : Prop :=
    forall post rest br, ends_name rest -> tokens nl d rest (seen d (pre ++ vs) post) br -> tokens nl d (t ++ rest) (seen d pre (vs ++ post)) (bts ++ br).
  Lemma lexes_LE : forall ps bts, LE nl qid d ps bts -> forall pre, lexes pre (sql_of qid d (N.of_nat (length pre)) ps) (vals ps) bts.
  Proof. intros ps bts H pre post rest br E K. exact (H pre post rest br E K). Qed.
  Lemma lexes_prefix : forall w ts pre t vs bts, fixes nl d w ts -> lexes pre t vs bts -> lexes pre (w ++ t) vs (ts ++ bts).
  Proof. intros w ts pre t vs bts F H post rest br E K. rewrite <- !app_assoc. apply F. now apply H. Qed.
  Lemma lexes_closes : forall w ts pre, closes nl d w ts -> lexes pre w [] ts.
  Proof. intros w ts pre F post rest br E K. rewrite app_nil_r in K. now apply F. Qed.
  Lemma lexes_app : forall pre t vs bts t2 vs2 b2, lexes pre t vs bts -> (forall r, ends_name r -> ends_name (t2 ++ r)) -> lexes (pre ++ vs) t2 vs2 b2 -> lexes pre (t ++ t2) (vs ++ vs2) (bts ++ b2).
  Proof.
    intros pre t vs bts t2 vs2 b2 A B C post rest br E K. rewrite <- !app_assoc. apply A; [now apply B|]. apply C; [exact E|]. now rewrite <- app_assoc.
  Qed.
  Lemma lexes_nil : forall pre, lexes pre [] [] [].
  Proof. intros pre post rest br E K. now rewrite app_nil_r in K. Qed.

  (** what is done to the statement *)
  Definition ST (f : stmt -> stmt) (bts : list tok) : Prop := forall before pre, exists t vs, f (Stmt before pre) = Stmt (before ++ t) (pre ++ vs) /\ lexes pre t vs bts.
  Definition simple_value (v : gval) : Prop := match v with GFloat _ | GArr _ => False | _ => True end.
  Lemma simple_float : forall v, simple_value v -> no_float v.
  Proof. intros v H z ->. exact H. Qed.
  Lemma add_bind : forall v s, simple_value v -> add_var d v s = bind_var d v s.
  Proof. intros v s H. destruct v; try reflexivity; destruct H. Qed.
  Lemma ST_value : forall v, simple_value v -> ST (add_var d v) [TVal v].
  Proof.
    intros v H before pre. rewrite (add_bind v _ H). exists (holder d (N.of_nat (length pre) + 1) (APlain v)), [v]. split.
    - unfold bind_var, holder. cbn [sSQL sVars]. rewrite app_length. cbn [length]. rewrite app_nil_r. do 2 f_equal. destruct (streq d #"postgres"); [|reflexivity]. do 2 f_equal. lia.
    - pose proof (lexes_LE [SArg (APlain v)] _ (LE_arg nl qid d (fun c => c) P Q (APlain v) (simple_float v H)) pre) as K. cbn [sql_of] in K. rewrite app_nil_r in K. exact K.
  Qed.
  Fixpoint gtoks (l : list gval) : list tok := match l with [] => [TClose] | v :: l => TComma :: TVal v :: gtoks l end.
  Lemma fix_comma1 : fixes nl d #"," [TComma].
  Proof. intros t args us H. now apply (TK_comma nl (bindd d) (other d) (proj1 Q)). Qed.
  Lemma fix_open : fixes nl d #"(" [TOpen].
  Proof. intros t args us H. now apply (TK_open nl (bindd d) (other d) (proj1 Q)). Qed.
  Lemma close_close1 : closes nl d #")" [TClose].
  Proof. intros t args us _ H. now apply (TK_close nl (bindd d) (other d) (proj1 Q)). Qed.
  Lemma ST_more : forall l, Forall simple_value l -> forall before pre, exists t vs, put #")" (more_vars d l (Stmt before pre)) = Stmt (before ++ t) (pre ++ vs) /\ lexes pre t vs (gtoks l) /\
    forall r, ends_name (t ++ r).
  Proof.
    induction l as [|v l IH]; intros F before pre.
    - exists #")", []. split; [unfold put; cbn [more_vars sSQL sVars]; now rewrite app_nil_r|]. split; [exact (lexes_closes _ _ pre close_close1)|reflexivity].
    - inversion_clear F as [|? ? F1 F2]. cbn [more_vars]. unfold put at 2. cbn [sSQL sVars]. destruct (ST_value v F1 (before ++ #",") pre) as (t1 & v1 & E1 & L1). rewrite E1.
      destruct (IH F2 ((before ++ #",") ++ t1) (pre ++ v1)) as (t2 & v2 & E2 & L2 & N2). exists (#"," ++ t1 ++ t2), (v1 ++ v2). split; [now rewrite E2, <- !app_assoc|]. split; [|reflexivity].
      apply (lexes_prefix _ [TComma]); [exact fix_comma1|]. apply (lexes_app pre t1 v1 [TVal v] t2 v2 (gtoks l)); [exact L1|intros; apply N2|exact L2].
  Qed.
  Definition ltoks (l : list gval) : list tok := match l with [] => [] | v :: l => TOpen :: TVal v :: gtoks l end.
  Lemma add_array : forall x l s, add_var d (GArr (x :: l)) s = put #")" (more_vars d l (add_var d x (put #"(" s))).
  Proof.
    reflexivity.
  Qed.
  Lemma ST_array : forall l, l <> [] -> Forall simple_value l -> ST (add_var d (GArr l)) (ltoks l).
  Proof.
    intros [|x l] H F before pre; [congruence|]. inversion_clear F as [|? ? F1 F2]. rewrite add_array. unfold put at 2. cbn [sSQL sVars].
    destruct (ST_value x F1 (before ++ #"(") pre) as (t1 & v1 & E1 & L1). rewrite E1.
    destruct (ST_more l F2 ((before ++ #"(") ++ t1) (pre ++ v1)) as (t2 & v2 & E2 & L2 & N2). exists (#"(" ++ t1 ++ t2), (v1 ++ v2). split; [now rewrite E2, <- !app_assoc|].
    apply (lexes_prefix _ [TOpen]); [exact fix_open|]. apply (lexes_app pre t1 v1 [TVal x] t2 v2 (gtoks l)); [exact L1|intros; apply N2|exact L2].
  Qed.
  Lemma R_gtoks : forall l acc us, R (GMore acc) (gtoks l ++ us) (QList (acc ++ map QVal l), us).
  Proof.
    induction l as [|v l IH]; intros acc us; cbn [gtoks app map].
    - rewrite app_nil_r. apply R_close.
    - apply (R_more _ _ (QVal v) (gtoks l ++ us)); [apply R_val|]. change (QVal v :: map QVal l) with ([QVal v] ++ map QVal l). rewrite app_assoc. apply IH.
  Qed.
  Lemma R_ltoks : forall l us, l <> [] -> R GRange (ltoks l ++ us) (QList (map QVal l), us).
  Proof. intros [|v l] us H; [congruence|]. cbn [ltoks app]. apply (R_range _ (QVal v) (gtoks l ++ us)); [apply R_val|]. exact (R_gtoks l [QVal v] us). Qed.

  (** ** Pieces *)
  Definition XA (after : bool) (ps : list piece) (bts : list tok) : Prop := forall before pre, exists after' t vs,
    (forall tpl more, expr_build d after (sql_text quote ps ++ tpl) (values ps ++ more) (Stmt before pre) = expr_build d after' tpl more (Stmt (before ++ t) (pre ++ vs))) /\
    lexes pre t vs bts.
  Definition X (ps : list piece) (bts : list tok) : Prop := forall after, XA after ps bts.
  Lemma X_value : forall v, simple_value v -> X [PValue v] [TVal v].
  Proof.
    intros v H after before pre. destruct (ST_value v H before pre) as (t & vs & E & L1). exists after, t, vs. split; [|exact L1]. intros tpl more.
    change (sql_text quote [PValue v] ++ tpl) with (63%N :: tpl). change (values [PValue v] ++ more) with (v :: more). cbn [expr_build]. cbn [N.eqb Pos.eqb].
    assert (S : spread d v (Stmt before pre) = add_var d v (Stmt before pre)) by (destruct v; try reflexivity; destruct H). destruct after; [rewrite S|]; now rewrite E.
  Qed.
  Lemma X_array : forall l, l <> [] -> Forall simple_value l -> XA false [PValue (GArr l)] (ltoks l).
  Proof.
    intros l H F before pre. destruct (ST_array l H F before pre) as (t & vs & E & L1). exists false, t, vs. split; [|exact L1]. intros tpl more.
    change (sql_text quote [PValue (GArr l)] ++ tpl) with (63%N :: tpl). change (values [PValue (GArr l)] ++ more) with (GArr l :: more). cbn [expr_build]. cbn [N.eqb Pos.eqb]. now rewrite E.
  Qed.
  Lemma X_text : forall s ts, mem 63%N s = false -> closes nl d s ts -> X [PText s] ts.
  Proof.
    intros s ts H C after before pre. exists (ends_open after s), s, []. split; [|now apply lexes_closes]. intros tpl more.
    replace (sql_text quote [PText s]) with s by (unfold sql_text; cbn; now rewrite app_nil_r). change (values [PText s] ++ more) with more. rewrite build_text by exact H.
    unfold put. cbn [sSQL sVars]. now rewrite app_nil_r.
  Qed.
  Lemma X_column : forall c, P c -> X [PColumn c] [TName c].
  Proof.
    intros c Hc after before pre. exists (ends_open after (quote c)), (quote c), []. split.
    - intros tpl more. replace (sql_text quote [PColumn c]) with (quote c) by (unfold sql_text; cbn; now rewrite app_nil_r). change (values [PColumn c] ++ more) with more.
      rewrite build_text by exact (proj1 (U c Hc)). unfold put. cbn [sSQL sVars]. now rewrite app_nil_r.
    - pose proof (lexes_LE [SName c] _ (LE_name nl qid d (fun c => c) P Q c Hc) pre) as K. cbn [sql_of] in K. now rewrite app_nil_r in K.
  Qed.
  Lemma X_prefix : forall after w ts a ta, mem 63%N w = false -> fixes nl d w ts -> XA (ends_open after w) a ta -> XA after (PText w :: a) (ts ++ ta).
  Proof.
    intros after w ts a ta H F A before pre. destruct (A (before ++ w) pre) as (after' & t & vs & E & L1). exists after', (w ++ t), vs. split; [|now apply lexes_prefix].
    intros tpl more. rewrite text_cons, values_cons, <- app_assoc, build_text by exact H. unfold put. cbn [sSQL sVars]. rewrite E. now rewrite <- app_assoc.
  Qed.
  Lemma X_infix : forall w ts a ta b tb, mem 63%N w = false -> fixes nl d w ts -> (forall t, ends_name (w ++ t)) -> (forall f, ends_open f w = false) -> X a ta -> XA false b tb ->
    X (a ++ PText w :: b) (ta ++ ts ++ tb).
  Proof.
    intros w ts a ta b tb H F N O A B after before pre. destruct (A after before pre) as (f1 & t1 & v1 & E1 & L1).
    assert (B' : XA f1 (PText w :: b) (ts ++ tb)) by (apply X_prefix; [exact H|exact F|]; rewrite O; exact B).
    destruct (B (before ++ t1 ++ w) (pre ++ v1)) as (f2 & t2 & v2 & E2 & L2). exists f2, (t1 ++ w ++ t2), (v1 ++ v2). split.
    - intros tpl more. rewrite text_app, values_app, text_cons, values_cons, <- !app_assoc, E1, build_text by exact H. unfold put. cbn [sSQL sVars]. rewrite O. rewrite <- !app_assoc. rewrite <- !app_assoc in E2. rewrite E2. now rewrite <- ?app_assoc.
    - apply lexes_app; [exact L1|intros; rewrite <- app_assoc; apply N|]. now apply lexes_prefix.
  Qed.
  Lemma X_suffix : forall w ts a ta, mem 63%N w = false -> closes nl d w ts -> (forall t, ends_name (w ++ t)) -> X a ta -> X (a ++ [PText w]) (ta ++ ts).
  Proof.
    intros w ts a ta H F N A after before pre. destruct (A after before pre) as (f1 & t1 & v1 & E1 & L1). exists (ends_open f1 w), (t1 ++ w), v1. split.
    - intros tpl more. rewrite text_app, values_app. change (values [PText w]) with (@nil gval). replace (sql_text quote [PText w]) with w by (unfold sql_text; cbn; now rewrite app_nil_r).
      rewrite <- !app_assoc. cbn [app]. rewrite E1, build_text by exact H. unfold put. cbn [sSQL sVars]. now rewrite <- app_assoc.
    - rewrite <- (app_nil_r v1). apply lexes_app; [exact L1|intros; apply N|]. now apply lexes_closes.
  Qed.
  Lemma X_paren : forall a ta, X a ta -> X (PText #"(" :: a ++ [PText #")"]) (TOpen :: ta ++ [TClose]).
  Proof. intros a ta A after. apply (X_prefix after #"(" [TOpen]); [reflexivity|exact fix_open|]. apply X_suffix; [reflexivity|exact close_close1|reflexivity|exact A]. Qed.
  Lemma close_w : forall w, w <> [] -> forallb letter w = true -> closes nl d w [TWord (map ascii_lower w)].
  Proof. intros w H1 H2. exact (close_word nl qid d (fun c => c) P Q w _ H1 H2 eq_refl). Qed.
  Lemma fix_w : forall w, w <> [] -> forallb letter w = true -> fixes nl d (w ++ #" ") [TWord (map ascii_lower w)].
  Proof.
    intros w H1 H2. change [TWord (map ascii_lower w)] with ([TWord (map ascii_lower w)] ++ []). apply (close_fix nl d); [now apply close_w|exact (fix_blank nl qid d (fun c => c) P Q)|reflexivity].
  Qed.
  Lemma X_not : forall a ta, X a ta -> X (PText #"not " :: a) (TWord #"not" :: ta).
  Proof. intros a ta A after. apply (X_prefix after #"not " [TWord #"not"]); [reflexivity| |apply A]. apply (fix_w #"not"); [discriminate|reflexivity]. Qed.
  Lemma X_date : forall a ta, X a ta -> X (PText #"date" :: PText #"(" :: a ++ [PText #")"]) (TWord #"date" :: TOpen :: ta ++ [TClose]).
  Proof.
    intros a ta A after before pre. destruct (X_suffix #")" [TClose] a ta eq_refl close_close1 (fun _ => eq_refl) A (ends_open (ends_open after #"date") #"(") ((before ++ #"date") ++ #"(") pre) as (f & t & vs & E & L1).
    exists f, (#"date" ++ #"(" ++ t), vs. split.
    - intros tpl more. rewrite !text_cons, !values_cons, <- !app_assoc, (build_text d #"date"), (build_text d #"(") by reflexivity. unfold put. cbn [sSQL sVars]. rewrite E. now rewrite <- !app_assoc.
    - intros post rest br N K. rewrite <- !app_assoc. 
      assert (T : tokens nl d (t ++ rest) (seen d pre (vs ++ post)) ((ta ++ [TClose]) ++ br)) by now apply L1.
      apply (TK_open nl (bindd d) (other d) (proj1 Q)) in T. change (TWord #"date" :: TOpen :: ta ++ [TClose]) with ([TWord #"date"] ++ TOpen :: ta ++ [TClose]). rewrite <- app_assoc. cbn [app].
      apply (TK_word nl (bindd d) (other d) (proj1 Q) #"date"); [discriminate|reflexivity|reflexivity|exact T].
  Qed.
  Lemma X_blank0 : forall a ta b tb, X a ta -> XA false b tb -> X (a ++ PText #" " :: b) (ta ++ tb).
  Proof. intros a ta b tb A B. apply (X_infix #" " []); [reflexivity|exact (fix_blank nl qid d (fun c => c) P Q)|reflexivity|reflexivity|exact A|exact B]. Qed.
  Lemma X_blank : forall a ta b tb, X a ta -> X b tb -> X (a ++ PText #" " :: b) (ta ++ tb).
  Proof. intros a ta b tb A B. apply X_blank0; [exact A|apply B]. Qed.
  Lemma X_and : forall a ta b tb, X a ta -> X b tb -> X (a ++ PText #" and " :: b) (ta ++ TWord #"and" :: tb).
  Proof.
    intros a ta b tb A B. apply (X_infix #" and " [TWord #"and"]); [reflexivity| |reflexivity|reflexivity|exact A|apply B].
    apply (fix_padded nl qid d (fun c => c) P Q #"and"). apply (close_w #"and"); [discriminate|reflexivity].
  Qed.
  Lemma X_word : forall w, w <> [] -> forallb letter w = true -> mem 63%N w = false -> X [PText w] [TWord (map ascii_lower w)].
  Proof. intros w H1 H2 H3. apply X_text; [exact H3|now apply close_w]. Qed.
  Lemma X_two : forall v w s, s = v ++ #" " ++ w -> v <> [] -> w <> [] -> forallb letter v = true -> forallb letter w = true -> mem 63%N s = false ->
    X [PText s] [TWord (map ascii_lower v); TWord (map ascii_lower w)].
  Proof.
    intros v w s -> V W Lv Lw M. apply X_text; [exact M|]. apply (close_two nl qid d (fun c => c) P Q v [_] w [_]); now apply close_w.
  Qed.
  Lemma X_three : forall u v w s, s = u ++ #" " ++ v ++ #" " ++ w -> u <> [] -> v <> [] -> w <> [] -> forallb letter u = true -> forallb letter v = true -> forallb letter w = true -> mem 63%N s = false ->
    X [PText s] [TWord (map ascii_lower u); TWord (map ascii_lower v); TWord (map ascii_lower w)].
  Proof.
    intros u v w s -> U1 V W Lu Lv Lw M. apply X_text; [exact M|]. apply (close_two nl qid d (fun c => c) P Q u [_] _ [_; _]); [now apply close_w|].
    apply (close_two nl qid d (fun c => c) P Q v [_] w [_]); now apply close_w.
  Qed.
  Lemma X_sym : forall s, In s cmp_syms -> X [PText s] [TSym s].
  Proof.
    intros s I. apply X_text; [cbn [In cmp_syms] in I; decompose [or] I; subst; try reflexivity; contradiction|]. exact (close_sym nl qid d (fun c => c) P Q s I).
  Qed.
End Lexes.
