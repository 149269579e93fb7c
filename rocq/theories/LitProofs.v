(** Proofs about trees that differ only in literals (C82). *)
From Verif Require Import Base Node Tree Parse Build EntSQL LitSpec SizeSpec Size.
From Coq Require Import Lia.

Section Lit.
  Variable casts : bool.
  Notation bl := (blank casts).
  Notation bv := (blank_value casts).
  Notation ba := (blank_arg casts).
  Notation be := (blank_err casts).

  Definition vgo := fix go (l : list (option node)) : option (list gval) :=
               match l with
               | [] => Some []
               | None :: _ => None
               | Some v :: l' =>
                   match value v, go l' with
                   | Some x, Some xs => Some (x :: xs)
                   | _, _ => None
                   end
               end.
  Lemma value_arr : forall n, nVType n = VArray -> value n = match vgo (nArray n) with Some xs => Some (GArr xs) | None => None end.
  Proof. intros [] H. cbn in H. subst. reflexivity. Qed.

  Lemma value_blank : forall k n, nsize n < k -> option_map bv (value n) = option_map bv (value (bl n)).
  Proof.
    induction k; intros n Hk; [lia|].
    destruct (nVType n) eqn:V; try (destruct n; cbn in V; subst; cbn; destruct casts; reflexivity).
    rewrite (value_arr n V), (value_arr (bl n)) by (destruct n; cbn in *; subst; reflexivity).
    rewrite nsize_eq in Hk. assert (Hl : ssz (nArray n) < k) by lia. clear Hk V.
    replace (nArray (bl n)) with (map (option_map bl) (nArray n)) by (destruct n; reflexivity).
    set (l := nArray n) in *. clearbody l.
    assert (E : option_map (map bv) (vgo l) = option_map (map bv) (vgo (map (option_map bl) l))).
    { induction l as [|[x|] l IH]; [reflexivity| |reflexivity]. cbn [map option_map vgo]. change (ssz (Some x :: l)) with (nsize x + ssz l) in Hl.
      specialize (IHk x ltac:(lia)). specialize (IH ltac:(lia)). 
      destruct (value x), (value (bl x)); try discriminate; [|reflexivity]. injection IHk as IHk.
      destruct (vgo l), (vgo (map (option_map bl) l)); try discriminate; [|reflexivity]. injection IH as IH. cbn. congruence. }
    destruct (vgo l), (vgo (map (option_map bl) l)); try discriminate; [|reflexivity]. injection E as E. cbn. congruence.
  Qed.

  (** ** Builders *)
  Notation bsim := (same_builder casts).
  Notation ssim := (same_state casts).
  Definition tell (b : sqlb) : Prop := casts = true \/ bDialect b <> #"postgres".

  Lemma bsim_write : forall t b b', bsim b b' -> bsim (write t b) (write t b').
  Proof. intros t b b' (A & B & C & D & E). repeat split; cbn; congruence. Qed.
  Lemma bsim_dialect : forall b b', bsim b b' -> bDialect b = bDialect b'.
  Proof. intros b b' H. apply H. Qed.
  Lemma is_pg : forall d, d <> #"postgres" -> is_postgres d = false.
  Proof. intros d H. unfold is_postgres. destruct (streq d #"postgres") eqn:E; [|reflexivity]. apply streq_eq in E. contradiction. Qed.
  Lemma format_same : forall v v' p d, (casts = true \/ d <> #"postgres") -> bv v = bv v' -> format_param v p d = format_param v' p d.
  Proof.
    intros v v' p d [C|D] H; unfold format_param; [|now rewrite (is_pg d D)]. rewrite C in H.
    destruct v, v'; try discriminate; reflexivity.
  Qed.
  Lemma bsim_arg : forall a a' b b', tell b -> ba a = ba a' -> bsim b b' -> bsim (write_arg a b) (write_arg a' b').
  Proof.
    intros a a' b b' HT HA (A & B & C & D & E). unfold write_arg.
    assert (K : forall t t', t = t' -> bsim (SB (bText b ++ t) (bArgs b ++ [a]) (bTotal b + 1) (bDialect b) (bErrs b))
                              (SB (bText b' ++ t') (bArgs b' ++ [a']) (bTotal b' + 1) (bDialect b') (bErrs b'))).
    { intros t t' ->. repeat split; cbn; try congruence. rewrite !map_app. cbn. congruence. }
    destruct a as [v|v], a' as [v'|v']; try discriminate HA; injection HA as HA.
    - assert (G : (v = GNil /\ v' = GNil) \/ (v <> GNil /\ v' <> GNil)).
      { destruct v, v'; try discriminate HA; try (right; split; discriminate); try (left; split; reflexivity); cbn in HA; destruct casts; discriminate. }
      destruct G as [[-> ->]|[G1 G2]]; [apply bsim_write; repeat split; assumption|].
      assert (X : forall t t', t = t' -> bsim (SB (bText b ++ t) (bArgs b ++ [APlain v]) (bTotal b + 1) (bDialect b) (bErrs b))
                              (SB (bText b' ++ t') (bArgs b' ++ [APlain v']) (bTotal b' + 1) (bDialect b') (bErrs b'))) by exact K.
      destruct v; try congruence; destruct v'; try congruence; cbv zeta; apply X; now rewrite D, C.
    - cbv zeta. apply K. rewrite D, C. apply format_same; [|exact HA]. rewrite <- D. exact HT.
  Qed.
  Lemma tell_dialect : forall b b', bDialect b = bDialect b' -> tell b -> tell b'.
  Proof. intros b b' E [H|H]; [left|right]; congruence. Qed.
  Lemma arg_dialect : forall a b, bDialect (write_arg a b) = bDialect b.
  Proof. intros [v|v] b; destruct v; reflexivity. Qed.
  Lemma bsim_args : forall l l' b b', tell b -> map ba l = map ba l' -> bsim b b' -> bsim (write_args l b) (write_args l' b').
  Proof.
    induction l as [|a l IH]; intros [|a' l'] b b' HT HA H; try discriminate; [exact H|]. injection HA as H1 H2.
    destruct l as [|a2 l]; destruct l' as [|a2' l']; try discriminate.
    - apply bsim_arg; assumption.
    - assert (X : bsim (write_args (a2 :: l) (write #", " (write_arg a b))) (write_args (a2' :: l') (write #", " (write_arg a' b'))));
        [|exact X]. apply IH; [|exact H2|].
      + apply (tell_dialect b); [symmetry; apply arg_dialect|exact HT].
      + apply bsim_write, bsim_arg; assumption.
  Qed.
  Lemma bsim_join : forall t a a' e e' b b', map ba a = map ba a' -> map be e = map be e' -> bsim b b' -> bsim (join t a e b) (join t a' e' b').
  Proof.
    intros t a a' e e' b b' HA HE (A & B & C & D & E). repeat split; cbn; try congruence.
    - rewrite !map_app. congruence.
    - assert (length a = length a') by (rewrite <- (map_length ba a), HA; apply map_length). congruence.
    - rewrite !map_app. congruence.
  Qed.
  Lemma bsim_op : forall o b b', bsim b b' -> bsim (write_op o b) (write_op o b').
  Proof. intros o b b' H. unfold write_op, pad. destruct o; repeat apply bsim_write; exact H. Qed.

  (** ** States *)
  Lemma suits_own : forall s, suits casts s -> tell (sOwn s).
  Proof. intros s [H|[H _]]; [left|right]; exact H. Qed.
  Lemma ssim_emit : forall f f' s s', (forall b b', tell b -> bsim b b' -> bsim (f b) (f' b')) -> suits casts s -> ssim s s' -> ssim (emit f s) (emit f' s').
  Proof.
    intros f f' s s' F HS [A B]. unfold emit. destruct (sExt s) as [b|] eqn:E, (sExt s') as [b'|] eqn:E'; try contradiction.
    - split; [exact A|]. cbn. apply F; [|exact B]. destruct HS as [C|[_ C]]; [left; exact C|right; apply C; exact E].
    - split; [|exact I]. cbn. apply F; [apply suits_own; exact HS|exact A].
  Qed.
  Lemma ssim_own : forall f f' s s', (forall b b', bsim b b' -> bsim (f b) (f' b')) -> ssim s s' -> ssim (own f s) (own f' s').
  Proof. intros f f' s s' F [A B]. split; [apply F; exact A|exact B]. Qed.
  Lemma suits_emit : forall f s, (forall b, bDialect (f b) = bDialect b) -> suits casts s -> suits casts (emit f s).
  Proof.
    intros f s F [C|[A B]]; [left; exact C|right]. unfold emit. destruct (sExt s) as [b|] eqn:E; cbn.
    - split; [exact A|]. intros b0 [= <-]. rewrite F. apply B. reflexivity.
    - split; [rewrite F; exact A|discriminate].
  Qed.
  Lemma suits_own_f : forall f s, (forall b, bDialect (f b) = bDialect b) -> suits casts s -> suits casts (own f s).
  Proof. intros f s F [C|[A B]]; [left; exact C|right]. split; [cbn; rewrite F; exact A|exact B]. Qed.
  Lemma args_dialect : forall l b, bDialect (write_args l b) = bDialect b.
  Proof.
    induction l as [|a l IH]; intros b; [reflexivity|]. destruct l as [|a2 l]; [apply arg_dialect|].
    change (write_args (a :: a2 :: l) b) with (write_args (a2 :: l) (write #", " (write_arg a b))). rewrite IH. cbn. apply arg_dialect.
  Qed.
  Lemma op_dialect : forall o b, bDialect (write_op o b) = bDialect b.
  Proof. intros [] b; reflexivity. Qed.

  (** ** visit *)
  Definition osim (r r' : sres) : Prop :=
    match r, r' with
    | Some (s, e), Some (s', e') => ssim s s' /\ option_map be e = option_map be e' /\ suits casts s
    | None, None => True
    | _, _ => False
    end.
  Lemma osim_always : forall r r' f f', osim r r' -> (forall s s', suits casts s -> ssim s s' -> ssim (f s) (f' s')) -> (forall s, suits casts s -> suits casts (f s)) ->
    osim (always r f) (always r' f').
  Proof. intros [[s e]|] [[s' e']|] f f' H F G; cbn in *; try contradiction; [|exact I]. destruct H as (A & B & C). auto. Qed.
  Lemma osim_unless : forall r r' k k', osim r r' -> (forall s s', suits casts s -> ssim s s' -> osim (k s) (k' s')) -> osim (unless_err r k) (unless_err r' k').
  Proof.
    intros [[s e]|] [[s' e']|] k k' H F; cbn in H; try contradiction; [|exact I]. destruct H as (A & B & C).
    destruct e, e'; try discriminate; cbn; auto.
  Qed.

  Variable ident_sql : list N -> list N -> list N.
  Variable edge_sql : bool -> list N -> gnode -> gspec -> gnode -> option (list N * list N).
  Variable heap : nat -> gnode.
  Notation sv := (svisit ident_sql edge_sql heap).

  Lemma ntype_eq_dec : forall a b : ntype, {a = b} + {a <> b}.
  Proof. decide equality. Qed.
  Lemma visit_value : forall dis cur n s, nType n = NValue -> sv dis cur n s =
    match nVType n, value n with
    | _, None => None
    | VArray, Some (GArr vs) => Some (emit (fun b => write #")" (write_args (map APlain vs) (write #"(" b))) s, None)
    | VArray, Some _ => None
    | _, Some v => Some (emit (write_arg (if dis then APlain v else ACast v)) s, None)
    end.
  Proof. intros dis cur n s H. destruct n. cbn in H. subst. reflexivity. Qed.
  Lemma visit_blank : forall k n, nsize n < k -> forall dis cur s s', suits casts s -> ssim s s' -> osim (sv dis cur n s) (sv dis cur (bl n) s').
  Proof.
    induction k; intros n Hk dis cur s s' HS H; [lia|].
    pose proof (value_blank _ n (Nat.lt_succ_diag_r _)) as HV.
    destruct (ntype_eq_dec (nType n) NValue) as [TV|NV].
    { rewrite (visit_value dis cur n s TV), (visit_value dis cur (bl n) s') by (destruct n; exact TV).
      replace (nVType (bl n)) with (kind_of casts (nVType n)) by (destruct n; reflexivity).
      destruct (nVType n) eqn:VT.
      all: destruct (value n) as [v|] eqn:V, (value (bl n)) as [v'|] eqn:V'; try discriminate HV; [|cbn; destruct casts; exact I]; injection HV as HV.
      all: try (assert (X : osim (Some (emit (write_arg (if dis then APlain v else ACast v)) s, None)) (Some (emit (write_arg (if dis then APlain v' else ACast v')) s', None)));
        [ refine (conj _ (conj eq_refl _));
          [ apply ssim_emit; [intros; apply bsim_arg; [assumption|destruct dis; cbn; congruence|assumption]|exact HS|exact H]
          | apply suits_emit; [intros; apply arg_dialect|exact HS] ]
        | cbn [kind_of]; destruct casts; exact X ]).
      assert (G : (exists vs vs', v = GArr vs /\ v' = GArr vs') \/ ((forall vs, v <> GArr vs) /\ forall vs, v' <> GArr vs)).
      { destruct v, v'; try (right; split; intros; discriminate); try (left; eexists _, _; split; reflexivity); cbn in HV; destruct casts; discriminate HV. }
      cbn [kind_of]. destruct G as [(vs & vs' & -> & ->)|[G1 G2]].
      2:{ destruct v, v'; first [exfalso; eapply G1; reflexivity|exfalso; eapply G2; reflexivity|exact I]. }
      injection HV as HV. refine (conj _ (conj eq_refl _)).
      + apply ssim_emit; [|exact HS|exact H]. intros b0 b0' T B. apply bsim_write, bsim_args; [exact T| |apply bsim_write; exact B].
        rewrite !map_map. cbn. rewrite <- (map_map bv APlain vs), <- (map_map bv APlain vs'). congruence.
      + apply suits_emit; [intros b0; cbn [write bDialect]; rewrite args_dialect; reflexivity|exact HS]. }
    rewrite nsize_eq in Hk.
    assert (W : forall t s s', suits casts s -> ssim s s' -> suits casts (emit (write t) s) /\ ssim (emit (write t) s) (emit (write t) s')).
    { intros t s0 s0' A B. split; [apply suits_emit; [reflexivity|exact A]|]. apply ssim_emit; [|exact A|exact B]. intros; apply bsim_write; assumption. }
    assert (O : forall t s s', suits casts s -> ssim s s' -> suits casts (emit (write_op t) s) /\ ssim (emit (write_op t) s) (emit (write_op t) s')).
    { intros t s0 s0' A B. split; [apply suits_emit; [apply op_dialect|exact A]|]. apply ssim_emit; [|exact A|exact B]. intros; apply bsim_op; assumption. }
    assert (P : forall dis cur p s s', osz p < k -> suits casts s -> ssim s s' ->
              osim (match p with Some m => sv dis cur m s | None => None end) (match option_map bl p with Some m => sv dis cur m s' | None => None end)).
    { intros dis0 cur0 [m|] s0 s0' L A B; [|exact I]. apply IHk; assumption. }
    assert (L : forall p l, ssz (p :: l) = osz p + ssz l) by reflexivity.
    destruct n as [ty vt i b st f ar op nm nms ex le o ri pa]. cbn [nArray nExpression nLeft nOp nRight nParams] in Hk.
    cbn [blank]. destruct ty; cbn [svisit nType nVType nOperation nName nExpression nLeft nOp nRight nParams].
    - exfalso. apply NV. reflexivity.
    - exact (conj H (conj eq_refl HS)).
    - refine (conj _ (conj eq_refl _)).
      + apply ssim_emit; [|exact HS|exact H]. intros b0 b0' _ B. rewrite (bsim_dialect _ _ B). apply bsim_write, B.
      + apply suits_emit; [reflexivity|exact HS].
    - exact (conj H (conj eq_refl HS)).
    - destruct o as [o|]; cbn [option_map]; [|exact I]. replace (nOperation (bl o)) with (nOperation o) by (destruct o; reflexivity).
      destruct (assoc (nOperation o) entsql_ops); [|exact (conj H (conj eq_refl HS))].
      apply osim_always; [apply P; [lia|exact HS|exact H]|intros; apply O; assumption|intros; apply suits_emit; [apply op_dialect|assumption]].
    - (* compare *) assert (Y := P dis cur le s s' ltac:(lia) HS H).
      destruct (match le with Some m => sv dis cur m s | None => None end) as [[s1 e1]|], (match option_map bl le with Some m => sv dis cur m s' | None => None end) as [[s1' e1']|]; try contradiction; [|exact I].
      destruct o as [o|]; cbn [option_map]; [|exact I]. replace (nOperation (bl o)) with (nOperation o) by (destruct o; reflexivity).
      destruct Y as (Y1 & Y2 & Y3). destruct (assoc (nOperation o) entsql_ops) as [so|].
      + apply osim_unless; [cbn [osim]; destruct (O so _ _ Y3 Y1); auto|]. intros; apply P; [lia|assumption|assumption].
      + destruct (streq (nOperation o) #"not like" || streq (nOperation o) #"and" || streq (nOperation o) #"or"); [|exact (conj Y1 (conj eq_refl Y3))].
        apply osim_unless; [|intros; apply P; [lia|assumption|assumption]]. refine (conj _ (conj Y2 _)).
        * apply ssim_emit; [|exact Y3|exact Y1]. intros; unfold pad; repeat apply bsim_write; assumption.
        * apply suits_emit; [reflexivity|exact Y3].
    - (* logic *) assert (Y := P dis cur le s s' ltac:(lia) HS H).
      destruct (match le with Some m => sv dis cur m s | None => None end) as [[s1 e1]|], (match option_map bl le with Some m => sv dis cur m s' | None => None end) as [[s1' e1']|]; try contradiction; [|exact I].
      destruct o as [o|]; cbn [option_map]; [|exact I]. replace (nOperation (bl o)) with (nOperation o) by (destruct o; reflexivity).
      destruct Y as (Y1 & Y2 & Y3). destruct (assoc (nOperation o) entsql_ops) as [so|].
      + apply osim_unless; [cbn [osim]; destruct (O so _ _ Y3 Y1); auto|]. intros; apply P; [lia|assumption|assumption].
      + destruct (streq (nOperation o) #"not like" || streq (nOperation o) #"and" || streq (nOperation o) #"or"); [|exact (conj Y1 (conj eq_refl Y3))].
        apply osim_unless; [|intros; apply P; [lia|assumption|assumption]]. refine (conj _ (conj Y2 _)).
        * apply ssim_emit; [|exact Y3|exact Y1]. intros; unfold pad; repeat apply bsim_write; assumption.
        * apply suits_emit; [reflexivity|exact Y3].
    - destruct (W #"(" _ _ HS H) as [A B]. apply osim_always; [apply P; [lia|exact A|exact B]|intros; apply W; assumption|intros; apply suits_emit; [reflexivity|assumption]].
    - destruct (W #"NOT " _ _ HS H) as [A B]. apply P; [lia|exact A|exact B].
    - (* between *) destruct o as [o|]; cbn [option_map]; [|exact I]. replace (nOperation (bl o)) with (nOperation o) by (destruct o; reflexivity).
      cbv zeta. apply osim_unless; [apply P; [lia|exact HS|exact H]|]. intros s1 s1' S1 H1. clear H HS.
      assert (Q : forall opr s s', suits casts s -> ssim s s' -> forall (p : option node), osz p < k ->
        osim (match p with Some m => sv dis cur m (emit (write_op opr) s) | None => None end) (match option_map bl p with Some m => sv dis cur m (emit (write_op opr) s') | None => None end)).
      { intros opr s0 s0' A B p Lp. destruct (O opr _ _ A B). apply P; assumption. }
      apply osim_unless.
      { destruct pa as [|p pa]; cbn [map]; [exact I|]. rewrite L in Hk. apply Q; [exact S1|exact H1|lia]. }
      intros s2 s2' S2 H2. apply osim_unless.
      { destruct (W #" AND " _ _ S2 H2). apply P; [lia|assumption|assumption]. }
      intros s3 s3' S3 H3. destruct pa as [|p [|p' pa]]; cbn [map]; try exact I. rewrite !L in Hk. apply Q; [exact S3|exact H3|lia].
    - (* function *) destruct (streq nm #"date").
      { destruct pa as [|p pa]; cbn [map]; [exact I|]. rewrite L in Hk. destruct (W #"DATE(" _ _ HS H) as [A B].
        apply osim_always; [apply P; [lia|exact A|exact B]|intros; apply W; assumption|intros; apply suits_emit; [reflexivity|assumption]]. }
      destruct (streq nm #"has_edge"); [|exact (conj H (conj eq_refl HS))].
      destruct pa as [|[p0|] pa]; cbn [map option_map]; [exact (conj H (conj eq_refl HS))| |exact I].
      replace (nName (bl p0)) with (nName p0) by (destruct p0; reflexivity).
      destruct (streq (nName p0) []); [exact (conj H (conj eq_refl HS))|]. destruct cur as [c|]; [|exact I].
      destruct (assoc (nName p0) (gnEdges (heap c))) as [edge|]; [|exact (conj H (conj eq_refl HS))].
      cbv zeta. pose proof (bsim_dialect _ _ (proj1 H)) as D. rewrite <- D.
      destruct pa as [|[p1|] [|p2 pa]]; cbn [map option_map]; try exact I; try exact (conj H (conj eq_refl HS)).
      { destruct (edge_step edge_sql heap false (bDialect (sOwn s)) (heap c) edge) as [[? [? ?]]|]; [|exact I]. refine (conj _ (conj eq_refl _)).
        - apply ssim_own; [|exact H]. intros; apply bsim_join; [reflexivity|reflexivity|assumption].
        - apply suits_own_f; [reflexivity|exact HS]. }
      replace (isExpression (bl p1)) with (isExpression p1) by (destruct p1; reflexivity).
      destruct (negb (isExpression p1)).
      { refine (conj H (conj _ HS)). cbn. do 2 f_equal. clear. revert p1.
        assert (X : forall k n, nsize n < k -> bl n = bl (bl n)).
        { induction k; intros n Hn; [lia|]. rewrite nsize_eq in Hn. destruct n as [ty vt i b st f ar op nm nms ex le o ri pa].
          cbn [nArray nExpression nLeft nOp nRight nParams] in Hn. cbn [blank nType nVType nArray nOperation nName nNames nExpression nLeft nOp nRight nParams].
          assert (R : forall x, osz x < k -> option_map bl x = option_map bl (option_map bl x)) by (intros [m|] Hm; [cbn; f_equal; apply IHk; exact Hm|reflexivity]).
          assert (RL : forall l, ssz l < k -> map (option_map bl) l = map (option_map bl) (map (option_map bl) l)).
          { induction l as [|x l IH]; [reflexivity|]. intros Hl. change (ssz (x :: l)) with (osz x + ssz l) in Hl. cbn [map]. f_equal; [apply R; lia|apply IH; lia]. }
          f_equal; first [apply R; lia|apply RL; lia|idtac]. destruct vt, casts; reflexivity. }
        intros p1. apply (X (S (nsize p1))). lia. }
      destruct (edge_step edge_sql heap true (bDialect (sOwn s)) (heap c) edge) as [[t [t1 t2]]|]; [|exact I].
      replace (bTotal (sOwn s')) with (bTotal (sOwn s)) by apply (proj1 H).
      assert (Y : osim (sv dis (Some t) p1 (ST (SB [] [] (bTotal (sOwn s)) (bDialect (sOwn s)) []) None))
                       (sv dis (Some t) (bl p1) (ST (SB [] [] (bTotal (sOwn s)) (bDialect (sOwn s)) []) None))).
      { apply IHk; [rewrite L in Hk; change (osz (Some p0)) with (nsize p0) in Hk; rewrite L in Hk; cbn in Hk; lia| |].
        - destruct HS as [C|[C _]]; [left; exact C|right]. split; [exact C|discriminate].
        - repeat split. }
      destruct (sv dis (Some t) p1 _) as [[s1 e1]|], (sv dis (Some t) (bl p1) _) as [[s1' e1']|]; try contradiction; [|exact I].
      destruct Y as (((Y1 & Y2 & _ & _ & Y3) & _) & Ye & _). destruct e1, e1'; try discriminate; refine (conj _ (conj eq_refl _)).
      + apply ssim_own; [|exact H]. intros; apply bsim_join; [reflexivity| |assumption]. rewrite !map_app. cbn in *. congruence.
      + apply suits_own_f; [reflexivity|exact HS].
      + rewrite Y1. apply ssim_own; [|exact H]. intros; apply bsim_join; [exact Y2|exact Y3|assumption].
      + apply suits_own_f; [reflexivity|exact HS].
    - exact (conj H (conj eq_refl HS)).
  Qed.

  Lemma bsim_trans : forall a b c, bsim a c -> bsim b c -> bsim a b.
  Proof. intros a b c (A & B & C & D & E) (A' & B' & C' & D' & E'). repeat split; congruence. Qed.
  Lemma visit_same : forall n1 n2 dis cur s, bl n1 = bl n2 -> suits casts s -> osim (sv dis cur n1 s) (sv dis cur n2 s).
  Proof.
    intros n1 n2 dis cur s E HS. assert (R : ssim s s) by (split; [repeat split|destruct (sExt s); [repeat split|exact I]]).
    pose proof (visit_blank _ n1 (Nat.lt_succ_diag_r _) dis cur s s HS R) as A.
    pose proof (visit_blank _ n2 (Nat.lt_succ_diag_r _) dis cur s s HS R) as B. rewrite E in A.
    destruct (sv dis cur n1 s) as [[s1 e1]|], (sv dis cur n2 s) as [[s2 e2]|], (sv dis cur (bl n2) s) as [[s3 e3]|]; try contradiction; [|exact I].
    destruct A as ((A1 & A2) & Ae & As), B as ((B1 & B2) & Be & _). refine (conj (conj _ _) (conj _ As)); [eapply bsim_trans; eassumption| |congruence].
    destruct (sExt s1), (sExt s2), (sExt s3); try contradiction; [|exact I]. eapply bsim_trans; eassumption.
  Qed.

  Variable lo : N -> N.
  Notation qy := (query lo ident_sql edge_sql heap).
  Lemma query_same : forall dis nd st q1 q2 n1 n2, parse lo q1 = Ok (Some n1) -> parse lo q2 = Ok (Some n2) -> bl n1 = bl n2 -> suits casts st ->
    match qy (MB nd q1 None dis st), qy (MB nd q2 None dis st) with
    | Some (m1, (t1, a1)), Some (m2, (t2, a2)) => t1 = t2 /\ map ba a1 = map ba a2 /\ same_state casts (mSt m1) (mSt m2)
    | None, None => True
    | _, _ => False
    end.
  Proof.
    intros dis nd st q1 q2 n1 n2 P1 P2 E HS. pose proof (visit_same n1 n2 dis nd st E HS) as V.
    unfold query. cbn [mAst mQuery]. rewrite P1, P2. unfold mrun_ast. cbn [set_ast mDisable mNode mSt].
    destruct (sv dis nd n1 st) as [[s1 e1]|], (sv dis nd n2 st) as [[s2 e2]|]; try contradiction; [|exact I].
    destruct V as ((A & B) & Ve & _). destruct e1 as [e1|], e2 as [e2|]; try discriminate; cbn [set_st mSt].
    - refine (conj eq_refl (conj eq_refl _)). split; [|exact B]. destruct A as (A1 & A2 & A3 & A4 & A5). repeat split; cbn; try assumption.
      rewrite !map_app. cbn in *. congruence.
    - refine (conj _ (conj _ (conj A B))); apply A.
  Qed.
  Lemma same_errors : forall b1 b2, bsim b1 b2 -> (bErrs b1 = [] <-> bErrs b2 = []).
  Proof. intros b1 b2 (_ & _ & _ & _ & E). split; intros H; rewrite H in E; [destruct (bErrs b2)|destruct (bErrs b1)]; [reflexivity|discriminate|reflexivity|discriminate]. Qed.
End Lit.
