(** Proofs for C94, continued: exactly where it is wanted. *)
From Verif Require Import Base Peg Node Vocab Tree Parse Syntax Blank ParseProofs NormProofs Unique ParserFacts ParserFacts2 ParserMain Build BuildProofs NodeFacts SafeInd
  Gorm GormSpec GormProofs GormFacts GormFacts2 GormFacts3 GormFacts4 TreeFacts EntSQL EntSQLSpec EntSQLProofs EntSQLFacts EntSQLFacts2 SqlSpec SqlProofs SqlProofs2 SqlProofs3 SqlGorm SqlDialect
  SqlSpecDb SqlDbFacts SqlSpecEntDb SqlLoose SqlEnt EntSQLFacts3 SqlEntLoose SqlEntDbFacts SqlSpecWhere SqlWhere3 EntWhere SqlSpecEntWhere SqlEntWhere NestSpec NestFacts NestFacts2 NestFacts3 NestFacts4.
Require Import Lia.
Strategy expand [parse_machine rule_trace].
Strategy 1000 [parse_fuel mrun tok_trace].

(** ** The edges of an accepted query exist *)
Section Linked.
  Variable lo : N -> N.
  Variable edge_sql : bool -> list N -> gnode -> gspec -> gnode -> option (list N * list N).
  Variable heap : nat -> gnode.
  Variable d : list N.
  Variable dis : bool.
  Ltac noval := match goal with K : go_value _ _ |- _ => apply go_value_type in K; discriminate K end.
  Lemma emits_linked : forall e, simple3 lo e = true -> forall c n ps, tree_of lo e = Some n -> emits edge_sql heap d dis c n ps -> linked heap c e = true.
  Proof.
    fix IH 1. intros [v|x|xs|xs|f args|e|e o b x y|e o|e o p ls|l o r|e|l o r] Hn c n ps T H; cbn [simple3 linked] in *; try reflexivity.
    - cbn [tree_of] in T. injection T as <-. destruct (streq_spec f #"has_edge") as [->|NE].
      + destruct args as [|[v|p|xs|xs|f' a|e|e o b x y|e o|e o pp ls|l o r|e|l o r] [|e2 [|e3 args]]]; try discriminate Hn; cbn [map] in H.
        * apply (emit_edge1 edge_sql heap d dis) in H as (c0 & t & s1 & s2 & -> & ET & _). now rewrite (edge_target edge_sql heap d _ _ _ _ _ _ ET).
        * apply (emit_edge2 edge_sql heap d dis) in H as (c0 & e0 & t & s1 & s2 & b & -> & T & ET & H & _). rewrite (edge_target edge_sql heap d _ _ _ _ _ _ ET). exact (IH e2 Hn _ _ _ T H).
      + apply (emit_call edge_sql heap d dis c) in H as (-> & m & l & b & E & H & ->); [|exact NE]. destruct args as [|a args]; [reflexivity|]. cbn [map] in E. injection E as T _.
        cbn [forallb] in Hn. apply andb_prop in Hn as [Hn _]. exact (IH a Hn _ _ _ T H).
    - cbn [tree_of] in T. injection T as <-. destruct (tree_of lo e) as [m|] eqn:T; [|inversion H; noval]. apply emits_paren_inv in H as (b & H & ->). exact (IH e Hn _ _ _ T H).
    - do 5 (apply andb_prop in Hn as [Hn _]). cbn [tree_of] in T. injection T as <-. destruct (tree_of lo e) as [m|] eqn:T; [|inversion H; noval].
      assert (K : exists pa, emits edge_sql heap d dis c m pa). { inversion H; subst; [noval|eauto|eauto]. } destruct K as [pa K]. exact (IH e Hn _ _ _ T K).
    - do 3 (apply andb_prop in Hn as [Hn _]). cbn [tree_of] in T. injection T as <-. destruct (tree_of lo e) as [m|] eqn:T; [|inversion H; noval]. apply (emit_pred edge_sql heap d dis c) in H as (w & b & _ & H & ->). exact (IH e Hn _ _ _ T H).
    - do 4 (apply andb_prop in Hn as [Hn _]). cbn [tree_of] in T. injection T as <-. destruct (tree_of lo e) as [m|] eqn:T; [|inversion H; noval]. apply (emit_cmp edge_sql heap d dis c) in H as (w & pa & pb & _ & H & _ & ->). exact (IH e Hn _ _ _ T H).
    - apply andb_prop in Hn as [Hn _]. apply andb_prop in Hn as [Hn1 Hn2]. do 2 (apply andb_prop in Hn1 as [Hn1 _]). do 2 (apply andb_prop in Hn2 as [Hn2 _]).
      cbn [tree_of] in T. injection T as <-. destruct (tree_of lo l) as [ml|] eqn:T1; [|inversion H; noval]. destruct (tree_of lo r) as [mr|] eqn:T2; [|inversion H; noval].
      apply (emit_cmp edge_sql heap d dis c) in H as (w & pa & pb & _ & H1 & H2 & ->). now rewrite (IH l Hn1 _ _ _ T1 H1), (IH r Hn2 _ _ _ T2 H2).
    - cbn [tree_of] in T. injection T as <-. destruct (tree_of lo e) as [m|] eqn:T; [|inversion H; noval]. apply emits_not_inv in H as (b & H & ->). exact (IH e Hn _ _ _ T H).
    - apply andb_prop in Hn as [Hn1 Hn2]. cbn [tree_of] in T. injection T as <-. destruct (tree_of lo l) as [ml|] eqn:T1; [|inversion H; noval]. destruct (tree_of lo r) as [mr|] eqn:T2; [|inversion H; noval].
      apply emits_logic_inv in H as (w & pa & pb & _ & H1 & H2 & ->). now rewrite (IH l Hn1 _ _ _ T1 H1), (IH r Hn2 _ _ _ T2 H2).
  Qed.
End Linked.

(** ** A world and rows in which little more is equal than has to be *)
Definition rows0 : rows free2 :=
  Rows free2 unit (fun _ _ => [QVal GNil]) (fun _ _ f => [QPred #"some" (QList (f tt))]) (fun _ _ => [QVal GNil]) (fun c env f g H => f_equal (fun x => [QPred #"some" (QList x)]) (H tt)).
(** the depth of the left ends *)
Fixpoint leftmost (a : sql) : nat := match a with QOr a _ => S (leftmost a) | QList (a :: _) => leftmost a | _ => 0 end.
Definition lead_depth (l : list sql) : nat := match l with a :: _ => leftmost a | [] => 0 end.
Definition row0 (x : list N) : list sql := [QVal GNil].
Lemma means_some : forall a, sql_means free2 row0 a <> [].
Proof.
  fix IH 1. intros [x|v|l|a|o a b|o a|neg a b c|a|a b|a b]; cbn [sql_means]; try discriminate.
  - apply free_value_some.
  - destruct neg; discriminate.
  - cbn [wAnd free2]. intro K. apply app_eq_nil in K. now apply (IH a).
Qed.

Section F.
  Variable lo : N -> N.
  Variable heap : nat -> gnode.
  Variable code : bool -> nat -> list N -> N.
  Variable own : nat -> list N -> list sql.
  Variable col : list N -> list N.
  Notation P := (edge_parts free2 rows0 lo heap code own col).
  Notation E env n e := (edge_means free2 rows0 lo heap code own col env n e).
  Notation W := (wanted free2 rows0 lo heap code own col).
  Notation ST := (straight3 lo heap own).
  Notation filled := SqlEntDbFacts.full.
  Let T0 : rRow rows0 := tt.
  Notation some := (Forall (fun x : wV free2 => x <> [])).
  Lemma guards_some : forall c p env, some (neighbours free2 rows0 own c p env).
  Proof. intros c p env. unfold neighbours. apply Forall_forall. intros x K. apply in_map_iff in K as (a & <- & _). apply means_some. Qed.
  Definition fit (n : option nat) (e : expr) : Prop := simple3 lo e = true /\ linked heap n e = true /\ under3 e = true.
  (** what holds for the parts of what is fit *)
  Ltac split_and := repeat match goal with H : (_ && _)%bool = true |- _ => apply andb_prop in H as [? ?] end.
  Ltac sub := match goal with H : fit _ _ |- _ => destruct H as (? & ? & ?); cbn [simple3 linked under3] in *; split_and; repeat split; assumption end.
  Lemma parts_filled : forall e env n lead, fit n e -> some lead -> filled (P lead env n e).
  Proof.
    assert (one : forall lead (x : wV free2), some lead -> x <> [] -> filled (None, lead ++ [x])).
    { intros lead x H1 H2. split; cbn [snd]; [now destruct lead|]. apply Forall_app. split; [exact H1|]. now constructor. }
    assert (neg : forall lead xs, some lead -> xs <> [] -> some xs -> filled (None, lead ++ match xs with [] => [] | x :: xs => wNot free2 x :: xs end)).
    { intros lead [|x xs] H1 H2 H3; [easy|]. inversion_clear H3. split; cbn [snd]; [destruct lead; discriminate|]. apply Forall_app. split; [exact H1|]. constructor; [discriminate|assumption]. }
    fix IH 1. intros [v|x|xs|xs|f args|e|e o b x y|e o|e o p ls|l o r|e|l o r] env n lead F HL; cbn [edge_parts]; try (now destruct F); try (apply one; [exact HL|discriminate]).
    - apply one; [exact HL|apply free_value_some].
    - destruct F as (F1 & F2 & F3). cbn [simple3 linked under3] in *. destruct (streq f #"has_edge"); [|now apply one].
      destruct n as [c|]; [|discriminate F2]. destruct args as [|[v|p|xs|xs|f' a|e|e o b x y|e o|e o pp ls|l o r|e|l o r] [|e2 [|e3 args]]]; try discriminate F2; [now apply one|].
      destruct (target heap c p); [now apply one|discriminate F2].
    - apply one; [exact HL|]. apply whole_some, IH; [sub|constructor].
    - split; cbn [snd]; destruct (streq _ _); try (destruct lead; discriminate); (apply Forall_app; split; [exact HL|]; repeat constructor; discriminate).
    - assert (F' : fit n e) by sub. pose proof (ands_full _ (IH e env n [] F' (Forall_nil _))) as [N1 N2]. exact (neg lead _ HL N1 N2).
    - assert (F1 : fit n l) by sub. assert (F2 : fit n r) by sub. pose proof (ands_full _ (IH r env n [] F2 (Forall_nil _))) as [N1 N2]. pose proof (IH l env n lead F1 HL) as [K1 K2]. destruct (is_or o); [now split|].
      split; cbn [snd]; [intro K; apply app_eq_nil in K; now destruct K|]. apply Forall_app. now split.
  Qed.
  Lemma ands_concat3 : forall env n e, fit n e -> concat (ands free2 (P [] env n e)) = E env n e.
  Proof. intros env n e F. unfold edge_means. rewrite <- ands_all. symmetry. apply all_concat, ands_full, parts_filled; [exact F|constructor]. Qed.
  Lemma E_some3 : forall env n e, fit n e -> E env n e <> [].
  Proof. intros env n e F. apply whole_some, parts_filled; [exact F|constructor]. Qed.

  (** an "or" after the guards of an edge is deeper than the guards *)
  Lemma deep_some : forall e env n g lead, fit n e -> some (g :: lead) ->
    lead_depth g <= lead_depth (whole2 free2 (P (g :: lead) env n e)) /\ (loose_or e = true -> lead_depth g < lead_depth (whole2 free2 (P (g :: lead) env n e))).
  Proof.
    assert (D : forall (g : list sql) l, g <> [] -> lead_depth (concat (g :: l)) = lead_depth g) by (intros [|x g] l H; [easy|reflexivity]).
    assert (T : forall e env n g lead, loose_or e = false -> fit n e -> some (g :: lead) -> lead_depth (whole2 free2 (P (g :: lead) env n e)) = lead_depth g).
    { intros e env n g lead L F S. rewrite (tight_lead free2 rows0 lo heap code own col _ _ _ _ L). cbn [whole2]. rewrite all_concat by discriminate. rewrite <- app_comm_cons. inversion_clear S. now apply D. }
    induction e as [v|x|xs|xs|f args|e IH|e IH o t a b|e IH o|e IH o t ls|l IH1 o r IH2|e IH|l IH1 o r IH2]; intros env n g lead F S; try (rewrite T by (try reflexivity; assumption); split; [lia|discriminate]).
    destruct (loose_or (ELogic l o r)) eqn:LO; [|rewrite T by assumption; split; [lia|discriminate]]. assert (F1 : fit n l) by sub. assert (F2 : fit n r) by sub. destruct (IH1 env n g lead F1 S) as [K1 K2].
    assert (K : lead_depth g < lead_depth (whole2 free2 (P (g :: lead) env n (ELogic l o r)))); [|split; [lia|now intros _]].
    cbn [edge_parts loose_or] in *. destruct (is_or o).
    - cbn [whole2 wOr free2 lead_depth leftmost]. pose proof (whole_some _ (parts_filled l env n _ F1 S)) as N. destruct (whole2 free2 (P (g :: lead) env n l)) as [|x xs]; [easy|]. cbn [lead_depth leftmost] in *. lia.
    - cbn [orb] in LO. specialize (K2 LO). revert K2.
      assert (Z : exists d, fst (P (g :: lead) env n l) = Some d).
      { clear - LO. induction l as [v|x|xs|xs|f args|e IH|e IH o t a b|e IH o|e IH o t ls|l1 IH1 o r IH2|e IH|l1 IH1 o r IH2]; try discriminate LO. cbn [loose_or edge_parts] in *. destruct (is_or o); [eexists; reflexivity|]. cbn [fst]. now apply IH1. }
      destruct Z as [d Z]. destruct (P (g :: lead) env n l) as [d0 xs]. cbn [fst snd] in *. subst d0. cbn [whole2 wOr free2 lead_depth leftmost]. easy.
  Qed.

  (** equal starts come from equal conditions *)
  Definition begins (env : list (rRow rows0)) (n : option nat) (e : expr) : Prop := forall s s', E env n e ++ s = W env n e ++ s' -> ST n e = true.
  Lemma begins_eq : forall env n e, under3 e = true -> begins env n e -> forall s s', E env n e ++ s = W env n e ++ s' -> s = s' /\ ST n e = true.
  Proof.
    intros env n e U S s s' H. pose proof (S s s' H) as K. split; [|exact K]. rewrite <- (straight_wanted free2 rows0 lo heap code own col lawful_free2 e U env n K) in H. now apply app_inv_head in H.
  Qed.
  Lemma all_begin : forall e env n, fit n e -> begins env n e /\
    (loose_or e = true -> exists l r t ys, W env n e = QOr (QList (W env n l)) (QList (W env n r)) :: t /\ P [] env n e = (Some (E env n l), ands free2 (P [] env n r) ++ ys) /\ fit n r /\ begins env n r).
  Proof.
    fix IH 1. intros [v|x|xs|xs|f args|e|e o t a b|e o|e o t ls|l o r|e|l o r] env n F.
    - split; [intros s s' _; reflexivity|discriminate].
    - split; [intros s s' _; reflexivity|discriminate].
    - destruct F as [F _]; discriminate F.
    - destruct F as [F _]; discriminate F.
    - split; [|discriminate]. intros s s' H. destruct F as (F1 & F2 & F3). unfold edge_means in H. cbn [straight3 simple3 linked under3 edge_parts wanted] in *. destruct (streq f #"has_edge").
      + destruct n as [c|]; [|discriminate F2]. destruct args as [|[v|p|xs|xs|f' a|e|e o b x y|e o|e o pp ls|l o r|e|l o r] [|e2 [|e3 args]]]; try discriminate F2; [reflexivity|].
        destruct (target heap c p) as [t|]; [|discriminate F2]. cbn [forallb under3] in F3. split_and. assert (F : fit (Some t) e2) by (repeat split; assumption). destruct (IH e2 (T0 :: env) (Some t) F) as [S _].
        cbn [app whole2 joined fold_left rSome rows0] in H. injection H as H _. 
        assert (H' : whole2 free2 (P (neighbours free2 rows0 own c p (T0 :: env)) (T0 :: env) (Some t) e2) = beside free2 (neighbours free2 rows0 own c p (T0 :: env)) (W (T0 :: env) (Some t) e2)) by exact H.
        clear H. rename H' into H. pose proof (guards_some c p (T0 :: env)) as G. unfold beside in H.
        assert (OW : own c p = [] <-> neighbours free2 rows0 own c p (T0 :: env) = []) by (unfold neighbours; now destruct (own c p)).
        destruct (neighbours free2 rows0 own c p (T0 :: env)) as [|g gs].
        * rewrite (proj2 OW eq_refl). rewrite Bool.andb_true_r. apply (S [] []). rewrite !app_nil_r. exact H.
        * destruct (own c p) as [|g0 gs0]; [discriminate (proj1 OW eq_refl)|]. clear OW. inversion G as [|? ? N1 N2]; subst. rewrite all_concat in H by discriminate. destruct (loose_or e2) eqn:LO.
          -- exfalso. pose proof (proj2 (deep_some e2 (T0 :: env) (Some t) g gs F G) LO) as D. pose proof (f_equal lead_depth H) as D2. cbn [concat wAnd free2] in D2. destruct g as [|g1 g]; [easy|]. cbn [app lead_depth] in D2. exact (PeanoNat.Nat.lt_irrefl _ (eq_ind _ (fun z => leftmost g1 < z) D _ D2)).
          -- cbn [negb]. rewrite Bool.andb_true_r. rewrite (tight_lead free2 rows0 lo heap code own col _ _ _ _ LO) in H. pose proof (parts_filled e2 (T0 :: env) (Some t) [] F (Forall_nil _)) as [M1 _].
             cbn [whole2] in H. rewrite all_concat in H by discriminate. rewrite concat_app in H. apply app_inv_head in H. apply (S [] []). rewrite !app_nil_r.
             rewrite <- H. unfold edge_means. rewrite (tight_lead free2 rows0 lo heap code own col [] _ _ _ LO). cbn [app whole2]. now apply all_concat.
      + destruct args as [|a args]; [reflexivity|]. cbn [forallb] in *. split_and. assert (F : fit n a) by (repeat split; assumption). injection H as H _. destruct (IH a env n F) as [S _]. apply (S [] []). rewrite !app_nil_r. exact H.
    - split; [|discriminate]. assert (F' : fit n e) by sub. destruct (IH e env n F') as [S _]. exact S.
    - split; [|discriminate]. intros s s' H. assert (F' : fit n e) by sub. destruct (IH e env n F') as [S _]. cbn [straight3]. unfold edge_means in H. cbn [edge_parts wanted] in H. destruct (streq (op_sql lo o) #"not between"); [discriminate H|]. injection H as H _.
      cbn [negb]. rewrite Bool.andb_true_r. apply (S [] []). rewrite !app_nil_r. exact H.
    - split; [|discriminate]. intros s s' H. assert (F' : fit n e) by sub. destruct (IH e env n F') as [S _]. cbn [straight3]. injection H as H _. apply (S [] []). rewrite !app_nil_r. exact H.
    - split; [|discriminate]. intros s s' H. assert (F' : fit n e) by sub. destruct (IH e env n F') as [S _]. cbn [straight3]. injection H as H _. apply (S [] []). rewrite !app_nil_r. exact H.
    - split; [|discriminate]. intros s s' H. assert (F1 : fit n l) by sub. assert (F2 : fit n r) by sub. destruct (IH l env n F1) as [S1 _], (IH r env n F2) as [S2 _]. cbn [straight3]. injection H as H1 H2 _. apply andb_true_intro.
      split; [apply (S1 [] [])|apply (S2 [] [])]; rewrite !app_nil_r; assumption.
    - split; [|discriminate]. intros s s' H. assert (F' : fit n e) by sub. destruct (IH e env n F') as [S _]. cbn [straight3]. unfold edge_means in H. cbn [edge_parts wanted] in H.
      pose proof (ands_concat3 env n e F') as C. destruct (ands_full _ (parts_filled e env n [] F' (Forall_nil _))) as [N1 N2].
      assert (B : free_between e = true -> exists x y, ands free2 (P [] env n e) = [x; y]).
      { destruct e; try discriminate. intros _. cbn [edge_parts ands app]. destruct (streq _ _); do 2 eexists; reflexivity. }
      destruct (ands free2 (P [] env n e)) as [|x xs] eqn:A; [easy|]. cbn [app whole2] in H. rewrite all_concat in H by discriminate. cbn [concat wNot free2 app] in H. injection H as H _.
      cbn [concat] in C. destruct (begins_eq env n e (proj2 (proj2 F')) S [] (concat xs)) as [K1 K2].
      { rewrite app_nil_r, <- C. now rewrite H. }
      rewrite K2. destruct (free_between e); [|reflexivity]. destruct (B eq_refl) as (x1 & y1 & X). injection X as -> ->. inversion_clear N2 as [|? ? _ N3]. inversion_clear N3 as [|? ? N4 _]. cbn in K1. rewrite app_nil_r in K1. now destruct N4.
    - assert (F1 : fit n l) by sub. assert (F2 : fit n r) by sub. destruct (IH l env n F1) as [S1 L1], (IH r env n F2) as [S2 _]. clear IH. pose proof (ands_concat3 env n r F2) as C. destruct (ands_full _ (parts_filled r env n [] F2 (Forall_nil _))) as [N1 N2].
      unfold begins. unfold edge_means. cbn [straight3 loose_or edge_parts wanted]. destruct (is_or o).
      + cbn [orb]. split.
        * intros s s' H. cbn [whole2] in H. rewrite (all_concat _ N1), C in H. injection H as H1 H2 _. rewrite Bool.andb_true_r. apply andb_true_intro. split; [apply (S1 [] [])|apply (S2 [] [])]; rewrite !app_nil_r; [exact H1|exact H2].
        * intros _. exists l, r, [], []. rewrite app_nil_r. split; [reflexivity|]. split; [reflexivity|]. now split.
      + cbn [orb]. destruct (loose_or l) eqn:LO.
        * destruct (L1 eq_refl) as (l0 & r0 & t & ys & Q1 & P1 & F0 & S0). split.
          -- intros s s' H. exfalso. rewrite P1 in H. cbn [fst snd whole2] in H. rewrite Q1 in H. rewrite all_concat in H by (intro K; apply app_eq_nil in K; now destruct K).
             rewrite !concat_app, C, (ands_concat3 env n r0 F0) in H. injection H as _ H _. rewrite <- app_assoc in H.
             destruct (begins_eq env n r0 (proj2 (proj2 F0)) S0 (concat ys ++ E env n r) []) as [K _]; [now rewrite app_nil_r|]. apply app_eq_nil in K as [_ K]. now apply (E_some3 env n r).
          -- intros _. exists l0, r0, (t ++ W env n r), (ys ++ ands free2 (P [] env n r)). rewrite Q1, P1. cbn [fst snd]. rewrite <- app_assoc. split; [reflexivity|]. split; [reflexivity|]. now split.
        * split; [|discriminate]. intros s s' H. destruct (parts_filled l env n [] F1 (Forall_nil _)) as [N0 _].
          pose proof (tight_lead free2 rows0 lo heap code own col [] env n l LO) as TL. cbn [app] in TL.
          assert (X : whole2 free2 (fst (P [] env n l), snd (P [] env n l) ++ ands free2 (P [] env n r)) = E env n l ++ E env n r).
          { unfold edge_means at 1. rewrite TL. cbn [fst snd whole2]. rewrite (all_concat (snd (P [] env n l)) N0). rewrite all_concat by (intro K; apply app_eq_nil in K; now destruct K). now rewrite concat_app, C. }
          rewrite X in H. cbn [wAnd free2] in H. rewrite <- !app_assoc in H. destruct (begins_eq env n l (proj2 (proj2 F1)) S1 _ _ H) as [H' K1]. rewrite K1, (S2 _ _ H'). reflexivity.
  Qed.
End F.

Lemma nested_exact : forall lo heap code own col q e n, reads q e -> simple3 lo e = true -> linked heap n e = true ->
  (straight3 lo heap own n e = true <-> forall w R env, lawful w -> edge_means w R lo heap code own col env n e = wanted w R lo heap code own col env n e).
Proof.
  intros lo heap code own col q e n RD H1 H2. split; [intros H w R env W; now apply (straight_wanted_q w R lo heap code own col q)|]. intro H. specialize (H free2 rows0 [] lawful_free2).
  destruct RD as (w1 & t & w2 & _ & _ & _ & Hl). apply lay_under3 in Hl. destruct (all_begin lo heap code own col e [] n) as [S _]; [now repeat split|]. apply (S [] []). exact (f_equal (fun x => x ++ []) H).
Qed.

Lemma query_linked : forall lo ident_sql edge_sql heap d dis nd q e m t a, valid_runes q -> reads q e -> simple3 lo e = true ->
  query lo ident_sql edge_sql heap (fresh d dis nd q) = Some (m, (t, a)) -> no_error m -> linked heap nd e = true.
Proof.
  intros lo ident_sql edge_sql heap d dis nd q e m t a Hq He Hn H HE. pose proof (simple3_json_free lo e Hn) as Hj.
  destruct (query_complete lo ident_sql edge_sql heap d dis nd q m t a Hq H HE) as (n & ps & Hp & K & -> & ->).
  assert (Hf : fits e = true).
  { destruct (parse_ok_inv lo q _ Hq Hp) as (e2 & H2 & Hf & _). now rewrite (reads_unique _ _ _ He H2). }
  pose proof (parse_spec lo q e Hq He Hf Hj) as Hp'. rewrite Hp in Hp'. injection Hp' as Hp'. symmetry in Hp'. exact (emits_linked lo edge_sql heap d dis e Hn nd n ps Hp' K).
Qed.
