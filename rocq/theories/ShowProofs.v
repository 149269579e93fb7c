(** Node.String writes what [shows] says (C67), and which trees have one text (C49). *)
From Verif Require Import Base Node Vocab Tree Build QuoteSpec QuoteProofs BuildProofs Parse Syntax ParserFacts2 NodeFacts SafeInd ReportProofs ShowSpec.

Scheme go_value_mind := Induction for go_value Sort Prop
  with go_values_mind := Induction for go_values Sort Prop.
Combined Scheme go_all_ind from go_value_mind, go_values_mind.

(** ** The text *)
Lemma sjoin_with : forall sep xs, sjoin sep xs = join_with sep xs.
Proof. intros sep. induction xs as [|x [|y xs] IH]; [reflexivity|reflexivity|]. cbn [sjoin join_with] in *. now rewrite IH. Qed.
Lemma int_print : forall z, int_text z (print_int z).
Proof.
  intro z. unfold print_int. destruct (Z.ltb_spec z 0) as [H|H].
  - replace z with (- Z.of_nat (Z.to_nat (- z)))%Z at 1 by lia. change (45%N :: ?x) with (#"-" ++ x). constructor; [lia|]. rewrite <- Z_nat_N. apply print_decimal.
  - replace z with (Z.of_nat (Z.to_nat z)) at 1 by lia. constructor. rewrite <- Z_nat_N. apply print_decimal.
Qed.
Lemma value_shown : forall ff,
  (forall n v, go_value n v -> value_text n (fprint ff v)) /\ (forall l vs, go_values l vs -> values_text l (map (fprint ff) vs)).
Proof.
  intro ff. apply go_all_ind; intros; try (constructor; auto; fail).
  - constructor. apply int_print.
  - destruct b; constructor.
  - assert (E : fprint ff (GArr vs) = #"[" ++ join_with #" " (map (fprint ff) vs) ++ #"]").
    { cbn [fprint]. f_equal. f_equal. clear. induction vs as [|x [|y vs] IH]; [reflexivity|reflexivity|]. cbn [map join_with] in *. now rewrite IH. }
    rewrite E. now constructor.
Qed.
Lemma string_shows : forall ff n, safe n -> exists t, node_string ff n = Some t /\ shows n t.
Proof.
  intro ff. apply (safe_shape_ind (fun n => exists t, node_string ff n = Some t /\ shows n t)).
  - intros n v _ HT HV G. exists (form #"value" (fprint ff v)). split; [|constructor; now apply value_shown].
    assert (E : forall m, nType m = NValue -> node_string ff m = ocat (ostr #"value(") (ocat (match value m with Some v => Some (fprint ff v) | None => None end) (ostr #")"))).
    { intros m Hm. destruct m; cbn in Hm; subst; reflexivity. }
    rewrite (E n HT), HV. reflexivity.
  - intro o. exists (form #"operation" o). split; [reflexivity|constructor].
  - intro o. exists (form #"identifier" o). split; [reflexivity|constructor].
  - intro xs. exists (form #"reference" (join_with #"." xs)). split; [|constructor]. rewrite <- sjoin_with. reflexivity.
  - intros l o _ _ _ _. exists (form #"predicates" []). split; [reflexivity|constructor].
  - intros l o r _ _ _ (tl & L & SL) (to & O & SO) (tr & R & SR). eexists. split; [|now apply (sh_compare l o r tl to tr)].
    cbn [node_string mk_compare nType nLeft nOp nRight]. rewrite L, O, R. cbn [ocat ostr]. unfold form. now rewrite <- !app_assoc.
  - intros l o r _ _ _ (tl & L & SL) (to & O & SO) (tr & R & SR). eexists. split; [|now apply (sh_logic l o r tl to tr)].
    cbn [node_string mk_logic nType nLeft nOp nRight]. rewrite L, O, R. cbn [ocat ostr]. unfold form. now rewrite <- !app_assoc.
  - intros e _ (t & E & S). eexists. split; [|now apply (sh_paren e t)]. cbn [node_string mk_paren nType nExpression]. rewrite E. reflexivity.
  - intros e _ (t & E & S). eexists. split; [|now apply (sh_not e t)]. cbn [node_string mk_not nType nExpression]. rewrite E. reflexivity.
  - intros l o a b _ _ _ _ _ _ _ _ (ta & A & SA) (tb & B & SB). eexists. split; [|now apply (sh_between (Some l) (Some o) a b ta tb)].
    cbn [node_string mk_between nType nParams]. rewrite A, B. cbn [ocat ostr]. unfold form. now rewrite <- !app_assoc.
  - intros f ms _ IH.
    set (go := fix go (l : list (option node)) : option (list N) :=
                match l with
                | [] => Some []
                | x :: l' => ocat (ostr #",") (ocat (match x with None => None | Some m => node_string ff m end) (go l'))
                end).
    assert (G : exists t, go (map Some ms) = Some t /\ shows_args (map Some ms) t).
    { induction ms as [|m ms IHm]; [exists []; split; [reflexivity|constructor]|]. inversion IH as [|? ? (t & E & S) H2]; subst. destruct (IHm H2) as (u & E' & S').
      exists (#"," ++ t ++ u). split; [|now constructor]. cbn [map go]. rewrite E. fold go. rewrite E'. reflexivity. }
    destruct G as (t & E & S). exists (form #"function" (f ++ t)). split; [|now constructor].
    cbn [node_string mk_function nType nName nParams]. fold go. rewrite E. cbn [ocat ostr type_name]. unfold form. now rewrite <- !app_assoc.
Qed.

Lemma int_det : forall z t, int_text z t -> forall t', int_text z t' -> t = t'.
Proof.
  intros z t [n u D|n u Hn D] t' H.
  - remember (Z.of_nat n) as y eqn:E. destruct H as [m v D'|m v Hm D'].
    + replace m with n in D' by lia. now apply (decimal_det n).
    + exfalso. lia.
  - remember (- Z.of_nat n)%Z as y eqn:E. destruct H as [m v D'|m v Hm D'].
    + exfalso. lia.
    + replace m with n in D' by lia. f_equal. now apply (decimal_det n).
Qed.
Lemma values_det : (forall n t, value_text n t -> forall t', value_text n t' -> t = t') /\
  (forall ns ts, values_text ns ts -> forall ts', values_text ns ts' -> ts = ts').
Proof.
  apply value_texts_ind.
  - intros z t H t' H'. inversion H'; subst. now apply (int_det z).
  - intros t' H'. now inversion H'.
  - intros t' H'. now inversion H'.
  - intros s t' H'. now inversion H'.
  - intros t' H'. now inversion H'.
  - intros ns ts _ IH t' H'. inversion H'; subst. now rewrite (IH ts0).
  - intros ts' H'. now inversion H'.
  - intros n ns t ts _ IH _ IHs ts' H'. inversion H'; subst. f_equal; auto.
Qed.
Lemma value_kind : forall n t, value_text n t -> nType n = NValue.
Proof. intros n t []; reflexivity. Qed.
Lemma show_det : (forall n t, shows n t -> forall t', shows n t' -> t = t') /\ (forall ns t, shows_args ns t -> forall t', shows_args ns t' -> t = t').
Proof.
  apply shows_all_ind.
  - intros n t V t' H. destruct H; pose proof (value_kind _ _ V) as K; try discriminate K. f_equal. now apply (proj1 values_det n).
  - intros o t' H. inversion H; subst; [now apply value_kind in H0|reflexivity].
  - intros o t' H. inversion H; subst; [now apply value_kind in H0|reflexivity].
  - intros o t' H. inversion H; subst; [now apply value_kind in H0|reflexivity].
  - intros l o t' H. inversion H; subst; [now apply value_kind in H0|reflexivity].
  - intros l o r tl to tr _ IHl _ IHo _ IHr t' H. inversion H as [? ? V| | | | | | | | | |]; subst; [now apply value_kind in V|]. now rewrite (IHl tl0), (IHo to0), (IHr tr0).
  - intros l o r tl to tr _ IHl _ IHo _ IHr t' H. inversion H as [? ? V| | | | | | | | | |]; subst; [now apply value_kind in V|]. now rewrite (IHl tl0), (IHo to0), (IHr tr0).
  - intros e t _ IH t' H. inversion H as [? ? V| | | | | | | | | |]; subst; [now apply value_kind in V|]. now rewrite (IH t0).
  - intros e t _ IH t' H. inversion H as [? ? V| | | | | | | | | |]; subst; [now apply value_kind in V|]. now rewrite (IH t0).
  - intros l o a b ta tb _ IHa _ IHb t' H. inversion H as [? ? V| | | | | | | | | |]; subst; [now apply value_kind in V|]. now rewrite (IHa ta0), (IHb tb0).
  - intros f ns t _ IH t' H. inversion H as [? ? V| | | | | | | | | |]; subst; [now apply value_kind in V|]. now rewrite (IH t0).
  - intros t' H. now inversion H.
  - intros n ns t u _ IH _ IHs t' H. inversion H; subst. now rewrite (IH t0), (IHs u0).
Qed.
Lemma parsed_string : forall lo ff q n t, valid_runes q -> parse lo q = Ok (Some n) -> (node_string ff n = Some t <-> shows n t).
Proof.
  intros lo ff q n t Hq Hp. pose proof (parse_safe lo q n Hq Hp) as HS. clear Hp. destruct (string_shows ff n HS) as (u & E & S). split; intro H.
  - congruence.
  - rewrite E. f_equal. exact (proj1 show_det n u S t H).
Qed.

(** ** Trees with one text *)
Definition free (c : N) (s : list N) : bool := forallb (fun x => negb (N.eqb x c)) s.
Lemma free_cut : forall c a b u v, free c a = true -> free c b = true -> a ++ c :: u = b ++ c :: v -> a = b /\ u = v.
Proof.
  intros c. induction a as [|x a IH]; intros [|y b] u v Ha Hb E; cbn in *.
  - split; congruence.
  - injection E as -> _. rewrite N.eqb_refl in Hb. discriminate.
  - injection E as -> _. rewrite N.eqb_refl in Ha. discriminate.
  - injection E as -> E. apply andb_prop in Ha as [_ Ha]. apply andb_prop in Hb as [_ Hb]. destruct (IH b u v Ha Hb E) as [-> ->]. auto.
Qed.
Lemma clean_free : forall s c, clean s = true -> mem c #"()," = true -> free c s = true.
Proof.
  intros s c H K. unfold clean in H. unfold free. rewrite forallb_forall in H |- *. intros x Hx. specialize (H x Hx). destruct (N.eqb_spec x c) as [->|]; [|reflexivity].
  now rewrite K in H.
Qed.
(** a name with arguments: the name ends at a comma or a parenthesis *)
Lemma clean_cut : forall a b p q u v, clean a = true -> clean b = true -> mem p #"()," = true -> mem q #"()," = true -> a ++ p :: u = b ++ q :: v -> a = b /\ p = q /\ u = v.
Proof.
  induction a as [|x a IH]; intros [|y b] p q u v Ha Hb Hp Hq E; cbn [app] in E.
  - injection E as -> ->. auto.
  - injection E as -> _. cbn [clean forallb] in Hb. now rewrite Hp in Hb.
  - injection E as -> _. cbn [clean forallb] in Ha. now rewrite Hq in Ha.
  - injection E as -> E. cbn [clean forallb] in Ha, Hb. apply andb_prop in Ha as [_ Ha]. apply andb_prop in Hb as [_ Hb].
    destruct (IH b p q u v Ha Hb Hp Hq E) as (-> & -> & ->). auto.
Qed.
Lemma form_cut : forall k i u k' i' u', free 40 k = true -> free 40 k' = true -> form k i ++ u = form k' i' ++ u' -> k = k' /\ i ++ #")" ++ u = i' ++ #")" ++ u'.
Proof.
  intros k i u k' i' u' Hk Hk' E. unfold form in E. rewrite <- !app_assoc in E. change (#"(" ++ ?x) with (40%N :: x) in E. now apply free_cut in E.
Qed.
Lemma show_head : forall n t, shows n t -> exists k i, t = form k i /\ free 40 k = true.
Proof. intros n t H. destruct H; eexists _, _; split; reflexivity. Qed.
Ltac cut E := apply form_cut in E; [|reflexivity|reflexivity]; let K := fresh "K" in destruct E as [K E]; try discriminate K; clear K.

Lemma plain_inv : forall n, plain n -> match nType n with
  | NValue => exists t, value_text n t /\ clean t = true
  | NOperation => clean (nOperation n) = true
  | NIdentifier => clean (nName n) = true
  | NReference => clean (join_with #"." (nNames n)) = true
  | NCompare | NLogic => (forall m, nLeft n = Some m -> plain m) /\ (forall m, nOp n = Some m -> plain m) /\ (forall m, nRight n = Some m -> plain m)
  | NParentheses | NNot => forall m, nExpression n = Some m -> plain m
  | NBetween => forall m, In (Some m) (nParams n) -> plain m
  | NFunction => clean (nName n) = true /\ forall m, In (Some m) (nParams n) -> plain m
  | _ => True end.
Proof.
  intros n H. destruct H; cbn; auto.
  - rewrite (value_kind n t H). eauto.
  - repeat split; intros m [= <-]; assumption.
  - repeat split; intros m [= <-]; assumption.
  - intros m [= <-]; assumption.
  - intros m [= <-]; assumption.
  - intros m [[= <-]|[[= <-]|[]]]; assumption.
Qed.
Lemma args_head : forall ns t, shows_args ns t -> forall u, exists p v, t ++ #")" ++ u = p :: v /\ mem p #"()," = true.
Proof. intros ns t [|n ns' t' u' S A] u; eexists _, _; split; reflexivity. Qed.
(** the texts of plain trees end by themselves *)
Lemma show_cut : (forall n t, shows n t -> plain n -> forall n' t' u u', shows n' t' -> plain n' -> t ++ u = t' ++ u' -> twin n n' /\ u = u') /\
  (forall ns t, shows_args ns t -> (forall n, In (Some n) ns -> plain n) -> forall ns' t' u u', shows_args ns' t' -> (forall n, In (Some n) ns' -> plain n) ->
     t ++ #")" ++ u = t' ++ #")" ++ u' -> twins ns ns' /\ u = u').
Proof.
  apply shows_all_ind.
  - intros n t V P n' t' u u' S' P' E. destruct S' as [n' t' V'| | | | | | | | | |]; cut E.
    apply plain_inv in P, P'. rewrite (value_kind _ _ V) in P. rewrite (value_kind _ _ V') in P'. destruct P as (t0 & V0 & C), P' as (t0' & V0' & C').
    rewrite (proj1 values_det n t0 V0 t V) in C. rewrite (proj1 values_det n' t0' V0' t' V') in C'.
    apply (free_cut 41) in E as [-> ->]; [|now apply clean_free|now apply clean_free]. split; [now apply (tw_value n n' t')|reflexivity].
  - intros o P n' t' u u' S' P' E. apply plain_inv in P, P'. destruct S'; cut E. apply (free_cut 41) in E as [-> ->]; [|now apply clean_free|now apply clean_free]. split; [constructor|reflexivity].
  - intros o P n' t' u u' S' P' E. apply plain_inv in P, P'. destruct S'; cut E. apply (free_cut 41) in E as [-> ->]; [|now apply clean_free|now apply clean_free]. split; [constructor|reflexivity].
  - intros o P n' t' u u' S' P' E. apply plain_inv in P, P'. destruct S'; cut E. apply (free_cut 41) in E as [E ->]; [|now apply clean_free|now apply clean_free]. split; [now constructor|reflexivity].
  - intros l o P n' t' u u' S' P' E. destruct S'; cut E. injection E as ->. split; [constructor|reflexivity].
  - intros l o r tl to tr _ IHl _ IHo _ IHr P n' t' u u' S' P' E. apply plain_inv in P, P'. destruct S' as [| | | | |l' o' r' tl' to' tr' L O R| | | | |]; cut E.
    cbn in P, P'. destruct P as (P1 & P2 & P3), P' as (Q1 & Q2 & Q3). rewrite <- !app_assoc in E.
    destruct (IHl (P1 _ eq_refl) l' tl' _ _ L (Q1 _ eq_refl) E) as [T1 E1]. injection E1 as E1.
    destruct (IHo (P2 _ eq_refl) o' to' _ _ O (Q2 _ eq_refl) E1) as [T2 E2]. injection E2 as E2.
    destruct (IHr (P3 _ eq_refl) r' tr' _ _ R (Q3 _ eq_refl) E2) as [T3 E3]. injection E3 as ->. split; [now constructor|reflexivity].
  - intros l o r tl to tr _ IHl _ IHo _ IHr P n' t' u u' S' P' E. apply plain_inv in P, P'. destruct S' as [| | | | | |l' o' r' tl' to' tr' L O R| | | |]; cut E.
    cbn in P, P'. destruct P as (P1 & P2 & P3), P' as (Q1 & Q2 & Q3). rewrite <- !app_assoc in E.
    destruct (IHo (P2 _ eq_refl) o' to' _ _ O (Q2 _ eq_refl) E) as [T2 E2]. injection E2 as E2.
    destruct (IHl (P1 _ eq_refl) l' tl' _ _ L (Q1 _ eq_refl) E2) as [T1 E1]. injection E1 as E1.
    destruct (IHr (P3 _ eq_refl) r' tr' _ _ R (Q3 _ eq_refl) E1) as [T3 E3]. injection E3 as ->. split; [now constructor|reflexivity].
  - intros e t _ IH P n' t' u u' S' P' E. apply plain_inv in P, P'. destruct S' as [| | | | | | |e' t' S'| | |]; cut E. cbn in P, P'.
    destruct (IH (P _ eq_refl) e' t' _ _ S' (P' _ eq_refl) E) as [T E1]. injection E1 as ->. split; [now constructor|reflexivity].
  - intros e t _ IH P n' t' u u' S' P' E. apply plain_inv in P, P'. destruct S' as [| | | | | | | |e' t' S'| |]; cut E. cbn in P, P'.
    destruct (IH (P _ eq_refl) e' t' _ _ S' (P' _ eq_refl) E) as [T E1]. injection E1 as ->. split; [now constructor|reflexivity].
  - intros l o a b ta tb _ IHa _ IHb P n' t' u u' S' P' E. apply plain_inv in P, P'. destruct S' as [| | | | | | | | |l' o' a' b' ta' tb' A B|]; cut E. cbn in P, P'.
    rewrite <- !app_assoc in E.
    destruct (IHa (P _ (or_introl eq_refl)) a' ta' _ _ A (P' _ (or_introl eq_refl)) E) as [T1 E1]. injection E1 as E1.
    destruct (IHb (P _ (or_intror (or_introl eq_refl))) b' tb' _ _ B (P' _ (or_intror (or_introl eq_refl))) E1) as [T2 E2]. injection E2 as ->. split; [now constructor|reflexivity].
  - intros f ns t A IH P n' t' u u' S' P' E. apply plain_inv in P, P'. destruct S' as [| | | | | | | | | |f' ns' t' A']; cut E. cbn in P, P'.
    destruct P as [C P], P' as [C' P']. rewrite <- !app_assoc in E.
    assert (X : f = f' /\ t ++ #")" ++ u = t' ++ #")" ++ u').
    { destruct (args_head ns t A u) as (p & v & E1 & M1). destruct (args_head ns' t' A' u') as (p' & v' & E2 & M2). rewrite E1, E2 in *.
      destruct (clean_cut f f' p p' v v' C C' M1 M2 E) as (-> & -> & ->). auto. }
    destruct X as [-> X]. destruct (IH P ns' t' u u' A' P' X) as [T ->]. split; [now constructor|reflexivity].
  - intros _ ns' t' u u' A' P' E. inversion A'; subst; [|discriminate]. injection E as ->. split; [constructor|reflexivity].
  - intros n ns t w _ IH _ IHs P ns' t' u u' A' P' E. inversion A' as [|n' ns'' t'' w' S'' A'']; subst; [discriminate|]. rewrite <- !app_assoc in E. injection E as E.
    destruct (IH (P n (or_introl eq_refl)) n' t'' _ _ S'' (P' n' (or_introl eq_refl)) E) as [T E1].
    destruct (IHs (fun m H => P m (or_intror H)) ns'' w' u u' A'' (fun m H => P' m (or_intror H)) E1) as [T2 ->]. split; [now constructor|reflexivity].
Qed.
Lemma twin_same : (forall n m, twin n m -> forall t t', shows n t -> shows m t' -> t = t') /\
  (forall ns ms, twins ns ms -> forall t t', shows_args ns t -> shows_args ms t' -> t = t').
Proof.
  assert (V : forall n t u, value_text n t -> shows n u -> u = form #"value" t).
  { intros n t u H S. destruct S; pose proof (value_kind _ _ H) as K; try discriminate K. f_equal. now apply (proj1 values_det n). }
  Ltac both := repeat match goal with
    | IH : forall t t', shows ?x t -> shows ?y t' -> t = t', A : shows ?x ?t, B : shows ?y ?u |- _ => pose proof (IH t u A B); clear IH
    | IH : forall t t', shows_args ?x t -> shows_args ?y t' -> t = t', A : shows_args ?x ?t, B : shows_args ?y ?u |- _ => pose proof (IH t u A B); clear IH end; subst; reflexivity.
  Ltac open H := inversion H as [? ? XV| | | | | | | | | |]; subst; [now apply value_kind in XV|].
  apply twin_all_ind.
  - intros n m t H H' u u' S S'. now rewrite (V n t u H S), (V m t u' H' S').
  - intros o t t' S S'. exact (proj1 show_det _ _ S _ S').
  - intros o t t' S S'. exact (proj1 show_det _ _ S _ S').
  - intros xs ys E t t' S S'. open S. open S'. now rewrite E.
  - intros l o l' o' t t' S S'. open S. open S'. reflexivity.
  - intros l o r l' o' r' _ IHl _ IHo _ IHr t t' S S'. open S. open S'. clear S S'. both.
  - intros l o r l' o' r' _ IHl _ IHo _ IHr t t' S S'. open S. open S'. clear S S'. both.
  - intros e e' _ IH t t' S S'. open S. open S'. clear S S'. both.
  - intros e e' _ IH t t' S S'. open S. open S'. clear S S'. both.
  - intros l o a b l' o' a' b' _ IHa _ IHb t t' S S'. open S. open S'. clear S S'. both.
  - intros f ns ms _ IH t t' S S'. open S. open S'. clear S S'. both.
  - intros t t' S S'. inversion S. inversion S'. reflexivity.
  - intros n m ns ms _ IH _ IHs t t' S S'. inversion S; subst. inversion S'; subst. clear S S'. both.
Qed.
Lemma string_twins : forall lo lo' ff ff' q q' n n', valid_runes q -> valid_runes q' -> parse lo q = Ok (Some n) -> parse lo' q' = Ok (Some n') -> plain n -> plain n' ->
  (node_string ff n = node_string ff' n' <-> twin n n').
Proof.
  intros lo lo' ff ff' q q' n n' Hq Hq' Hp Hp' P P'. pose proof (parse_safe lo q n Hq Hp) as S. pose proof (parse_safe lo' q' n' Hq' Hp') as S'. clear Hp Hp'.
  destruct (string_shows ff n S) as (t & E & H). destruct (string_shows ff' n' S') as (t' & E' & H'). rewrite E, E'. split; intro K.
  - injection K as ->. now destruct (proj1 show_cut n t' H P n' t' [] [] H' P' eq_refl).
  - f_equal. exact (proj1 twin_same n n' K t t' H H').
Qed.
