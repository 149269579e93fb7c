(** C84: the contents of the holes of a template do not influence how the rest
    of the query is read. *)
From Verif Require Import Base Peg PegSpec PegSpecProofs Grammar Node Vocab Tree Parse GrammarProofs Syntax Blank Lex Ops Complete Sound ParseProofs
  ParserFacts ParserFacts2 ParserMain ApiProofs TemplateSpec.

Local Open Scope peg_scope.
Notation mm := (matches Gpeg).

(** ** The scanner *)
Definition odd (x : N) : bool := is_quote x || is_dash x.
Lemma code_plain : forall x a, odd x = false -> place_after Code (x :: a) = place_after Code a.
Proof.
  intros x a H. unfold odd in H. apply orb_false_iff in H as [H1 H2]. cbn [place_after]. rewrite H1, H2. destruct a; reflexivity.
Qed.
Lemma code_dash : forall x y a, is_dash x = true -> (x =? y)%N = false -> place_after Code (x :: y :: a) = place_after Code (y :: a).
Proof.
  intros x y a H1 H2. cbn [place_after]. assert (is_quote x = false) as ->.
  { unfold is_dash in H1. unfold is_quote. apply orb_true_iff in H1 as [H|H]; apply N.eqb_eq in H; subst; reflexivity. }
  now rewrite H2, andb_false_r.
Qed.
Lemma quoted_end : forall c a, place_after (Quoted c) a = Code -> exists u a1, a = u ++ c :: a1 /\ mem c u = false /\ place_after Code a1 = Code.
Proof.
  induction a as [|x a IH]; cbn [place_after]; [discriminate|]. destruct (x =? c)%N eqn:E; intro H.
  - apply N.eqb_eq in E. subst x. exists [], a. auto.
  - destruct (IH H) as (u & a1 & -> & H1 & H2). exists (x :: u), a1. repeat split; auto. cbn. rewrite N.eqb_sym, E. exact H1.
Qed.
Lemma comment_end : forall a, place_after Commented a = Code -> exists u x a1, a = u ++ x :: a1 /\ forallb (fun y => negb (line_end y)) u = true /\
  line_end x = true /\ place_after Code a1 = Code.
Proof.
  induction a as [|x a IH]; cbn [place_after]; [discriminate|]. destruct (line_end x) eqn:E; intro H.
  - exists [], x, a. auto.
  - destruct (IH H) as (u & y & a1 & -> & H1 & H2 & H3). exists (x :: u), y, a1. repeat split; auto. cbn. now rewrite E.
Qed.

(** ** Expressions that do not read strings *)
Definition arrow (a b : pexp) : bool := match a, b with PChar x, PChar y => (x =? 45)%N && (y =? 62)%N | _, _ => false end.
Fixpoint nostr (e : pexp) : bool :=
  match e with
  | PChar c => negb (odd c)
  | PRange lo hi => forallb (fun x => negb ((lo <=? x) && (x <=? hi))%N) [34; 39; 45; 47]%N
  | PDot => false
  | PSeq a b => arrow a b || (nostr a && nostr b)
  | PAlt a b => nostr a && nostr b
  | PStar a | POpt a | PCap a => nostr a
  | PNot PDot => true
  | PNot a => nostr a
  | PAct _ => true
  | PRule r =>
      match r with
      | rReference | rIdentifierReference | rJsonReference | rIdentifier | rCompare | rLogic | rMatch | rInteger | rBoolean | rNull
      | rSpaceComment | r_ | r__ | rComment | rSpace | rEndOfLine | rEndOfFile => true
      | _ => false
      end
  | PSw _ _ _ => false
  end.
Lemma quote_odd : forall c, is_quote c = true -> odd c = true.
Proof. intros c H. unfold odd. now rewrite H. Qed.

(** what the comment rule does *)
Lemma eol_at : forall x t, line_end x = true -> exists r, mm (PRule rEndOfLine) (x :: t) (Some ([], r)).
Proof.
  intros x t H. destruct (rules_total rEndOfLine (x :: t)) as ([[ev r]|] & H0).
  - assert (ev = []) as ->; [|eauto]. inversion H0; subst. cbn [Gpeg] in *.
    repeat match goal with K : mm (PAlt _ _) _ _ |- _ => inversion K; subst; clear K | K : mm (PSeq _ _) _ _ |- _ => inversion K; subst; clear K
      | K : mm (PChar _) _ (Some _) |- _ => inversion K; subst; clear K end; reflexivity.
  - exfalso. inversion H0; subst. cbn [Gpeg] in *. unfold line_end in H.
    repeat match goal with K : mm (PAlt _ _) _ _ |- _ => inversion K; subst; clear K end.
    apply orb_true_iff in H as [H|H]; apply N.eqb_eq in H; subst;
      repeat match goal with K : mm (PChar _) (_ :: _) None |- _ => inversion K; subst; clear K end; congruence.
Qed.
Lemma eol_not : forall x t, line_end x = false -> mm (PRule rEndOfLine) (x :: t) None.
Proof.
  intros x t H. apply orb_false_iff in H as [H1 H2]. apply N.eqb_neq in H1, H2. constructor. cbn [Gpeg].
  apply m_alt_2; [apply m_seq_no1|apply m_alt_2]; now constructor.
Qed.
Lemma body_at : forall u x t, forallb (fun y => negb (line_end y)) u = true -> line_end x = true ->
  mm ((PNot (PRule rEndOfLine) ;; PDot) **) (u ++ x :: t) (Some ([], x :: t)).
Proof.
  induction u as [|y u IH]; intros x t Hu Hx; cbn [app].
  - apply m_star_0. apply m_seq_no1. destruct (eol_at x t Hx) as (r & H). eapply m_not_no. exact H.
  - cbn [forallb] in Hu. apply andb_true_iff in Hu as [H1 H2]. apply negb_true_iff in H1.
    change (@nil event) with (([] ++ []) ++ @nil event). eapply m_star_1; [|now apply IH].
    eapply m_seq_ok; [|constructor]. apply m_not_ok. now apply eol_not.
Qed.
(** a line end within [a], seen with two different continuations *)
Lemma eol_two : forall x a c y y', line_end x = true -> is_quote c = true -> place_after Code a = Code ->
  exists p a1, x :: a = p ++ a1 /\ place_after Code a1 = Code /\ (forall z, z = y \/ z = y' -> mm (PRule rEndOfLine) (x :: a ++ c :: z) (Some ([], a1 ++ c :: z))).
Proof.
  intros x a c y y' Hx Hc Ha. apply orb_true_iff in Hx as [Hx|Hx]; apply N.eqb_eq in Hx; subst x.
  - exists [10%N], a. repeat split; auto. intros z _. constructor. cbn [Gpeg]. apply m_alt_2; [apply m_seq_no1; constructor; discriminate|].
    apply m_alt_1. constructor.
  - destruct a as [|b a].
    + exists [13%N], []. repeat split; auto. intros z _. constructor. cbn [Gpeg app]. apply m_alt_2.
      * eapply m_seq_no2; [constructor|]. constructor. intros ->. discriminate.
      * apply m_alt_2; constructor. discriminate.
    + destruct (N.eq_dec b 10) as [->|Hb].
      * exists [13%N; 10%N], a. repeat split; [rewrite code_plain in Ha by reflexivity; exact Ha|]. intros z _. constructor. cbn [Gpeg app].
        apply m_alt_1. change (@nil event) with ([] ++ @nil event). eapply m_seq_ok; constructor.
      * exists [13%N], (b :: a). repeat split; auto. intros z _. constructor. cbn [Gpeg app]. apply m_alt_2.
        -- eapply m_seq_no2; [constructor|]. now constructor.
        -- apply m_alt_2; constructor. discriminate.
Qed.

Definition two (e : pexp) (a : list N) (c : N) (y y' : list N) (o : option (list event * list N)) : Prop :=
  match o with
  | None => mm e (a ++ c :: y') None
  | Some (ev, r) => exists p a1, a = p ++ a1 /\ place_after Code a1 = Code /\ r = a1 ++ c :: y /\ mm e (a ++ c :: y') (Some (ev, a1 ++ c :: y'))
  end.

Lemma dashes_no : forall x t, is_dash x = false \/ (exists y t', t = y :: t' /\ (x =? y)%N = false) -> mm (lit #"--" // lit #"//") (x :: t) None.
Proof.
  intros x t [H|(y & t' & -> & H)].
  - apply orb_false_iff in H as [H1 H2]. apply N.eqb_neq in H1, H2. apply m_alt_2; apply m_seq_no1; now constructor.
  - apply N.eqb_neq in H.
    assert (forall d, mm (PSeq (PChar d) (PChar d)) (x :: y :: t') None) as K.
    { intro d. destruct (N.eq_dec x d) as [->|Hd]; [|apply m_seq_no1; now constructor]. eapply m_seq_no2; [constructor|]. constructor. congruence. }
    apply m_alt_2; apply K.
Qed.
Lemma comment_two : forall a c y y' o, is_quote c = true -> place_after Code a = Code -> mm (PRule rComment) (a ++ c :: y) o -> two (PRule rComment) a c y y' o.
Proof.
  intros a c y y' o Hc Ha H. assert (Hcd : is_dash c = false).
  { unfold is_quote in Hc. unfold is_dash. apply orb_true_iff in Hc as [K|K]; apply N.eqb_eq in K; subst; reflexivity. }
  assert (NO : forall x t, is_dash x = false \/ (exists y t', t = y :: t' /\ (x =? y)%N = false) -> mm (PRule rComment) (x :: t) None).
  { intros x t K. constructor. cbn [Gpeg]. apply m_seq_no1. now apply dashes_no. }
  assert (ST : forall x, is_dash x = true -> forall b, place_after Commented b = Code -> a = x :: x :: b -> two (PRule rComment) a c y y' o).
  { intros x Hx b Hb ->. destruct (comment_end b Hb) as (u & l & a1 & -> & Hu & Hl & Ha1).
    destruct (eol_two l a1 c y y' Hl Hc Ha1) as (p & a2 & Hp & Ha2 & HE).
    assert (K : forall z, z = y \/ z = y' -> mm (PRule rComment) ((x :: x :: u ++ l :: a1) ++ c :: z) (Some ([], a2 ++ c :: z))).
    { intros z Hz. constructor. cbn [Gpeg]. cbn [app]. rewrite <- app_assoc. cbn [app]. change (@nil event) with (([] ++ []) ++ [] ++ @nil event).
      eapply m_seq_ok with (s1 := u ++ l :: a1 ++ c :: z).
      - unfold is_dash in Hx. apply orb_true_iff in Hx as [Hx|Hx]; apply N.eqb_eq in Hx; subst x.
        + apply m_alt_1. eapply m_seq_ok; constructor.
        + apply m_alt_2; [apply m_seq_no1; constructor; discriminate|]. eapply m_seq_ok; constructor.
      - eapply m_seq_ok; [now apply body_at|]. now apply HE. }
    rewrite (matches_det _ _ _ _ (K y (or_introl eq_refl)) _ H). cbn [two].
    exists (x :: x :: u ++ p), a2. repeat split; auto. cbn [app]. rewrite <- app_assoc. now rewrite Hp. }
  destruct a as [|x [|x2 b]].
  - cbn [app] in *. rewrite (matches_det _ _ _ _ (NO c y (or_introl Hcd)) _ H). cbn [two app]. now apply NO; left.
  - cbn [app] in *. assert (K : forall z, mm (PRule rComment) (x :: c :: z) None).
    { intro z. apply NO. destruct (is_dash x) eqn:Hx; [|auto]. right. exists c, z. split; auto. apply N.eqb_neq. intros ->. congruence. }
    rewrite (matches_det _ _ _ _ (K y) _ H). cbn [two app]. apply K.
  - destruct (is_dash x && (x =? x2)%N) eqn:HD.
    + apply andb_true_iff in HD as [Hx Hxy]. apply N.eqb_eq in Hxy. subst x2. apply (ST x Hx b); [|reflexivity].
      cbn [place_after] in Ha. destruct (is_quote x) eqn:Q.
      { unfold is_quote in Q. unfold is_dash in Hx. apply orb_true_iff in Q as [Q|Q]; apply N.eqb_eq in Q; subst x; discriminate. }
      rewrite Hx, N.eqb_refl in Ha. exact Ha.
    + assert (K : forall z, mm (PRule rComment) (x :: x2 :: b ++ c :: z) None).
      { intro z. apply NO. apply andb_false_iff in HD as [HD|HD]; [auto|]. right. exists x2, (b ++ c :: z). auto. }
      cbn [app] in H. rewrite (matches_det _ _ _ _ (K y) _ H). cbn [two app]. apply K.
Qed.

Lemma nostr_rule : forall r, nostr (PRule r) = true -> r = rComment \/ nostr (Gpeg r) = true.
Proof. intros r H. destruct r; try discriminate H; ((left; reflexivity) || (right; vm_compute; reflexivity)). Qed.

Lemma plain_two : forall e s o, mm e s o -> nostr e = true -> forall a c y y', s = a ++ c :: y -> is_quote c = true -> place_after Code a = Code ->
  two e a c y y' o.
Proof.
  intros e s o H. induction H; intros Hn a0 c0 y y' Hs Hc Ha.
  - (* char *) cbn in Hn. apply negb_true_iff in Hn. destruct a0 as [|z a0]; cbn [app] in Hs; injection Hs as -> ->.
    { now rewrite (quote_odd _ Hc) in Hn. }
    exists [z], a0. rewrite code_plain in Ha by exact Hn. repeat split; auto. cbn [app]. constructor.
  - destruct a0 as [|z a0]; cbn [app] in Hs; injection Hs as -> ->; cbn [two app]; now constructor.
  - destruct a0; discriminate.
  - (* range *) destruct a0 as [|z a0]; cbn [app] in Hs; injection Hs as -> ->.
    + exfalso. cbn in Hn. unfold is_quote in Hc. apply orb_true_iff in Hc as [K|K]; apply N.eqb_eq in K; subst c0.
      * assert (((lo <=? 34) && (34 <=? hi))%N = true) as K by (apply andb_true_iff; split; apply N.leb_le; lia). rewrite K in Hn. discriminate.
      * assert (((lo <=? 39) && (39 <=? hi))%N = true) as K by (apply andb_true_iff; split; apply N.leb_le; lia). rewrite K in Hn.
        cbn in Hn. rewrite andb_false_r in Hn. discriminate.
    + exists [z], a0. cbn [two]. rewrite code_plain in Ha.
      * repeat split; auto. cbn [app]. now constructor.
      * cbn [nostr] in Hn. rewrite forallb_forall in Hn. unfold odd, is_quote, is_dash.
        destruct ((z =? 34)%N || (z =? 39)%N || ((z =? 45)%N || (z =? 47)%N)) eqn:Z; [|reflexivity]. exfalso.
        assert (In z [34; 39; 45; 47]%N) as Zi. { cbn. rewrite !orb_true_iff, !N.eqb_eq in Z. intuition. }
        specialize (Hn z Zi). apply negb_true_iff in Hn. apply andb_false_iff in Hn as [K|K]; apply N.leb_gt in K; lia.
  - destruct a0 as [|z a0]; cbn [app] in Hs; injection Hs as -> ->; cbn [two app]; now constructor.
  - destruct a0; discriminate.
  - discriminate.
  - discriminate.
  - (* seq ok *) cbn [nostr] in Hn. destruct (arrow a b) eqn:AR.
    + destruct a; try discriminate AR. destruct b; try discriminate AR.
      apply andb_true_iff in AR as [A1 A2]. apply N.eqb_eq in A1, A2. subst.
      inversion H; subst. inversion H0; subst. destruct a0 as [|z [|z2 a0]]; cbn [app] in *.
      * match goal with K : _ :: _ = _ :: _ |- _ => injection K as <- <- end. discriminate.
      * match goal with K : _ :: _ = _ :: _ |- _ => injection K as <- <- <- end. discriminate.
      * match goal with K : _ :: _ = _ :: _ |- _ => injection K as <- <- -> end. exists [45; 62]%N, a0.
        rewrite code_dash in Ha by reflexivity. rewrite code_plain in Ha by reflexivity. repeat split; auto. cbn [app].
        change (@nil event) with ([] ++ @nil event). eapply m_seq_ok; constructor.
    + cbn [orb] in Hn. apply andb_true_iff in Hn as [N1 N2]. destruct (IHmatches1 N1 a0 c0 y y' Hs Hc Ha) as (p & a1 & -> & Ha1 & -> & M1).
      destruct (IHmatches2 N2 a1 c0 y y' eq_refl Hc Ha1) as (p2 & a2 & -> & Ha2 & -> & M2).
      exists (p ++ p2), a2. rewrite <- app_assoc. repeat split; auto. rewrite <- app_assoc in *. eapply m_seq_ok; [exact M1|]. now rewrite <- app_assoc.
  - (* seq no1 *) cbn [nostr] in Hn. cbn [two]. destruct (arrow a b) eqn:AR.
    + destruct a; try discriminate AR. apply m_seq_no1. inversion H; subst.
      * destruct a0 as [|z a0]; cbn [app] in *; match goal with K : _ :: _ = _ :: _ |- _ => injection K as -> -> end; now constructor.
      * destruct a0; discriminate.
    + cbn [orb] in Hn. apply andb_true_iff in Hn as [N1 N2]. apply m_seq_no1. exact (IHmatches N1 a0 c0 y y' Hs Hc Ha).
  - (* seq no2 *) cbn [nostr] in Hn. cbn [two]. destruct (arrow a b) eqn:AR.
    + destruct a; try discriminate AR. destruct b; try discriminate AR.
      inversion H; subst. destruct a0 as [|z a0]; cbn [app] in *.
      * match goal with K : _ :: _ = _ :: _ |- _ => injection K as -> -> end. exfalso. clear -AR Hc. unfold is_quote in Hc.
        apply orb_true_iff in Hc as [K|K]; apply N.eqb_eq in K; subst; discriminate.
      * match goal with K : _ :: _ = _ :: _ |- _ => injection K as -> -> end. eapply m_seq_no2; [constructor|].
        inversion H0; subst.
        -- destruct a0 as [|z2 a0]; cbn [app] in *; match goal with K : _ :: _ = _ :: _ |- _ => injection K as -> -> end; now constructor.
        -- destruct a0; discriminate.
    + cbn [orb] in Hn. apply andb_true_iff in Hn as [N1 N2]. destruct (IHmatches1 N1 a0 c0 y y' Hs Hc Ha) as (p & a1 & -> & Ha1 & -> & M1).
      eapply m_seq_no2; [exact M1|]. exact (IHmatches2 N2 a1 c0 y y' eq_refl Hc Ha1).
  - (* alt 1 *) cbn [nostr] in Hn. apply andb_true_iff in Hn as [N1 N2]. destruct r as [ev r]. destruct (IHmatches N1 a0 c0 y y' Hs Hc Ha) as (p & a1 & -> & Ha1 & -> & M1).
    exists p, a1. repeat split; auto. now apply m_alt_1.
  - (* alt 2 *) cbn [nostr] in Hn. apply andb_true_iff in Hn as [N1 N2]. pose proof (IHmatches1 N1 a0 c0 y y' Hs Hc Ha) as M1. cbn [two] in M1.
    pose proof (IHmatches2 N2 a0 c0 y y' Hs Hc Ha) as M2. destruct o as [[ev r]|]; cbn [two] in *.
    + destruct M2 as (p & a1 & -> & Ha1 & -> & M2). exists p, a1. repeat split; auto. now apply m_alt_2.
    + now apply m_alt_2.
  - (* star 0 *) cbn [nostr] in Hn. exists [], a0. repeat split; auto. apply m_star_0. exact (IHmatches Hn a0 c0 y y' Hs Hc Ha).
  - (* star 1 *) destruct (IHmatches1 Hn a0 c0 y y' Hs Hc Ha) as (p & a1 & -> & Ha1 & -> & M1).
    destruct (IHmatches2 Hn a1 c0 y y' eq_refl Hc Ha1) as (p2 & a2 & -> & Ha2 & -> & M2).
    exists (p ++ p2), a2. rewrite <- !app_assoc in *. repeat split; auto. eapply m_star_1; [exact M1|exact M2].
  - cbn [nostr] in Hn. destruct r as [ev r]. destruct (IHmatches Hn a0 c0 y y' Hs Hc Ha) as (p & a1 & -> & Ha1 & -> & M1).
    exists p, a1. repeat split; auto. now apply m_opt_1.
  - cbn [nostr] in Hn. exists [], a0. repeat split; auto. apply m_opt_0. exact (IHmatches Hn a0 c0 y y' Hs Hc Ha).
  - (* not ok *) assert (K : a = PDot \/ nostr a = true) by (destruct a; auto). destruct K as [->|K].
    + inversion H; subst. destruct a0; discriminate.
    + exists [], a0. repeat split; auto. apply m_not_ok. exact (IHmatches K a0 c0 y y' Hs Hc Ha).
  - assert (K : a = PDot \/ nostr a = true) by (destruct a; auto). destruct r as [ev r]. cbn [two]. destruct K as [->|K].
    + destruct a0; eapply m_not_no; constructor.
    + destruct (IHmatches K a0 c0 y y' Hs Hc Ha) as (p & a1 & -> & Ha1 & -> & M1). eapply m_not_no. exact M1.
  - (* cap *) cbn [nostr] in Hn. destruct (IHmatches Hn a0 c0 y y' Hs Hc Ha) as (p2 & a1 & -> & Ha1 & -> & M1).
    rewrite <- app_assoc in Hs. apply app_inv_tail in Hs. subst p2. exists p, a1. repeat split; auto. rewrite <- app_assoc in *. now constructor.
  - cbn [two]. apply m_cap_no. exact (IHmatches Hn a0 c0 y y' Hs Hc Ha).
  - exists [], a0. repeat split; auto. constructor.
  - (* rule *) destruct (nostr_rule r Hn) as [->|Hr].
    + subst s. apply comment_two; auto. now constructor.
    + pose proof (IHmatches Hr a0 c0 y y' Hs Hc Ha) as M. destruct o as [[ev t]|]; cbn [two] in *.
      * destruct M as (p & a1 & -> & Ha1 & -> & M). exists p, a1. repeat split; auto. now constructor.
      * now constructor.
  - discriminate.
  - discriminate.
  - discriminate.
Qed.

(** ** All fillings of a template at once *)
Definition strn (c : N) : nat := if (c =? 39)%N then 28 else 29.
Lemma inside : forall c v t, mem c v = false -> mm ((PNot (PChar c) ;; PDot) **) (v ++ c :: t) (Some ([], c :: t)).
Proof.
  intros c v t. induction v as [|x v IH]; cbn [app mem existsb]; intro H.
  - apply m_star_0. apply m_seq_no1. eapply m_not_no. constructor.
  - apply orb_false_iff in H as [H1 H2]. apply N.eqb_neq in H1. change (@nil event) with (([] ++ []) ++ @nil event).
    eapply m_star_1; [|now apply IH]. eapply m_seq_ok; [|constructor]. apply m_not_ok. constructor. congruence.
Qed.
Lemma str_at : forall c v t, is_quote c = true -> mem c v = false ->
  mm (PRule rString) (c :: v ++ c :: t) (Some ([EText v; EAct (strn c)], t)).
Proof.
  intros c v t Hc Hv. assert (K : forall n, mm (PChar c ;; PCap ((PNot (PChar c) ;; PDot) **) ;; PChar c ;; PAct n) (c :: v ++ c :: t) (Some ([EText v; EAct n], t))).
  { intro n. change [EText v; EAct n] with ([] ++ ([] ++ [EText v]) ++ [] ++ [EAct n]). eapply m_seq_ok; [constructor|].
    eapply m_seq_ok; [apply m_cap_ok; now apply inside|]. eapply m_seq_ok; constructor. }
  constructor. cbn [Gpeg]. unfold is_quote in Hc. apply orb_true_iff in Hc as [E|E]; apply N.eqb_eq in E; subst c.
  - apply m_alt_2; [apply m_seq_no1; constructor; discriminate|]. apply K.
  - apply m_alt_1. apply K.
Qed.
Lemma str_no : forall x t, is_quote x = false -> mm (PRule rString) (x :: t) None.
Proof.
  intros x t H. apply orb_false_iff in H as [H1 H2]. apply N.eqb_neq in H1, H2. constructor. cbn [Gpeg].
  apply m_alt_2; apply m_seq_no1; now constructor.
Qed.

Fixpoint okx (e : pexp) : bool :=
  nostr e ||
  match e with
  | PSeq a b | PAlt a b => okx a && okx b
  | PStar a | POpt a => okx a
  | PAct _ | PRule _ => true
  | _ => false
  end.
Lemma ok_rule : forall r, r = rString \/ r = rComment \/ okx (Gpeg r) = true.
Proof. intro r. destruct r; try (now left); try (right; left; reflexivity); right; right; vm_compute; reflexivity. Qed.

(** events in which a captured text may be a hole *)
Inductive tev : Set := TE (e : event) | TH (i n : nat).
Definition inst1 (vs : list (list N)) (x : tev) : list event := match x with TE e => [e] | TH i n => [EText (nth i vs []); EAct n] end.
Definition inst (vs : list (list N)) (l : list tev) : list event := flat_map (inst1 vs) l.
Definition tholes (l : list tev) : list nat := flat_map (fun x => match x with TH i _ => [i] | _ => [] end) l.
Lemma inst_app : forall vs a b, inst vs (a ++ b) = inst vs a ++ inst vs b.
Proof. intros. apply flat_map_app. Qed.
Lemma tholes_app : forall a b, tholes (a ++ b) = tholes a ++ tholes b.
Proof. intros. apply flat_map_app. Qed.
Lemma inst_map : forall vs l, inst vs (map TE l) = l.
Proof. induction l as [|x l IH]; [reflexivity|]. cbn. f_equal. exact IH. Qed.
Lemma tholes_map : forall l, tholes (map TE l) = [].
Proof. induction l as [|x l IH]; [reflexivity|]. exact IH. Qed.

Section Fill.
  (** the fillings in view, of which [v0] is one *)
  Variable good : list (list N) -> Prop.
  Variable v0 : list (list N).
  Hypothesis good0 : good v0.

  (** [family i j f]: the texts [f vs] come from one template with the holes
      numbered from [i] to [j] *)
  Inductive family : nat -> nat -> (list (list N) -> list N) -> Prop :=
  | fam_end : forall i b f, (forall vs, good vs -> f vs = b) -> family i i f
  | fam_hole : forall i j a c f g, is_quote c = true -> place_after Code a = Code -> (forall vs, good vs -> mem c (nth i vs []) = false) ->
      (forall vs, good vs -> f vs = a ++ c :: nth i vs [] ++ c :: g vs) -> family (S i) j g -> family i j f.
  Definition sim (e : pexp) (i j : nat) (f : list (list N) -> list N) (o : option (list event * list N)) : Prop :=
    match o with
    | None => forall vs, good vs -> mm e (f vs) None
    | Some (ev, r) => exists L i' g, ev = inst v0 L /\ r = g v0 /\ i <= i' /\ tholes L = seq i (i' - i) /\ (forall l n, In (TH l n) L -> n = 28 \/ n = 29) /\
        family i' j g /\ forall vs, good vs -> mm e (f vs) (Some (inst vs L, g vs))
    end.
  Lemma sim_plain : forall e i j f ev g, family i j g -> (forall vs, good vs -> mm e (f vs) (Some (ev, g vs))) ->
    sim e i j f (Some (ev, g v0)).
  Proof.
    intros e i j f ev g HF H. exists (map TE ev), i, g. rewrite inst_map, tholes_map, Nat.sub_diag. repeat split; auto.
    - intros l n K. apply in_map_iff in K as (x & K & _). discriminate.
    - intros vs Hv. rewrite inst_map. auto.
  Qed.
  Lemma sim_const : forall e i f o, (forall vs, good vs -> f vs = f v0) -> mm e (f v0) o -> sim e i i f o.
  Proof.
    intros e i f [[ev r]|] Hf H; [|intros vs Hv; now rewrite Hf].
    apply (sim_plain e i i f ev (fun _ => r)); [now apply (fam_end i r)|]. intros vs Hv. now rewrite Hf.
  Qed.
  Lemma fam_const : forall (i : nat) b (f : list (list N) -> list N), (forall vs, good vs -> f vs = b) -> forall vs, good vs -> f vs = f v0.
  Proof. intros i b f H vs Hv. rewrite !H; auto. Qed.

  Lemma plain_sim : forall e i j f o, nostr e = true -> family i j f -> mm e (f v0) o -> sim e i j f o.
  Proof.
    intros e i j f o Hn F H. destruct F as [i b f Hf|i j a c f g Hc Ha Hv Hf F]; [apply sim_const; [exact (fam_const i b f Hf)|exact H]|].
    rewrite Hf in H by exact good0.
    assert (K : forall vs, good vs -> two e a c (nth i v0 [] ++ c :: g v0) (nth i vs [] ++ c :: g vs) o).
    { intros vs Hvs. eapply plain_two; eauto. }
    destruct o as [[ev r]|]; cbn [two] in K.
    - destruct (K v0 good0) as (p & a1 & -> & Ha1 & -> & _).
      apply (sim_plain e i j f ev (fun vs => a1 ++ c :: nth i vs [] ++ c :: g vs)).
      + eapply fam_hole; eauto.
      + intros vs Hvs. rewrite Hf by exact Hvs. destruct (K vs Hvs) as (p2 & a2 & E & _ & E2 & M). apply app_inv_tail in E2. subst a2. exact M.
    - intros vs Hvs. rewrite Hf by exact Hvs. now apply K.
  Qed.
  Lemma str_sim : forall i j f o, family i j f -> mm (PRule rString) (f v0) o -> sim (PRule rString) i j f o.
  Proof.
    intros i j f o F H. destruct F as [i b f Hf|i j a c f g Hc Ha Hv Hf F]; [apply sim_const; [exact (fam_const i b f Hf)|exact H]|].
    rewrite Hf in H by exact good0. destruct a as [|x a]; cbn [app] in *.
    - rewrite (matches_det _ _ _ _ (str_at c _ (g v0) Hc (Hv v0 good0)) _ H). exists [TH i (strn c)], (S i), g.
      repeat split; auto; try lia.
      + replace (S i - i) with 1 by lia. reflexivity.
      + intros l n [K|[]]. injection K as <- <-. unfold strn. destruct (c =? 39)%N; auto.
      + intros vs Hvs. rewrite Hf by exact Hvs. apply str_at; auto.
    - destruct (is_quote x) eqn:Q.
      + cbn [place_after] in Ha. rewrite Q in Ha. destruct (quoted_end _ _ Ha) as (u & a1 & -> & Hu & Ha1). rewrite <- !app_assoc in *. cbn [app] in *.
        rewrite (matches_det _ _ _ _ (str_at x u _ Q Hu) _ H).
        apply (sim_plain _ i j f [EText u; EAct (strn x)] (fun vs => a1 ++ c :: nth i vs [] ++ c :: g vs)).
        * exact (fam_hole i j a1 c _ g Hc Ha1 Hv (fun _ _ => eq_refl) F).
        * intros vs Hvs. rewrite Hf by exact Hvs. rewrite <- app_assoc. cbn [app]. now apply str_at.
      + rewrite (matches_det _ _ _ _ (str_no x _ Q) _ H). intros vs Hvs. rewrite Hf by exact Hvs. now apply str_no.
  Qed.

  Lemma both_sim : forall e s o, mm e s o -> okx e = true -> forall i j f, s = f v0 -> family i j f -> sim e i j f o.
  Proof.
    intros e s o H. induction H; intros Hok i j f Hs F; subst; cbn [okx] in Hok; apply orb_true_iff in Hok as [Hok|Hok];
      try (eapply plain_sim; [exact Hok|exact F|]; rewrite <- Hs; econstructor; eassumption);
      try (eapply plain_sim; [exact Hok|exact F|]; econstructor; eassumption); try discriminate Hok.
    - apply andb_true_iff in Hok as [K1 K2]. destruct (IHmatches1 K1 i j f eq_refl F) as (L1 & i1 & g1 & -> & -> & I1 & T1 & N1 & F1 & M1).
      destruct (IHmatches2 K2 i1 j g1 eq_refl F1) as (L2 & i2 & g2 & -> & -> & I2 & T2 & N2 & F2 & M2).
      exists (L1 ++ L2), i2, g2. rewrite inst_app, tholes_app, T1, T2. repeat split; auto; try lia.
      + replace i1 with (i + (i1 - i)) at 2 by lia. rewrite <- seq_app. f_equal. lia.
      + intros l n K. apply in_app_or in K as [K|K]; eauto.
      + intros vs Hv. rewrite inst_app. eapply m_seq_ok; eauto.
    - apply andb_true_iff in Hok as [K1 K2]. intros vs Hv. apply m_seq_no1. exact (IHmatches K1 i j f eq_refl F vs Hv).
    - apply andb_true_iff in Hok as [K1 K2]. destruct (IHmatches1 K1 i j f eq_refl F) as (L1 & i1 & g1 & -> & -> & I1 & T1 & N1 & F1 & M1).
      intros vs Hv. eapply m_seq_no2; [exact (M1 vs Hv)|]. exact (IHmatches2 K2 i1 j g1 eq_refl F1 vs Hv).
    - apply andb_true_iff in Hok as [K1 K2]. destruct r as [ev r]. destruct (IHmatches K1 i j f eq_refl F) as (L1 & i1 & g1 & -> & -> & I1 & T1 & N1 & F1 & M1).
      exists L1, i1, g1. repeat split; auto. intros vs Hv. apply m_alt_1. auto.
    - apply andb_true_iff in Hok as [K1 K2]. pose proof (IHmatches1 K1 i j f eq_refl F) as M0. pose proof (IHmatches2 K2 i j f eq_refl F) as M1. clear IHmatches1 IHmatches2. destruct o as [[ev r]|].
      + destruct M1 as (L1 & i1 & g1 & -> & -> & I1 & T1 & N1 & F1 & M1). exists L1, i1, g1. repeat split; auto. intros vs Hv. apply m_alt_2; [exact (M0 vs Hv)|auto].
      + intros vs Hv. apply m_alt_2; [exact (M0 vs Hv)|exact (M1 vs Hv)].
    - apply sim_plain; auto. intros vs Hv. apply m_star_0. exact (IHmatches Hok i j f eq_refl F vs Hv).
    - destruct (IHmatches1 Hok i j f eq_refl F) as (L1 & i1 & g1 & -> & -> & I1 & T1 & N1 & F1 & M1).
      assert (Hok2 : okx (PStar a) = true) by (cbn [okx]; rewrite Hok; apply orb_true_r).
      destruct (IHmatches2 Hok2 i1 j g1 eq_refl F1) as (L2 & i2 & g2 & -> & -> & I2 & T2 & N2 & F2 & M2).
      exists (L1 ++ L2), i2, g2. rewrite inst_app, tholes_app, T1, T2. repeat split; auto; try lia.
      + replace i1 with (i + (i1 - i)) at 2 by lia. rewrite <- seq_app. f_equal. lia.
      + intros l n K. apply in_app_or in K as [K|K]; eauto.
      + intros vs Hv. rewrite inst_app. eapply m_star_1; eauto.
    - destruct r as [ev r]. destruct (IHmatches Hok i j f eq_refl F) as (L1 & i1 & g1 & -> & -> & I1 & T1 & N1 & F1 & M1).
      exists L1, i1, g1. repeat split; auto. intros vs Hv. apply m_opt_1. auto.
    - apply sim_plain; auto. intros vs Hv. apply m_opt_0. exact (IHmatches Hok i j f eq_refl F vs Hv).
    - destruct (ok_rule r) as [->|[->|K]].
      + apply str_sim; [exact F|]. now constructor.
      + apply plain_sim; [reflexivity|exact F|]. now constructor.
      + pose proof (IHmatches K i j f eq_refl F) as M. destruct o as [[ev t]|].
        * destruct M as (L1 & i1 & g1 & -> & -> & I1 & T1 & N1 & F1 & M1). exists L1, i1, g1. repeat split; auto. intros vs Hv. constructor. auto.
        * intros vs Hv. constructor. exact (M vs Hv).
  Qed.
  Lemma family_done : forall i j g, family i j g -> g v0 = [] -> i = j.
  Proof. intros i j g F H. destruct F as [|i j a c f g Hc Ha Hv Hf F]; [reflexivity|]. rewrite Hf in H by exact good0. destruct a; discriminate. Qed.
End Fill.

(** ** Running the actions *)
Notation oplug vs := (option_map (plug vs)).
Definition tplug (vs : list (list N)) (t : tree) : tree := Tree (map (oplug vs) (tStack t)) (tErrors t) (tMarks t).
Lemma plug_types : forall vs n, nType (plug vs n) = nType n /\ nVType (plug vs n) = nVType n.
Proof.
  intros vs n. destruct n as [ty vt z b s f ar o nm nms ex le op ri pa]. cbn [plug]. unfold is_hole. cbn [nType nVType nBool].
  destruct ty; try (split; reflexivity). destruct vt; try (split; reflexivity). destruct b; split; reflexivity.
Qed.
Lemma plug_not_value : forall vs n, nType n <> NValue \/ nVType n <> VString -> plug vs n =
  Node (nType n) (nVType n) (nInt n) (nBool n) (nStr n) (nFloat n) (map (oplug vs) (nArray n)) (nOperation n) (nName n) (nNames n)
    (oplug vs (nExpression n)) (oplug vs (nLeft n)) (oplug vs (nOp n)) (oplug vs (nRight n)) (map (oplug vs) (nParams n)).
Proof.
  intros vs n H. destruct n as [ty vt z b s f ar o nm nms ex le op ri pa]. cbn [plug]. unfold is_hole. cbn [nType nVType nBool] in *.
  destruct ty; try reflexivity. destruct vt; try reflexivity. intuition congruence.
Qed.
Lemma tplug_pop : forall vs t, pop (tplug vs t) = (oplug vs (fst (pop t)), tplug vs (snd (pop t))).
Proof.
  intros vs [st er ma]. unfold pop, tplug. cbn [tStack tErrors tMarks]. destruct st as [|x st]; [reflexivity|]. cbn [map].
  change (oplug vs x :: map (oplug vs) st) with (map (oplug vs) (x :: st)).
  assert (K : forall l : list (option node), last (map (oplug vs) l) None = oplug vs (last l None) /\ removelast (map (oplug vs) l) = map (oplug vs) (removelast l)).
  { induction l as [|y [|y2 l] IH]; [split; reflexivity|split; reflexivity|]. destruct IH as [I1 I2]. split; [exact I1|]. cbn [map removelast] in *. now rewrite I2. }
  destruct (K (x :: st)) as [K1 K2]. cbn [fst snd tStack tErrors tMarks]. now rewrite K1, K2.
Qed.
Lemma tplug_push : forall vs n t, push (oplug vs n) (tplug vs t) = tplug vs (push n t).
Proof. intros vs n t. unfold push, tplug. cbn. now rewrite map_app. Qed.
Lemma tplug_error : forall vs e t, add_error e (tplug vs t) = tplug vs (add_error e t).
Proof. intros vs [e|] t; reflexivity. Qed.
Lemma tplug_mark : forall vs t, add_mark (tplug vs t) = tplug vs (add_mark t).
Proof. intros vs t. unfold add_mark, tplug. cbn. now rewrite map_length. Qed.
Lemma tplug_marked : forall vs t, pop_marked (tplug vs t) = option_map (fun x => (map (oplug vs) (fst x), tplug vs (snd x))) (pop_marked t).
Proof.
  intros vs [st er ma]. unfold pop_marked, pop_mark, tplug. cbn [tMarks tStack tErrors]. destruct ma as [|m ma]; [reflexivity|]. cbn [tMarks tStack tErrors].
  rewrite map_length. destruct (Nat.leb _ _); [|reflexivity]. cbn [option_map fst snd tStack tErrors tMarks]. now rewrite skipn_map, firstn_map.
Qed.
Lemma plug_name : forall vs n, is_hole n = false -> nName (plug vs n) = nName n.
Proof. intros vs n H. destruct n. cbn [plug] in *. now rewrite H. Qed.
(** a hole has no name *)
Definition nameless (x : option node) : Prop := match x with Some n => is_hole n = true -> nName n = [] | None => True end.
Lemma tplug_names : forall vs l, Forall nameless l -> node_names (map (oplug vs) l) = node_names l.
Proof.
  induction l as [|[n|] l IH]; intro H; [reflexivity| |reflexivity]. inversion H as [|? ? H1 H2]; subst. cbn [map option_map node_names]. rewrite IH by exact H2.
  destruct (is_hole n) eqn:E; [|now rewrite plug_name]. cbn in H1. rewrite H1 by exact E. destruct n. cbn [plug] in *. rewrite E. reflexivity.
Qed.
Definition nameless_tree (t : tree) : Prop := Forall nameless (tStack t).
Lemma nl_pop : forall t, nameless_tree t -> nameless_tree (snd (pop t)).
Proof.
  intros [st er ma] H. unfold nameless_tree, pop in *. cbn [tStack] in *. destruct st as [|x st]; [exact H|]. cbn [snd tStack].
  rewrite (app_removelast_last None (l := x :: st)) in H by discriminate. now apply Forall_app in H as [H _].
Qed.
Lemma nl_push : forall n t, nameless (Some n) -> nameless_tree t -> nameless_tree (push (Some n) t).
Proof. intros n t H Ht. unfold nameless_tree, push in *. cbn. apply Forall_app. split; [exact Ht|]. now constructor. Qed.
Lemma nl_marked : forall t l u, nameless_tree t -> pop_marked t = Some (l, u) -> Forall nameless l /\ nameless_tree u.
Proof.
  intros t l u H E. unfold pop_marked in E. destruct (pop_mark t) as [[m t1]|] eqn:EM; [|discriminate]. unfold pop_mark in EM. destruct (tMarks t); [discriminate|].
  injection EM as _ <-. cbn [tStack tErrors tMarks] in E. destruct (Nat.leb _ _); [|discriminate]. injection E as <- <-. unfold nameless_tree in *. cbn [tStack].
  rewrite <- (firstn_skipn m (tStack t)) in H. apply Forall_app in H. tauto.
Qed.
Lemma nl_error : forall e t, nameless_tree t -> nameless_tree (add_error e t).
Proof. intros [e|] t H; exact H. Qed.

Section Act.
  Variable lo : N -> N.
  Definition uses_text (n : nat) : bool := match n with 3 | 6 | 14 | 15 | 16 | 17 | 18 | 19 | 20 | 25 | 26 | 28 | 29 => true | _ => false end.
  Lemma act_text : forall n x x' t, uses_text n = false -> run_action lo n x t = run_action lo n x' t.
  Proof. intros n x x' t H. do 30 (destruct n as [|n]; [discriminate H || reflexivity|]). reflexivity. Qed.
  Definition natural (f : tree -> option tree) : Prop := forall vs t, nameless_tree t -> f (tplug vs t) = option_map (tplug vs) (f t) /\ (forall u, f t = Some u -> nameless_tree u).
  Lemma nat_push : forall n, is_hole n = false -> (forall vs, plug vs n = n) -> natural (fun t => Some (push (Some n) t)).
  Proof.
    intros n Hn H vs t Ht. split.
    - cbn [option_map]. rewrite <- tplug_push. cbn [option_map]. now rewrite H.
    - intros u K. injection K as <-. apply nl_push; [|exact Ht]. cbn. congruence.
  Qed.
  Lemma act_natural : forall n text, natural (run_action lo n text).
  Proof.
    intros n text vs t Ht.
    assert (PU : forall n, is_hole n = false -> (forall vs, plug vs n = n) -> forall t, nameless_tree t -> Some (push (Some n) (tplug vs t)) = Some (tplug vs (push (Some n) t)) /\ (forall u, Some (push (Some n) t) = Some u -> nameless_tree u)).
    { intros m Hm H t0 Ht0. apply (nat_push m Hm H vs t0 Ht0). }
    assert (CMP : forall ty, ty <> NValue ->
      let f := fun t => let (right, t1) := pop t in let (op, t2) := pop t1 in let (left, t3) := pop t2 in
                 Some (push (Some (Node ty VNone 0 false [] 0 [] [] [] [] None left op right [])) t3) in
      f (tplug vs t) = option_map (tplug vs) (f t) /\ (forall u, f t = Some u -> nameless_tree u)).
    { intros ty Hty f. unfold f. clear f. rewrite tplug_pop. pose proof (nl_pop _ Ht) as N1. destruct (pop t) as [e t1]. cbn [fst snd] in *.
      rewrite tplug_pop. pose proof (nl_pop _ N1) as N2. destruct (pop t1) as [e2 t2]. cbn [fst snd] in *.
      rewrite tplug_pop. pose proof (nl_pop _ N2) as N3. destruct (pop t2) as [e3 t3]. cbn [fst snd] in *. split.
      - cbn [option_map]. rewrite <- tplug_push. cbn [option_map]. rewrite plug_not_value by (left; exact Hty). reflexivity.
      - intros u K. injection K as <-. apply nl_push; [|exact N3]. cbn. reflexivity. }
    assert (ONE : forall ty, ty <> NValue ->
      let f := fun t => let (e, t1) := pop t in Some (push (Some (Node ty VNone 0 false [] 0 [] [] [] [] e None None None [])) t1) in
      f (tplug vs t) = option_map (tplug vs) (f t) /\ (forall u, f t = Some u -> nameless_tree u)).
    { intros ty Hty f. unfold f. clear f. rewrite tplug_pop. pose proof (nl_pop _ Ht) as N1. destruct (pop t) as [e t1]. cbn [fst snd] in *. split.
      - cbn [option_map]. rewrite <- tplug_push. cbn [option_map]. rewrite plug_not_value by (left; exact Hty). reflexivity.
      - intros u K. injection K as <-. apply nl_push; [|exact N1]. cbn. reflexivity. }
    assert (PRE : pop_predicate (tplug vs t) = option_map (tplug vs) (pop_predicate t) /\ (forall u, pop_predicate t = Some u -> nameless_tree u)).
    { unfold pop_predicate. rewrite tplug_pop. pose proof (nl_pop _ Ht) as N1. destruct (pop t) as [e t1]. cbn [fst snd] in *.
      rewrite tplug_pop. pose proof (nl_pop _ N1) as N2. destruct (pop t1) as [e2 t2]. cbn [fst snd] in *. split.
      - cbn [option_map]. rewrite <- tplug_push. reflexivity.
      - intros u K. injection K as <-. apply nl_push; [|exact N2]. cbn. reflexivity. }
    assert (BET : pop_between (tplug vs t) = option_map (tplug vs) (pop_between t) /\ (forall u, pop_between t = Some u -> nameless_tree u)).
    { unfold pop_between. rewrite tplug_pop. pose proof (nl_pop _ Ht) as N1. destruct (pop t) as [e t1]. cbn [fst snd] in *.
      rewrite tplug_pop. pose proof (nl_pop _ N1) as N2. destruct (pop t1) as [e2 t2]. cbn [fst snd] in *.
      rewrite tplug_pop. pose proof (nl_pop _ N2) as N3. destruct (pop t2) as [e3 t3]. cbn [fst snd] in *.
      rewrite tplug_pop. pose proof (nl_pop _ N3) as N4. destruct (pop t3) as [e4 t4]. cbn [fst snd] in *. split.
      - cbn [option_map]. rewrite <- tplug_push. reflexivity.
      - intros u K. injection K as <-. apply nl_push; [|exact N4]. cbn. reflexivity. }
    assert (FUN : pop_function (tplug vs t) = option_map (tplug vs) (pop_function t) /\ (forall u, pop_function t = Some u -> nameless_tree u)).
    { unfold pop_function. rewrite tplug_pop. pose proof (nl_pop _ Ht) as N1. destruct (pop t) as [e t1]. cbn [fst snd] in *.
      rewrite tplug_pop. pose proof (nl_pop _ N1) as N2. destruct (pop t1) as [e2 t2]. cbn [fst snd] in *.
      assert (ER : Some (add_error (Some PEFunction) (tplug vs t2)) = option_map (tplug vs) (Some (add_error (Some PEFunction) t2)) /\
        (forall u, Some (add_error (Some PEFunction) t2) = Some u -> nameless_tree u)).
      { split; [reflexivity|]. intros u K. injection K as <-. exact N2. }
      destruct e as [e|]; [|exact ER]. destruct e2 as [e2|]; [|exact ER]. cbn [option_map].
      destruct (plug_types vs e) as [-> ->]. destruct (plug_types vs e2) as [-> _].
      destruct (nType e2) eqn:Y2; try exact ER. destruct (nType e) eqn:Y1; try exact ER. destruct (nVType e) eqn:V1; try exact ER. split.
      - cbn [option_map]. rewrite <- tplug_push. cbn [option_map]. rewrite (plug_not_value vs e) by (right; rewrite V1; discriminate).
        rewrite (plug_not_value vs e2) by (left; rewrite Y2; discriminate). reflexivity.
      - intros u K. injection K as <-. apply nl_push; [|exact N2]. cbn. discriminate. }
    assert (ARR : pop_array (tplug vs t) = option_map (tplug vs) (pop_array t) /\ (forall u, pop_array t = Some u -> nameless_tree u)).
    { unfold pop_array. rewrite tplug_marked. pose proof (nl_marked t) as NM. destruct (pop_marked t) as [[l u]|]; [|split; [reflexivity|discriminate]].
      destruct (NM l u Ht eq_refl) as [_ Nu]. cbn [option_map fst snd]. split; [now rewrite <- tplug_push|]. intros u0 K. injection K as <-. apply nl_push; [|exact Nu]. cbn. reflexivity. }
    assert (REF : pop_identifier_reference (tplug vs t) = option_map (tplug vs) (pop_identifier_reference t) /\ (forall u, pop_identifier_reference t = Some u -> nameless_tree u)).
    { unfold pop_identifier_reference. rewrite tplug_marked. pose proof (nl_marked t) as NM. destruct (pop_marked t) as [[l u]|]; [|split; [reflexivity|discriminate]].
      destruct (NM l u Ht eq_refl) as [Nl Nu]. cbn [option_map fst snd]. rewrite tplug_names by exact Nl. destruct (node_names l); [|split; [reflexivity|discriminate]].
      split; [cbn [option_map]; now rewrite <- tplug_push|]. intros u0 K. injection K as <-. apply nl_push; [|exact Nu]. cbn. discriminate. }
    assert (INT : Some (add_integer text (tplug vs t)) = option_map (tplug vs) (Some (add_integer text t)) /\ (forall u, Some (add_integer text t) = Some u -> nameless_tree u)).
    { unfold add_integer. destruct (atoi text) as [z e]. rewrite tplug_error. apply PU; [reflexivity|reflexivity|]. now apply nl_error. }
    assert (BOO : Some (add_boolean text (tplug vs t)) = option_map (tplug vs) (Some (add_boolean text t)) /\ (forall u, Some (add_boolean text t) = Some u -> nameless_tree u)).
    { unfold add_boolean. destruct (parse_bool text) as [z e]. rewrite tplug_error. apply PU; [reflexivity|reflexivity|]. now apply nl_error. }
    assert (MAR : Some (add_mark (tplug vs t)) = option_map (tplug vs) (Some (add_mark t)) /\ (forall u, Some (add_mark t) = Some u -> nameless_tree u)).
    { split; [cbn [option_map]; now rewrite tplug_mark|]. intros u K. injection K as <-. exact Ht. }
    assert (OPE : Some (add_operation lo text (tplug vs t)) = option_map (tplug vs) (Some (add_operation lo text t)) /\ (forall u, Some (add_operation lo text t) = Some u -> nameless_tree u)).
    { apply PU; [reflexivity|reflexivity|exact Ht]. }
    assert (NAM : Some (add_name text (tplug vs t)) = option_map (tplug vs) (Some (add_name text t)) /\ (forall u, Some (add_name text t) = Some u -> nameless_tree u)).
    { apply PU; [reflexivity|reflexivity|exact Ht]. }
    assert (NUL : Some (add_null (tplug vs t)) = option_map (tplug vs) (Some (add_null t)) /\ (forall u, Some (add_null t) = Some u -> nameless_tree u)).
    { apply PU; [reflexivity|reflexivity|exact Ht]. }
    assert (STR : Some (add_string text (tplug vs t)) = option_map (tplug vs) (Some (add_string text t)) /\ (forall u, Some (add_string text t) = Some u -> nameless_tree u)).
    { apply PU; [reflexivity|reflexivity|exact Ht]. }
    do 30 (destruct n as [|n]; [cbn [run_action];
      first [exact MAR | exact ARR | exact PRE | exact BET | exact FUN | exact REF | exact INT | exact BOO | exact (CMP NLogic ltac:(discriminate)) | exact (CMP NCompare ltac:(discriminate)) | exact (ONE NNot ltac:(discriminate)) | exact (ONE NParentheses ltac:(discriminate))
            | exact OPE | exact NAM | exact NUL | exact STR]|]).
    split; [reflexivity|]. intros u K. injection K as <-. exact Ht.
  Qed.

  (** the template of the tree *)
  Fixpoint trun (l : list tev) (st : list N * tree) : option (list N * tree) :=
    match l with
    | [] => Some st
    | TE (EText s) :: l' => trun l' (s, snd st)
    | TE (EAct n) :: l' => match run_action lo n (fst st) (snd st) with Some t => trun l' (fst st, t) | None => None end
    | TH i _ :: l' => trun l' ([], push (Some (hole_leaf i)) (snd st))
    end.
  Fixpoint paired (l : list event) : bool :=
    match l with
    | [] => true
    | EAct n :: l' => negb (uses_text n) && paired l'
    | EText _ :: l' => match l' with EAct _ :: l'' => paired l'' | _ => false end
    end.
  Lemma run_plug : forall vs L, (forall i n, In (TH i n) L -> n = 28 \/ n = 29) -> paired (inst vs L) = true -> forall x x' t, nameless_tree t ->
    option_map snd (run lo (inst vs L) (x, tplug vs t)) = option_map (fun s => tplug vs (snd s)) (trun L (x', t)).
  Proof.
    intros vs L. remember (length L) as k eqn:Hk. assert (Hle : length L <= k) by lia. clear Hk. revert L Hle. induction k as [|k IH]; intros L Hle HN HP x x' t Ht.
    - destruct L; [reflexivity|cbn in Hle; lia].
    - destruct L as [|[[s|n]|i n] L]; [reflexivity| | |].
      + destruct L as [|[[s2|n]|i n] L]; cbn [inst flat_map inst1 app paired] in HP; try discriminate HP.
        cbn [inst flat_map inst1 app run trun fst snd]. destruct (act_natural n s vs t Ht) as [-> NK].
        destruct (run_action lo n s t) as [u|]; [|reflexivity]. cbn [option_map]. apply IH; auto; [cbn in Hle; lia|]. intros i0 n0 K. apply (HN i0). now right; right.
      + cbn [inst flat_map inst1 app paired] in HP. apply andb_true_iff in HP as [Hu HP]. apply negb_true_iff in Hu.
        cbn [inst flat_map inst1 app run trun fst snd]. rewrite (act_text n x' x t Hu). destruct (act_natural n x vs t Ht) as [-> NK].
        destruct (run_action lo n x t) as [u|]; [|reflexivity]. cbn [option_map]. apply IH; auto; [cbn in Hle; lia|]. intros i0 n0 K. apply (HN i0). now right.
      + cbn [inst flat_map inst1 app paired] in HP. cbn [inst flat_map inst1 app run trun fst snd].
        assert (K : run_action lo n (nth i vs []) (tplug vs t) = Some (tplug vs (push (Some (hole_leaf i)) t))).
        { rewrite <- tplug_push. cbn [option_map plug hole_leaf is_hole nType nVType nBool nInt]. rewrite Nat2Z.id. destruct (HN i n (or_introl eq_refl)) as [->| ->]; reflexivity. }
        rewrite K. apply IH; auto; [cbn in Hle; lia| |].
        * intros i0 n0 K0. apply (HN i0). now right.
        * apply nl_push; [|exact Ht]. intros _. reflexivity.
  Qed.
End Act.

(** accepted events are paired *)
Lemma paired_app : forall a b, paired a = true -> paired (a ++ b) = paired b.
Proof.
  intro a. remember (length a) as k eqn:Hk. assert (Hle : length a <= k) by lia. clear Hk. revert a Hle. induction k as [|k IH]; intros a Hle b H.
  - destruct a; [reflexivity|cbn in Hle; lia].
  - destruct a as [|[s|n] a]; [reflexivity| |]; cbn [paired app] in *.
    + destruct a as [|[s2|n] a]; try discriminate H. cbn [app]. apply IH; [cbn in Hle; lia|exact H].
    + apply andb_true_iff in H as [H1 H2]. rewrite H1. cbn [andb]. apply IH; [cbn in Hle; lia|exact H2].
Qed.
Lemma paired_app_ok : forall a b, paired a = true -> paired b = true -> paired (a ++ b) = true.
Proof. intros a b Ha Hb. now rewrite paired_app. Qed.
Lemma paired_concat : forall A (f : A -> list event) l, (forall x, In x l -> paired (erase (f x)) = true) -> paired (erase (concat (map f l))) = true.
Proof.
  induction l as [|x l IH]; intro H; [reflexivity|]. cbn [map concat]. rewrite erase_app. apply paired_app_ok; [apply H; now left|]. apply IH. intros; apply H; now right.
Qed.
Lemma paired_lit : forall l, paired (erase (lit_ev l)) = true.
Proof. intros [[|] s|ds|w|w]; reflexivity. Qed.
Lemma paired_arr : forall p ls, paired (erase (arr_ev p ls)) = true.
Proof.
  intros p ls. unfold arr_ev, lits_ev. rewrite !erase_app. apply paired_app_ok; [destruct p; reflexivity|]. apply paired_app_ok; [|destruct p; reflexivity].
  apply paired_concat. intros; apply paired_lit.
Qed.
Lemma paired_val : forall v, paired (erase (val_ev v)) = true.
Proof. intros [l|p ls]; [apply paired_lit|apply paired_arr]. Qed.
Lemma paired_ids : forall xs, paired (erase (ids_ev xs)) = true.
Proof. intro xs. apply paired_concat. reflexivity. Qed.
Lemma cmp_small : forall o, Nat.leb 30 (cmp_act o) = false /\ Nat.leb 30 (logic_act o) = false.
Proof. intro o. unfold cmp_act, logic_act. split; destruct o; repeat match goal with |- context [if ?b then _ else _] => destruct b end; reflexivity. Qed.
Lemma paired_evs : forall e, paired (erase (evs e)) = true.
Proof.
  fix IH 1. intro e. destruct e; cbn [evs]; rewrite ?erase_app.
  - apply paired_val.
  - reflexivity.
  - apply paired_app_ok; [reflexivity|]. apply paired_app_ok; [apply paired_ids|reflexivity].
  - apply paired_app_ok; [reflexivity|]. apply paired_app_ok; [apply paired_ids|reflexivity].
  - apply paired_app_ok; [reflexivity|]. apply paired_app_ok; [reflexivity|]. apply paired_app_ok; [|reflexivity].
    induction args as [|x l IHl]; [reflexivity|]. cbn [map concat]. rewrite erase_app. apply paired_app_ok; [apply IH|exact IHl].
  - apply paired_app_ok; [apply IH|reflexivity].
  - apply paired_app_ok; [apply IH|]. apply paired_app_ok; [reflexivity|]. apply paired_app_ok; [apply paired_val|]. apply paired_app_ok; [apply paired_val|].
    apply paired_app_ok; [destruct bracket; reflexivity|reflexivity].
  - apply paired_app_ok; [apply IH|reflexivity].
  - apply paired_app_ok; [apply IH|]. apply paired_app_ok; [reflexivity|]. apply paired_app_ok; [apply paired_arr|reflexivity].
  - apply paired_app_ok; [apply IH|]. apply paired_app_ok; [|apply paired_app_ok; [apply IH|reflexivity]]. cbn [erase filter ghost negb]. now rewrite (proj1 (cmp_small op)).
  - apply paired_app_ok; [apply IH|reflexivity].
  - apply paired_app_ok; [apply IH|]. apply paired_app_ok; [|apply paired_app_ok; [apply IH|reflexivity]]. cbn [erase filter ghost negb]. now rewrite (proj2 (cmp_small op)).
Qed.
Lemma accepted_evs : forall q ev r, mm (PRule rGrammar) q (Some (ev, r)) -> r = [] /\ exists e, reads q e /\ ev = erase (evs e).
Proof.
  intros q ev r H. pose proof (grammar_matches q _ H) as K. destruct (GrammarProofs.E (PRule rGrammar) q) as [[ev0 r0]|] eqn:HE; [|discriminate K].
  destruct (grammar_sound _ _ _ HE) as (_ & e & He & _). pose proof (grammar_reads q e He) as K2. pose proof (matches_det _ _ _ _ H _ K2) as K3.
  injection K3 as <- <-. eauto.
Qed.

(** ** The theorem *)
Definition fits_in (h : holes) (b : list N) (vs : list (list N)) : Prop := suitable h vs /\ valid_runes (fill h b vs).
Lemma fill_family : forall h b (good : list (list N) -> Prop) i, (forall vs, good vs -> suitable h (skipn i vs)) -> (exists vs, good vs) ->
  family good i (i + length h) (fun vs => fill h b (skipn i vs)).
Proof.
  induction h as [|[a c] h IH]; intros b good i H [v0 H0].
  - cbn [length]. rewrite Nat.add_0_r. apply (fam_end good i b). intros vs Hv. reflexivity.
  - assert (K : forall vs, good vs -> skipn i vs = nth i vs [] :: skipn (S i) vs).
    { intros vs Hv. pose proof (H vs Hv) as K. clear -K. revert vs K. induction i as [|i IHi]; intros vs K.
      - cbn [skipn] in *. inversion K; subst. reflexivity.
      - destruct vs as [|v vs]; [inversion K|]. cbn [skipn nth] in *. rewrite (IHi vs K). reflexivity. }
    assert (HH : forall vs, good vs -> place_after Code a = Code /\ is_quote c = true /\ mem c (nth i vs []) = false /\ suitable h (skipn (S i) vs)).
    { intros vs Hv. pose proof (H vs Hv) as X. rewrite (K vs Hv) in X. inversion X; subst. cbn [fst snd] in *. intuition. }
    cbn [length]. rewrite Nat.add_succ_r. destruct (HH v0 H0) as (A1 & A2 & _).
    eapply (fam_hole good i _ a c _ (fun vs => fill h b (skipn (S i) vs))); auto.
    + intros vs Hv. now destruct (HH vs Hv) as (_ & _ & X & _).
    + intros vs Hv. cbn beta. rewrite (K vs Hv). reflexivity.
    + change (S (i + length h)) with (S i + length h). apply IH; [|eauto]. intros vs Hv. now destruct (HH vs Hv) as (_ & _ & _ & X).
Qed.
(** one run of the grammar for all fillings *)
Lemma template_run : forall h b v0, fits_in h b v0 ->
  (forall vs, fits_in h b vs -> mm (PRule rGrammar) (fill h b vs) None) \/
  exists L, tholes L = seq 0 (length h) /\ (forall i n, In (TH i n) L -> n = 28 \/ n = 29) /\ forall vs, fits_in h b vs -> mm (PRule rGrammar) (fill h b vs) (Some (inst vs L, [])).
Proof.
  intros h b v0 H0. destruct (rules_total rGrammar (fill h b v0)) as (o & H).
  pose proof (fill_family h b (fits_in h b) 0 (fun vs K => proj1 K) (ex_intro _ v0 H0)) as F. cbn [skipn Nat.add] in F.
  pose proof (both_sim (fits_in h b) v0 H0 _ _ _ H eq_refl 0 (length h) _ eq_refl F) as S. destruct o as [[ev r]|]; [right|left; exact S].
  destruct (accepted_evs _ _ _ H) as [-> _].
  destruct S as (L & i' & g & _ & Hr & _ & T & HN & Fg & M). pose proof (family_done _ v0 H0 _ _ _ Fg (eq_sym Hr)) as ->. rewrite Nat.sub_0_r in T.
  exists L. split; [exact T|]. split; [exact HN|]. intros vs Hv. pose proof (M vs Hv) as K. destruct (accepted_evs _ _ _ K) as [E _]. now rewrite E in K.
Qed.
Lemma template_parse : forall lo h b, (exists vs, fits_in h b vs) ->
  (exists T, forall vs, fits_in h b vs -> parse lo (fill h b vs) = Ok (oplug vs T)) \/
  (exists e, forall vs, fits_in h b vs -> parse lo (fill h b vs) = Err e) \/
  (forall vs, fits_in h b vs -> exists b' e', parse lo (fill h b vs) = Err (PESyntax b' e')).
Proof.
  intros lo h b (v0 & H0). destruct (template_run h b v0 H0) as [H|(L & _ & HN & H)].
  - right. right. intros vs Hv. exact (parse_from_matches lo _ _ (proj2 Hv) (H vs Hv)).
  - assert (R : forall vs, fits_in h b vs -> exists t, trun lo L ([], tree0) = Some t /\
      parse lo (fill h b vs) = match tErrors (snd t) with x :: _ => Err x | [] => Ok (oplug vs (fst (pop (snd t)))) end).
    { intros vs Hv. pose proof (H vs Hv) as M. destruct (parse_from_matches lo _ _ (proj2 Hv) M) as (x & t & R1 & ->).
      destruct (accepted_evs _ _ _ M) as (_ & e & _ & Ee). assert (HP : paired (inst vs L) = true) by (rewrite Ee; apply paired_evs).
      pose proof (run_plug lo vs L HN HP [] [] tree0 ltac:(constructor)) as K. change (tplug vs tree0) with tree0 in K. rewrite R1 in K. cbn [option_map snd] in K.
      destruct (trun lo L ([], tree0)) as [[y u]|]; [|discriminate K]. injection K as ->. exists (y, u). split; [reflexivity|]. cbn [snd].
      rewrite tplug_pop. reflexivity. }
    destruct (R v0 H0) as ([y u] & TR & _). destruct (tErrors u) as [|e l] eqn:TE.
    + left. exists (fst (pop u)). intros vs Hv. destruct (R vs Hv) as (t & T2 & ->). rewrite T2 in TR. injection TR as ->. cbn [snd]. now rewrite TE.
    + right. left. exists e. intros vs Hv. destruct (R vs Hv) as (t & T2 & ->). rewrite T2 in TR. injection TR as ->. cbn [snd]. now rewrite TE.
Qed.
