(** Proofs for C92. *)
From Coq Require Import Lia.
From Verif Require Import Base Peg Grammar Node Vocab Tree Parse Syntax ParseProofs ParserFacts ParserFacts2 ParserMain Sound Unique Build NodeFacts SqlScope BracketSpec.
Strategy expand [parse_machine rule_trace].
Strategy 1000 [parse_fuel mrun tok_trace].

(** ** The scanner *)
Lemma scan_app : forall t u s, scan (t ++ u) s = match scan t s with Some s' => scan u s' | None => None end.
Proof. induction t as [|c t IH]; intros u s; [reflexivity|]. cbn [app scan]. destruct (scan_step c s); [apply IH|reflexivity]. Qed.
Lemma code_frame : forall c k m k' j, code_step c k = Some (m, k') -> code_step c (k ++ j) = Some (m, k' ++ j).
Proof.
  intros c k m k' j. unfold code_step. repeat match goal with |- context [if ?b then _ else _] => destruct b end; intro H; try (injection H as <- <-; reflexivity).
  destruct k as [|b k]; [discriminate|]. cbn [app]. destruct (b =? c)%N; [injection H as <- <-; reflexivity|discriminate].
Qed.
Lemma step_frame : forall c m k m' k' j, scan_step c (m, k) = Some (m', k') -> scan_step c (m, k ++ j) = Some (m', k' ++ j).
Proof.
  intros c m k m' k' j H. destruct m; cbn [scan_step] in *; try (now apply code_frame);
    repeat match goal with H : context [if ?b then _ else _] |- _ => destruct b end; try (now apply code_frame); injection H as <- <-; reflexivity.
Qed.
Lemma scan_frame : forall t m k m' k' j, scan t (m, k) = Some (m', k') -> scan t (m, k ++ j) = Some (m', k' ++ j).
Proof.
  induction t as [|c t IH]; intros m k m' k' j H; cbn [scan] in *; [now injection H as <- <-|].
  destruct (scan_step c (m, k)) as [[m1 k1]|] eqn:E; [|discriminate]. rewrite (step_frame c m k m1 k1 j E). now apply IH.
Qed.
Definition calm (t : list N) : Prop := forall k, scan t (Code, k) = Some (Code, k).
Lemma calm_balanced : forall t, balanced t <-> calm t.
Proof. intro t. split; [intros H k|intro H; exact (H [])]. exact (scan_frame t Code [] Code [] k H). Qed.
Lemma calm_nil : calm [].
Proof. now intro. Qed.
Lemma calm_app : forall t u, calm t -> calm u -> calm (t ++ u).
Proof. intros t u H1 H2 k. now rewrite scan_app, H1. Qed.
(** Inside a calm text no bracket of the outside is closed. *)
Lemma calm_prefix : forall t u, calm (t ++ u) -> exists m k, scan t (Code, []) = Some (m, k) /\ forall j, scan t (Code, j) = Some (m, k ++ j).
Proof.
  intros t u H. specialize (H []). rewrite scan_app in H. destruct (scan t (Code, [])) as [[m k]|] eqn:E; [|discriminate].
  exists m, k. split; [reflexivity|]. intro j. exact (scan_frame t Code [] m k j E).
Qed.
Lemma closes : forall m c (k : list N), outside m = true -> c = 41%N \/ c = 93%N -> scan_step c (m, []) = None.
Proof. intros m c k O [->| ->]; destruct m; try discriminate O; reflexivity. Qed.
Lemma first_return : forall u x c c' r r', calm u -> calm x -> c = 41%N \/ c = 93%N -> c' = 41%N \/ c' = 93%N -> u ++ c :: r = x ++ c' :: r' -> u = x.
Proof.
  assert (K : forall u x c r, calm u -> calm x -> c = 41%N \/ c = 93%N -> x <> u ++ c :: r).
  { intros u x c r Hu Hx Hc E. subst x. specialize (Hx []). rewrite scan_app, Hu in Hx. cbn [scan] in Hx. rewrite (closes Code c [] eq_refl Hc) in Hx. discriminate. }
  intros u x c c' r r' Hu Hx Hc Hc' E. apply app_eq_app in E as (l & [[E1 E2]|[E1 E2]]).
  - destruct l as [|b l]; [now rewrite app_nil_r in E1|]. cbn in E2. injection E2 as E2 E3. subst b. subst u. exfalso. exact (K x _ c' l Hx Hu Hc' eq_refl).
  - destruct l as [|b l]; [now rewrite app_nil_r in E1|]. cbn in E2. injection E2 as E2 E3. subst b. subst x. exfalso. exact (K u _ c l Hu Hx Hc eq_refl).
Qed.

(** ** Texts whose parentheses hold what they should *)
Definition fine (t : list N) : Prop := calm t /\ forall A x B, t = A ++ 40%N :: x ++ 41%N :: B -> in_code A -> calm x -> holds A x.
Lemma holds_app : forall A0 A x, holds A x -> holds (A0 ++ A) x.
Proof. intros A0 A x [H|[H|(H & A' & c & -> & I)]]; [now left|right; now left|]. right; right. split; [exact H|]. exists (A0 ++ A'), c. now rewrite app_assoc. Qed.
Lemma outside_open : forall m k, outside m = true -> scan_step 40%N (m, k) = Some (Code, 41%N :: k).
Proof. intros m k O. destruct m; try discriminate O; reflexivity. Qed.
Lemma in_code_app : forall t A, calm t -> (in_code (t ++ A) <-> in_code A).
Proof. intros t A H. unfold in_code. split; intros (m & k & E & O); exists m, k; rewrite scan_app, H in *; auto. Qed.

(** A parenthesis opened in a calm text is closed there. *)
Lemma closed_inside : forall A t1 x r t2, calm (A ++ 40%N :: t1) -> in_code A -> calm x -> t1 ++ t2 = x ++ 41%N :: r -> exists r1, t1 = x ++ 41%N :: r1 /\ r = r1 ++ t2.
Proof.
  intros A t1 x r t2 H (m & k & E & O) Hx K. apply app_eq_app in K as (l & [[E1 E2]|[E1 E2]]).
  - destruct l as [|b l].
    + rewrite app_nil_r in E1. subst t1. exfalso. specialize (H []). rewrite scan_app, E in H. cbn [scan] in H. rewrite (outside_open m k O), Hx in H. discriminate.
    + injection E2 as <- E2. exists l. now split.
  - exfalso. subst x. destruct (calm_prefix t1 l Hx) as (m1 & k1 & _ & F). specialize (H []). rewrite scan_app, E in H. cbn [scan] in H. rewrite (outside_open m k O), F in H.
    destruct k1; discriminate.
Qed.
Lemma fine_app : forall t u, fine t -> fine u -> fine (t ++ u).
Proof.
  intros t u [C1 F1] [C2 F2]. split; [now apply calm_app|]. intros A x B E I Hx. apply app_eq_app in E as (l & [[E1 E2]|[E1 E2]]).
  - destruct l as [|b l].
    + rewrite app_nil_r in E1. subst t. cbn in E2. rewrite <- (app_nil_r A). apply holds_app. apply (F2 [] x B); auto. now exists Code, [].
    + injection E2 as <- E2. subst t. symmetry in E2. destruct (closed_inside A l x B u C1 I Hx E2) as (r1 & -> & ->). apply (F1 A x r1); auto.
  - subst A. apply holds_app. apply (F2 l x B E2); auto. now apply in_code_app in I.
Qed.
Lemma fine_nil : fine [].
Proof. split; [exact calm_nil|]. intros A x B E. destruct A; discriminate. Qed.

(** ** Characters that do nothing *)
Definition dull (c : N) : bool := negb (mem c [40; 41; 91; 93; 39; 34; 45; 47]%N).
Lemma dull_step : forall c k, dull c = true -> code_step c k = Some (Code, k).
Proof.
  intros c k H. unfold dull, mem in H. cbn [existsb] in H. rewrite negb_true_iff in H. repeat (apply orb_false_elim in H as [? H]).
  unfold code_step. repeat match goal with K : (c =? _)%N = false |- _ => rewrite K; clear K end. reflexivity.
Qed.
Lemma fine_dull : forall t, forallb dull t = true -> fine t.
Proof.
  intros t H. split.
  - intro k. induction t as [|c t IH]; [reflexivity|]. cbn [forallb] in H. apply andb_prop in H as [H1 H2]. cbn [scan scan_step]. rewrite dull_step by exact H1. now apply IH.
  - intros A x B -> _ _. rewrite forallb_app in H. apply andb_prop in H as [_ H]. discriminate.
Qed.
Lemma fine_char : forall c, dull c = true -> fine [c].
Proof. intros c H. apply fine_dull. cbn. now rewrite H. Qed.

(** ** Strings and comments *)
Lemma scan_quoted : forall q s k, mem q s = false -> scan s (Quoted q, k) = Some (Quoted q, k).
Proof.
  intros q s k. induction s as [|c s IH]; intro H; [reflexivity|]. cbn [mem existsb] in H. apply orb_false_elim in H as [H1 H2]. cbn [scan scan_step].
  rewrite N.eqb_sym, H1. now apply IH.
Qed.
Lemma mem_app : forall q s t, mem q (s ++ t) = mem q s || mem q t.
Proof. intros q s t. unfold mem. apply existsb_app. Qed.
Lemma fine_string : forall q s, q = 39%N \/ q = 34%N -> mem q s = false -> fine (q :: s ++ [q]).
Proof.
  intros q s Hq H. assert (Q : forall k, scan_step q (Code, k) = Some (Quoted q, k)) by (destruct Hq as [->| ->]; reflexivity). split.
  - intro k. cbn [scan]. rewrite Q, scan_app, scan_quoted by exact H. cbn [scan scan_step]. now rewrite N.eqb_refl.
  - intros A x B E I _. exfalso. destruct A as [|a A]; [injection E as E _; destruct Hq; subst; discriminate|]. injection E as <- E.
    assert (P : exists s', s = A ++ s').
    { apply app_eq_app in E as (l & [[E1 E2]|[E1 E2]]); [now exists l|]. destruct l as [|b l]; [exists []; rewrite E1; now rewrite !app_nil_r|].
      injection E2 as E2 E3. destruct l; discriminate. }
    destruct P as (s' & ->). rewrite mem_app in H. apply orb_false_elim in H as [H _]. destruct I as (m & k & I & O). cbn [scan] in I. rewrite Q, scan_quoted in I by exact H.
    injection I as <- <-. discriminate.
Qed.
Lemma scan_comment : forall s k, forallb (fun x => negb (line_end x)) s = true -> scan s (Comment, k) = Some (Comment, k).
Proof.
  intros s k. induction s as [|c s IH]; intro H; [reflexivity|]. cbn [forallb] in H. apply andb_prop in H as [H1 H2]. apply negb_true_iff in H1. cbn [scan scan_step].
  rewrite H1. now apply IH.
Qed.
Lemma fine_comment : forall m body c, m = #"--" \/ m = #"//" -> forallb (fun x => negb (line_end x)) body = true -> line_end c = true -> fine (m ++ body ++ [c]).
Proof.
  intros m body c Hm H Hc. assert (Q : forall k, scan m (Code, k) = Some (Comment, k)) by (destruct Hm as [->| ->]; reflexivity). split.
  - intro k. rewrite scan_app, Q, scan_app, scan_comment by exact H. cbn [scan scan_step]. now rewrite Hc.
  - intros A x B E I _. exfalso. assert (P : exists A' s', A = m ++ A' /\ body = A' ++ s').
    { assert (Z : exists A', A = m ++ A' /\ body ++ [c] = A' ++ 40%N :: x ++ 41%N :: B).
      { destruct Hm as [->| ->]; (destruct A as [|a [|a' A]]; [discriminate E|discriminate E|]); injection E as <- <- E; exists A; now split. }
      destruct Z as (A' & -> & E'). exists A'. apply app_eq_app in E' as (l & [[E1 E2]|[E1 E2]]); [exists l; now split|]. destruct l as [|b l]; [exists []; rewrite E1; now rewrite !app_nil_r|].
      injection E2 as E2 E3. destruct l; discriminate. }
    destruct P as (A' & s' & -> & ->). rewrite forallb_app in H. apply andb_prop in H as [H _]. destruct I as (n & k & I & O). rewrite scan_app, Q, scan_comment in I by exact H.
    injection I as <- <-. discriminate.
Qed.
Lemma fine_blank : forall w, blank w -> fine w.
Proof.
  induction 1 as [|c w H _ IH|m body c w Hm Hb Hc _ IH]; [exact fine_nil| |].
  - apply (fine_app [c]); [|exact IH]. apply fine_char. cbn [mem existsb] in H. repeat (apply orb_prop in H as [H|H]; [apply N.eqb_eq in H; now subst c|]). discriminate.
  - replace (m ++ body ++ c :: w) with ((m ++ body ++ [c]) ++ w) by now rewrite <- !app_assoc. apply fine_app; [now apply fine_comment|exact IH].
Qed.

(** ** Brackets *)
Lemma calm_brackets : forall b u, calm u -> calm (opening b ++ u ++ closing b).
Proof. intros b u H k. destruct b; cbn; rewrite scan_app, H; reflexivity. Qed.
Lemma open_cases : forall u A x B, fine u -> #"(" ++ u ++ #")" = A ++ 40%N :: x ++ 41%N :: B -> in_code A -> calm x -> (A = [] /\ x = u) \/ holds A x.
Proof.
  intros u A x B [C F] E I Hx. destruct A as [|a A].
  - cbn in E. injection E as E. change (u ++ [41%N] = x ++ 41%N :: B) in E. left. now rewrite (first_return u x 41%N 41%N [] B C Hx (or_introl eq_refl) (or_introl eq_refl) E).
  - right. cbn in E. injection E as <- E. change (u ++ [41%N] = A ++ 40%N :: x ++ 41%N :: B) in E. change (40%N :: A) with ([40%N] ++ A). apply holds_app.
    apply app_eq_app in E as (l & [[E1 E2]|[E1 E2]]).
    + destruct l as [|b l]; [discriminate|]. injection E2 as <- E2. symmetry in E2.
      assert (I' : in_code A).
      { destruct I as (m & k & I & O). cbn in I. rewrite E1 in C. destruct (calm_prefix A _ C) as (m1 & k1 & S & S'). rewrite S' in I. injection I as -> <-. now exists m, k1. }
      rewrite E1 in C. destruct (closed_inside A l x B [41%N] C I' Hx E2) as (r1 & -> & ->). apply (F A x r1); auto.
    + destruct l as [|b l]; [discriminate E2|]. injection E2 as E2 E3. destruct l; discriminate.
Qed.
Lemma fine_open : forall u, fine u -> (forall A, holds A u) -> fine (#"(" ++ u ++ #")").
Proof.
  intros u F G. split; [exact (calm_brackets true u (proj1 F))|]. intros A x B E I Hx. destruct (open_cases u A x B F E I Hx) as [[-> ->]|H]; [apply G|exact H].
Qed.
Lemma fine_square : forall u, fine u -> fine (#"[" ++ u ++ #"]").
Proof.
  intros u [C F]. split; [exact (calm_brackets false u C)|]. intros A x B E I Hx. destruct A as [|a A]; [discriminate|].
  cbn in E. injection E as <- E. change (u ++ [93%N] = A ++ 40%N :: x ++ 41%N :: B) in E. change (91%N :: A) with ([91%N] ++ A). apply holds_app.
  apply app_eq_app in E as (l & [[E1 E2]|[E1 E2]]).
  - destruct l as [|b l]; [discriminate|]. injection E2 as <- E2. symmetry in E2.
    assert (I' : in_code A).
    { destruct I as (m & k & I & O). cbn in I. rewrite E1 in C. destruct (calm_prefix A _ C) as (m1 & k1 & S & S'). rewrite S' in I. injection I as -> <-. now exists m, k1. }
    rewrite E1 in C. destruct (closed_inside A l x B [93%N] C I' Hx E2) as (r1 & -> & ->). apply (F A x r1); auto.
  - destruct l as [|b l]; [discriminate E2|]. injection E2 as E2 E3. destruct l; discriminate.
Qed.

(** ** Words *)
Lemma idchar_dull : forall c, idchar c = true -> dull c = true.
Proof.
  intros c H. unfold dull. apply negb_true_iff. unfold mem. cbn [existsb]. repeat (apply orb_false_intro; [apply N.eqb_neq; intros ->; discriminate H|]). reflexivity.
Qed.
Lemma idchars_dull : forall s, forallb idchar s = true -> forallb dull s = true.
Proof. intros s H. rewrite forallb_forall in *. auto using idchar_dull. Qed.
Lemma ident_chars : forall x, ident x -> forallb idchar x = true.
Proof. intros x [(c & r & -> & L & F) _]. cbn. rewrite F, andb_true_r. unfold idchar. now rewrite L. Qed.
Lemma ident_fine : forall x, ident x -> fine x.
Proof. intros x H. apply fine_dull. now apply idchars_dull, ident_chars. Qed.
Lemma lower_letter : forall c d, ascii_lower c = d -> letter d = true -> letter c = true.
Proof.
  intros c d <-. unfold ascii_lower. destruct ((65 <=? c) && (c <=? 90))%N eqn:E; [|auto]. intros _. unfold letter. rewrite E. apply orb_true_r.
Qed.
Lemma ci_fine : forall w o, forallb letter w = true -> ci w o -> fine o.
Proof.
  intros w o H <-. apply fine_dull, idchars_dull. rewrite forallb_forall in *. intros c I. unfold idchar. rewrite (lower_letter c _ eq_refl); [reflexivity|]. apply H. now apply in_map.
Qed.
Lemma gap1_fine : forall w, gap1 w -> fine w.
Proof. intros w [H _]. now apply fine_blank. Qed.
Lemma not_then_fine : forall x o, fine x -> not_then x o -> fine o.
Proof. intros x o H (n & g & N1 & G & ->). apply fine_app; [now apply (ci_fine #"not")|]. apply fine_app; [now apply gap1_fine|exact H]. Qed.
Lemma op_between_fine : forall o, op_between o -> fine o.
Proof. intros o [->|H]; [now apply fine_dull|]. apply (not_then_fine _ o) in H; [exact H|now apply fine_dull]. Qed.
Lemma op_match_fine : forall o, op_match o -> fine o.
Proof.
  assert (T : forall x, tfn x -> fine x) by (intros x [<-|[<-|[<-|[]]]]; now apply fine_dull).
  intros o [->|[->|[(g & x & G & X & ->)|(g & g' & x & G & G' & X & ->)]]]; repeat apply fine_app; auto using gap1_fine; now apply fine_dull.
Qed.
Lemma op_in_fine : forall o, op_in o -> fine o.
Proof. intros o [H|(x & X & H)]; [now apply (ci_fine #"in")|]. apply (not_then_fine x o); [now apply (ci_fine #"in")|exact H]. Qed.
Lemma op_cmp_fine : forall o, op_cmp o -> fine o.
Proof.
  intros o [H|H]; [apply fine_dull; cbn in H; decompose [or] H; subst; try contradiction; reflexivity|].
  decompose [or] H; [now apply (ci_fine #"gt")|now apply (ci_fine #"lt")|now apply (ci_fine #"eq")|now apply (ci_fine #"neq")|now apply (ci_fine #"like")|].
  match goal with K : exists _, _ |- _ => destruct K as (x & X & K); apply (not_then_fine x o); [now apply (ci_fine #"like")|exact K] end.
Qed.
Lemma op_logic_fine : forall o, op_logic o -> fine o.
Proof. intros o [H|[H|[->| ->]]]; [now apply (ci_fine #"and")|now apply (ci_fine #"or")|now apply fine_dull|now apply fine_dull]. Qed.

(** ** Values *)
Lemma digits_dull : forall s, forallb is_digit s = true -> forallb dull s = true.
Proof. intros s H. apply idchars_dull. rewrite forallb_forall in *. intros c I. unfold idchar. rewrite (H c I). now rewrite orb_true_r. Qed.
Lemma lit_fine : forall l t, lit_text l t -> fine t.
Proof.
  intros l t H. destruct H as [s H|s H| |c ds H1 H2 H3|w H|w H].
  - apply fine_string; auto.
  - apply fine_string; auto.
  - now apply fine_dull.
  - apply fine_dull, digits_dull. cbn. now rewrite H1.
  - cbn in H. decompose [or] H; subst; try contradiction; now apply fine_dull.
  - cbn in H. decompose [or] H; subst; try contradiction; now apply fine_dull.
Qed.
Lemma comma_fine : fine #",".
Proof. now apply fine_dull. Qed.
Lemma lits_fine : forall ls t, lits_text ls t -> fine t.
Proof. induction 1; [eapply lit_fine; eassumption|]. repeat apply fine_app; auto using fine_blank, comma_fine. eapply lit_fine; eassumption. Qed.
Lemma arr_inner : forall p c ls t, arr_text p c ls t -> exists u, t = opening p ++ u ++ closing p /\ fine u.
Proof.
  intros p c ls t H. destruct H as [w W|ls t w1 w2 L W1 W2|ls t w1 w2 w3 L W1 W2 W3].
  - exists w. split; [reflexivity|now apply fine_blank].
  - exists (w1 ++ t ++ w2). rewrite <- !app_assoc. split; [reflexivity|]. repeat apply fine_app; auto using fine_blank. now apply (lits_fine ls).
  - exists (w1 ++ t ++ w2 ++ #"," ++ w3). rewrite <- !app_assoc. split; [reflexivity|]. repeat apply fine_app; auto using fine_blank, comma_fine. now apply (lits_fine ls).
Qed.
Lemma arr_fine : forall p c ls t, arr_text p c ls t -> fine t.
Proof.
  intros p c ls t H. destruct (arr_inner p c ls t H) as (u & -> & F). destruct p; [|now apply fine_square]. apply fine_open; [exact F|]. intro A. right; left. now exists c, ls.
Qed.
Lemma val_fine : forall v t, val_text v t -> fine t.
Proof. intros v t [l t' H|p c ls t' H]; [now apply (lit_fine l)|now apply (arr_fine p c ls)]. Qed.
Lemma names_fine : forall s xs, Forall ident xs -> fine s -> fine (join_with s xs).
Proof.
  intros s xs H S. induction H as [|x xs I H IH]; [exact fine_nil|]. destruct xs as [|y xs]; [now apply ident_fine|].
  change (join_with s (x :: y :: xs)) with (x ++ s ++ join_with s (y :: xs)). apply fine_app; [now apply ident_fine|now apply fine_app].
Qed.
Lemma arrow_fine : fine #"->".
Proof. split; [now intro|]. intros A x B E _ _. destruct A as [|a [|b [|c A]]]; discriminate. Qed.
Lemma call_fine : forall f args u, ident f -> fine u -> lay (ECall f args) (f ++ #"(" ++ u ++ #")") -> fine (f ++ #"(" ++ u ++ #")").
Proof.
  intros f args u I F L. assert (FF := ident_fine f I). split; [apply calm_app; [apply FF|exact (calm_brackets true u (proj1 F))]|].
  intros A x B E IC Hx. assert (K : exists A', A = f ++ A' /\ #"(" ++ u ++ #")" = A' ++ 40%N :: x ++ 41%N :: B).
  { apply app_eq_app in E as (l & [[E1 E2]|[E1 E2]]); [|now exists l]. destruct l as [|b l]; [exists []; rewrite app_nil_r in *; now split|].
    exfalso. injection E2 as <- E2. subst f. pose proof (idchars_dull _ (ident_chars _ I)) as Q. rewrite forallb_app in Q. apply andb_prop in Q as [_ Q]. discriminate. }
  destruct K as (A' & -> & E'). apply in_code_app in IC; [|apply FF]. destruct (open_cases u A' x B F E' IC Hx) as [[-> ->]|H]; [|now apply holds_app].
  rewrite app_nil_r. right; right. split; [now exists f, args|]. pose proof (ident_chars f I) as Q. destruct I as [(c & r & -> & _) _].
  destruct (@exists_last _ (c :: r) ltac:(discriminate)) as (A' & d & K). rewrite K in *. exists A', d. split; [reflexivity|].
  rewrite forallb_app in Q. apply andb_prop in Q as [_ Q]. cbn in Q. now rewrite andb_true_r in Q.
Qed.

(** ** Queries *)
Lemma lay_fine : (forall e t, lay e t -> fine t) /\ (forall es t, lays es t -> fine t).
Proof.
  apply lay_lays_ind; intros.
  - now apply (lit_fine l).
  - now apply (arr_fine p c ls).
  - now apply ident_fine.
  - apply names_fine; [assumption|now apply fine_dull].
  - apply names_fine; [assumption|exact arrow_fine].
  - apply (call_fine f []); [assumption|now apply fine_blank|now constructor].
  - replace (f ++ #"(" ++ w1 ++ t ++ w2 ++ #")") with (f ++ #"(" ++ (w1 ++ t ++ w2) ++ #")") by now rewrite <- !app_assoc.
    apply (call_fine f args); [assumption| |rewrite <- !app_assoc; now constructor]. repeat apply fine_app; auto using fine_blank.
  - replace (f ++ #"(" ++ w1 ++ t ++ w2 ++ #"," ++ w3 ++ #")") with (f ++ #"(" ++ (w1 ++ t ++ w2 ++ #"," ++ w3) ++ #")") by now rewrite <- !app_assoc.
    apply (call_fine f args); [assumption| |rewrite <- !app_assoc; now constructor]. repeat apply fine_app; auto using fine_blank, comma_fine.
  - replace (#"(" ++ w1 ++ t ++ w2 ++ #")") with (#"(" ++ (w1 ++ t ++ w2) ++ #")") by now rewrite <- !app_assoc.
    apply fine_open; [repeat apply fine_app; auto using fine_blank|]. intro A. left. exists e. now exists w1, t, w2.
  - repeat apply fine_app; auto using fine_blank, op_between_fine; try (eapply val_fine; eassumption). now apply (ci_fine #"and").
  - replace (t ++ w1 ++ o ++ w2 ++ #"[" ++ w3 ++ tlo ++ w4 ++ #"," ++ w5 ++ thi ++ w6 ++ #"]") with (t ++ w1 ++ o ++ w2 ++ #"[" ++ (w3 ++ tlo ++ w4 ++ #"," ++ w5 ++ thi ++ w6) ++ #"]") by now rewrite <- !app_assoc.
    do 4 (apply fine_app; [auto using fine_blank, op_between_fine|]). apply fine_square. repeat apply fine_app; auto using fine_blank, comma_fine; eapply val_fine; eassumption.
  - repeat apply fine_app; auto using gap1_fine, op_match_fine.
  - repeat apply fine_app; auto using fine_blank, op_in_fine. now apply (arr_fine p c ls).
  - repeat apply fine_app; auto using fine_blank, op_cmp_fine.
  - repeat apply fine_app; auto using gap1_fine. now apply (ci_fine #"not").
  - repeat apply fine_app; auto using fine_blank, op_logic_fine.
  - assumption.
  - repeat apply fine_app; auto using fine_blank, comma_fine.
Qed.
Lemma reads_fine : forall q e, reads q e -> fine q.
Proof. intros q e (w1 & t & w2 & -> & B1 & B2 & L). repeat apply fine_app; auto using fine_blank. now apply (proj1 lay_fine) in L. Qed.
Lemma reads_balanced : forall q e, reads q e -> balanced q.
Proof. intros q e H. apply calm_balanced. exact (proj1 (reads_fine q e H)). Qed.
Lemma reads_holds : forall q e A x B, reads q e -> q = A ++ #"(" ++ x ++ #")" ++ B -> in_code A -> balanced x -> holds A x.
Proof. intros q e A x B H E I Hx. apply calm_balanced in Hx. apply (proj2 (reads_fine q e H) A x B); auto. Qed.
Lemma listing_balanced : forall x, listing x -> balanced x.
Proof.
  intros x (c & ls & H). apply calm_balanced. destruct (arr_inner _ _ _ _ H) as (u & E & F). cbn [opening closing] in E. apply app_inv_head in E. apply app_inv_tail in E. subst u. apply F.
Qed.

(** ** Joined lists *)
Lemma texts_split : forall vs v, In v vs -> Forall balanced vs -> exists A B, and_texts vs = A ++ #" and " ++ #"(" ++ v ++ #")" ++ B /\ calm A.
Proof.
  induction vs as [|u vs IH]; intros v I F; [destruct I|]. inversion F as [|? ? Fu Fs]; subst. destruct I as [->|I].
  - exists [], (and_texts vs). split; [reflexivity|exact calm_nil].
  - destruct (IH v I Fs) as (A & B & E & C). exists (#" and " ++ (#"(" ++ u ++ #")") ++ A), B. cbn [and_texts]. rewrite E. split; [rewrite <- !app_assoc; reflexivity|].
    apply calm_app; [now intro|]. apply calm_app; [|exact C]. apply (calm_brackets true). now apply calm_balanced.
Qed.
Lemma join_split : forall x y l v, In v (filter (fun v => negb (blank_entry v)) (x :: y :: l)) -> Forall balanced (filter (fun v => negb (blank_entry v)) (x :: y :: l)) ->
  exists A B, join (x :: y :: l) = A ++ #"(" ++ v ++ #")" ++ B /\ in_code A /\ (A = [] \/ exists A', A = A' ++ #" ").
Proof.
  intros x y l v. destruct (join_shape x y l) as (vs & <- & ->). intros I F. destruct vs as [|u vs]; [destruct I|]. inversion F as [|? ? Fu Fs]; subst. destruct I as [->|I].
  - exists [], (and_texts vs). split; [reflexivity|]. split; [now exists Code, []|now left].
  - destruct (texts_split vs v I Fs) as (A & B & E & C). exists ((#"(" ++ u ++ #")") ++ A ++ #" and "), B. rewrite E. split; [rewrite <- !app_assoc; reflexivity|]. split.
    + apply in_code_app; [apply (calm_brackets true); now apply calm_balanced|]. apply in_code_app; [exact C|]. now exists Code, [].
    + right. exists ((#"(" ++ u ++ #")") ++ A ++ #" and"). rewrite <- !app_assoc. reflexivity.
Qed.
Lemma holds_operand : forall A x, holds A x -> (A = [] \/ exists A', A = A' ++ #" ") -> exists g, operand x g.
Proof.
  intros A x [(e & H)|[(c & ls & H)|(_ & A' & c & -> & I)]] S.
  - exists (EParen e). left. now exists e.
  - assert (D : (c = false /\ length ls = 1) \/ ~ (c = false /\ length ls = 1)).
    { destruct c; [right; intros [K _]; discriminate|]. destruct (Nat.eq_dec (length ls) 1) as [K|K]; [now left|right; now intros [_ ?]]. }
    destruct D as [[-> D]|D]; [|exists (EVal (VArr true ls)); right; now exists c, ls].
    destruct ls as [|l0 [|]]; try discriminate. exists (EParen (EVal (VLit l0))). left. eexists. split; [|reflexivity].
    remember (#"(" ++ x ++ #")") as u eqn:Eu. inversion H as [|ls t w1 w2 L W1 W2 E0 E1|]; subst; clear H. cbn [opening closing] in *.
    assert (E : x = w1 ++ t ++ w2).
    { apply (app_inv_head #"("). apply (app_inv_tail #")"). rewrite <- !app_assoc. symmetry. assumption. }
    subst x. exists w1, t, w2. inversion L as [? ? K|? ? ? ? ? ? ? ? ? K]; subst; [|inversion K]. repeat split; auto. now constructor.
  - exfalso. destruct S as [S|(A2 & S)]; [destruct A'; discriminate|]. apply app_inj_tail in S as [_ ->]. discriminate.
Qed.
Definition conj2 (l g : expr) : expr := ELogic l #"and" g.
Lemma operand_lay : forall x g, operand x g -> lay g (#"(" ++ x ++ #")") /\ level g = 0 /\ ends_ident g = false /\ ends_bracket g = false.
Proof.
  intros x g [(e & R & ->)|(c & ls & H & D & ->)]; (split; [|split; [reflexivity|split; reflexivity]]).
  - now apply lay_brackets.
  - apply (lay_arr true c ls); [exact H|]. intros (_ & K1 & K2). now apply D.
Qed.
Lemma lay_chain : forall vs gs, Forall2 operand vs gs -> forall l t, lay l t -> ends_ident l = false -> ends_bracket l = false ->
  lay (fold_left conj2 gs l) (t ++ and_texts vs).
Proof.
  induction 1 as [|v g vs gs R _ IH]; intros l t L I B; cbn [fold_left and_texts]; [now rewrite app_nil_r|].
  replace (t ++ #" and (" ++ v ++ #")" ++ and_texts vs) with ((t ++ #" " ++ #"and" ++ #" " ++ #"(" ++ v ++ #")") ++ and_texts vs) by now rewrite <- !app_assoc.
  destruct (operand_lay v g R) as (H1 & H2 & H3 & H4). apply IH; [|exact H3|exact H4].
  apply lay_logic; auto using spb; [lia|now left|intro K; congruence|intros [K _]; congruence].
Qed.
Lemma join_operands : forall x y l E, reads (join (x :: y :: l)) E -> Forall balanced (filter (fun v => negb (blank_entry v)) (x :: y :: l)) ->
  exists g gs, Forall2 operand (filter (fun v => negb (blank_entry v)) (x :: y :: l)) (g :: gs) /\ E = fold_left conj2 gs g.
Proof.
  intros x y l E R F.
  assert (K : exists gs, Forall2 operand (filter (fun v => negb (blank_entry v)) (x :: y :: l)) gs).
  { assert (K : forall v, In v (filter (fun v => negb (blank_entry v)) (x :: y :: l)) -> exists g, operand v g).
    { intros v I. destruct (join_split x y l v I F) as (A & B & EE & IC & S). apply (holds_operand A); [|exact S].
      apply (reads_holds _ E A v B R EE IC). now apply (proj1 (Forall_forall _ _) F). }
    clear -K. induction (filter (fun v => negb (blank_entry v)) (x :: y :: l)) as [|v vs IH]; [now exists []|].
    destruct (K v (or_introl eq_refl)) as (g & G). destruct IH as (gs & Gs); [intros u I; apply K; now right|]. exists (g :: gs). now constructor. }
  destruct K as (gs & K). destruct (join_shape x y l) as (vs & Ev & Ej). rewrite <- Ev in *. destruct K as [|v g vs gs G Gs].
  - exfalso. rewrite Ej in R. destruct R as (w1 & t & w2 & E' & _ & _ & L). symmetry in E'. apply app_eq_nil in E' as [_ E']. apply app_eq_nil in E' as [-> _]. clear -L. apply Sound.lay_len in L. inversion L.
  - exists g, gs. split; [now constructor|]. apply (reads_unique (join (x :: y :: l))); [exact R|]. rewrite Ej. destruct (operand_lay v g G) as (H1 & H2 & H3 & H4).
    exists [], ((#"(" ++ v ++ #")") ++ and_texts vs), []. rewrite app_nil_r, <- !app_assoc. split; [reflexivity|]. split; [constructor|]. split; [constructor|].
    rewrite (app_assoc v), (app_assoc #"("). now apply lay_chain.
Qed.
Lemma fits_operands : forall gs l, fits (fold_left conj2 gs l) = true -> fits l = true /\ forallb fits gs = true.
Proof.
  induction gs as [|g gs IH]; intros l H; [now split|]. cbn [fold_left] in H. apply IH in H as [H1 H2]. cbn [fits conj2] in H1. apply andb_prop in H1 as [H0 H1]. split; [exact H0|]. cbn. now rewrite H1.
Qed.
Lemma join_accepted : forall lo x y l n, Forall valid_runes (x :: y :: l) -> parse lo (join (x :: y :: l)) = Ok n ->
  Forall balanced (filter (fun v => negb (blank_entry v)) (x :: y :: l)) <->
  Forall (fun v => (exists m, parse lo v = Ok m) \/ listing v) (filter (fun v => negb (blank_entry v)) (x :: y :: l)).
Proof.
  intros lo x y l n V P. destruct (parse_ok_inv lo _ n (valid_join x y l V) P) as (E & R & Fi & _).
  assert (Vv : forall v, In v (filter (fun v => negb (blank_entry v)) (x :: y :: l)) -> valid_runes v) by (intros v I; apply filter_In in I as [I _]; now apply (proj1 (Forall_forall _ _) V)).
  split; intro F.
  - destruct (join_operands x y l E R F) as (g & gs & G & ->). apply fits_operands in Fi as [F0 F1].
    assert (FF : forallb fits (g :: gs) = true) by (cbn; now rewrite F0). clear F0 F1 P R F. revert G FF Vv. generalize (g :: gs) (filter (fun v => negb (blank_entry v)) (x :: y :: l)). clear. intros gs vs G.
    induction G as [|v g vs gs O _ IH]; intros FF Vv; constructor; cbn [forallb] in FF; apply andb_prop in FF as [F0 F1].
    + destruct O as [(e & R & ->)|(c & ls & H & _)]; [left|right; now exists c, ls]. apply (parse_ok_iff lo v); [apply Vv; now left|]. exists e. now split.
    + apply IH; [exact F1|]. intros u I. apply Vv. now right.
  - rewrite Forall_forall in *. intros v I. destruct (F v I) as [(m & H)|H]; [|now apply listing_balanced].
    destruct (parse_ok_inv lo v m (Vv v I) H) as (e & R' & _). now apply (reads_balanced v e).
Qed.
