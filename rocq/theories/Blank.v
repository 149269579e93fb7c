(** What the lexical rules of the grammar compute. *)
From Verif Require Import Base Peg Grammar PegProofs Node Vocab Tree Parse GrammarProofs Syntax.
Require Import Arith.

(** ** Inversion principles for the evaluator *)
Lemma E_seq : forall a b s, wf (PSeq a b) = true ->
  E (PSeq a b) s = match E a s with
    | Some (e1, s1) => match E b s1 with Some (e2, s2) => Some (e1 ++ e2, s2) | None => None end
    | None => None end.
Proof. exact (EE_seq _ pe). Qed.
Lemma E_alt : forall a b s, wf (PAlt a b) = true ->
  E (PAlt a b) s = match E a s with Some r => Some r | None => E b s end.
Proof. exact (EE_alt _ pe). Qed.
Lemma E_star : forall a s, wf (PStar a) = true ->
  E (PStar a) s = match E a s with
    | Some (e1, s1) => match E (PStar a) s1 with Some (e2, s2) => Some (e1 ++ e2, s2) | None => None end
    | None => Some ([], s) end.
Proof. exact (EE_star _ pe). Qed.
Lemma E_opt : forall a s, wf (POpt a) = true ->
  E (POpt a) s = match E a s with Some r => Some r | None => Some ([], s) end.
Proof. exact (EE_opt _ pe). Qed.
Lemma E_not : forall a s, wf (PNot a) = true ->
  E (PNot a) s = match E a s with Some _ => None | None => Some ([], s) end.
Proof. exact (EE_not _ pe). Qed.
Lemma E_cap : forall a s, wf (PCap a) = true ->
  E (PCap a) s = match E a s with
    | Some (e1, s1) => Some (e1 ++ [EText (consumed s s1)], s1) | None => None end.
Proof. exact (EE_cap _ pe). Qed.
Lemma E_rule : forall r s, E (PRule r) s = E (Gann r) s.
Proof. exact (EE_rule _ pe). Qed.
Lemma E_char : forall c s,
  E (PChar c) s = match s with x :: t => if (x =? c)%N then Some ([], t) else None | [] => None end.
Proof. exact (EE_char _ pe). Qed.
Lemma E_range : forall lo hi s,
  E (PRange lo hi) s = match s with
    | x :: t => if (x <? lo)%N || (hi <? x)%N then None else Some ([], t) | [] => None end.
Proof. exact (EE_range _ pe). Qed.
Lemma E_dot : forall s, E PDot s = match s with x :: t => Some ([], t) | [] => None end.
Proof. exact (EE_dot _ pe). Qed.
Lemma E_act : forall n s, E (PAct n) s = Some ([EAct n], s).
Proof. exact (EE_act _ pe). Qed.
Lemma E_lit : forall w s, w <> [] -> E (lit w) s = ret (strip w s).
Proof. exact (EE_lit _ pe). Qed.
Lemma E_ilit : forall w s, w <> [] -> forallb is_lower w = true -> E (ilit w) s = ret (istrip w s).
Proof. exact (EE_ilit _ pe). Qed.

(** ** strip *)
Lemma strip_app : forall w s, strip w (w ++ s) = Some s.
Proof. induction w as [|c w IH]; intros s; cbn; [reflexivity|]. rewrite N.eqb_refl. apply IH. Qed.
Lemma strip_some : forall w s r, strip w s = Some r -> s = w ++ r.
Proof.
  induction w as [|c w IH]; intros s r H; cbn in H; [cbn; congruence|].
  destruct s as [|x s]; [discriminate|]. destruct (N.eqb_spec x c); [|discriminate].
  subst. cbn. f_equal. now apply IH.
Qed.
Lemma istrip_app : forall w o s, ci w o -> istrip w (o ++ s) = Some s.
Proof.
  induction w as [|c w IH]; intros o s H; unfold ci in H; destruct o as [|x o]; try discriminate; [reflexivity|].
  cbn in *. injection H as Hx Ho. rewrite Hx, N.eqb_refl. now apply IH.
Qed.
Lemma istrip_some : forall w s r, istrip w s = Some r -> exists o, s = o ++ r /\ ci w o.
Proof.
  induction w as [|c w IH]; intros s r H; cbn in H; [exists []; split; [cbn; congruence|reflexivity]|].
  destruct s as [|x s]; [discriminate|]. destruct (N.eqb_spec (ascii_lower x) c); [|discriminate].
  destruct (IH _ _ H) as (o & -> & Ho). exists (x :: o). split; [reflexivity|].
  unfold ci in *. cbn. congruence.
Qed.
Lemma ci_length : forall w o, ci w o -> length o = length w.
Proof. intros w o H. unfold ci in H. rewrite <- H. now rewrite map_length. Qed.

(** ** Blanks *)
Fixpoint comment_end (s : list N) : option (list N) :=
  match s with
  | [] => None
  | c :: t => if (c =? 13)%N then Some (match t with d :: u => if (d =? 10)%N then u else t | [] => t end)
              else if (c =? 10)%N then Some t else comment_end t
  end.

Definition eol (s : list N) : option (list N) :=
  match s with
  | c :: t => if (c =? 13)%N then Some (match t with d :: u => if (d =? 10)%N then u else t | [] => t end)
              else if (c =? 10)%N then Some t else None
  | [] => None
  end.

Definition sc (s : list N) : option (list N) :=
  match s with
  | [] => None
  | c :: t =>
      if (c =? 32)%N then Some t else if (c =? 9)%N then Some t
      else match eol s with
      | Some r => Some r
      | None =>
        if (c =? 45)%N then match t with d :: u => if (d =? 45)%N then comment_end u else None | [] => None end
        else if (c =? 47)%N then match t with d :: u => if (d =? 47)%N then comment_end u else None | [] => None end
        else None
      end
  end.

Lemma E_eol : forall s, E (PRule rEndOfLine) s = ret (eol s).
Proof.
  intro s. rewrite E_rule. cbn [Gann Gpeg]. rewrite !E_alt, E_seq, !E_char by reflexivity.
  destruct s as [|c t]; [reflexivity|]. cbn [eol].
  destruct (N.eqb_spec c 13) as [->|H].
  - rewrite E_char. destruct t as [|d u]; [reflexivity|]. destruct (d =? 10)%N; reflexivity.
  - destruct (c =? 10)%N; reflexivity.
Qed.

Definition cbody : pexp := PStar (PSeq (PNot (PRule rEndOfLine)) PDot).
Lemma E_cbody : forall s, exists b r, s = b ++ r /\ E cbody s = Some ([], r) /\
  forallb (fun x => negb (line_end x)) b = true /\
  (r = [] \/ exists c u, r = c :: u /\ line_end c = true).
Proof.
  induction s as [|c s IH].
  - exists [], []. split; [reflexivity|]. split; [|split; [reflexivity|now left]]. unfold cbody.
    rewrite E_star by reflexivity. rewrite E_seq by reflexivity. rewrite E_not by reflexivity.
    rewrite E_eol. cbn [eol ret]. rewrite E_dot. reflexivity.
  - unfold cbody. rewrite E_star, E_seq, E_not, E_eol by reflexivity.
    destruct (line_end c) eqn:El.
    + exists [], (c :: s). split; [reflexivity|]. split; [|split; [reflexivity|right; eauto]].
      unfold line_end in El. cbn [eol]. destruct (N.eqb_spec c 13); [reflexivity|].
      destruct (N.eqb_spec c 10); [reflexivity|discriminate].
    + destruct IH as (b & r & -> & H & Hb & Hr). exists (c :: b), r.
      split; [reflexivity|]. split; [|split; [cbn; rewrite El; exact Hb|exact Hr]].
      unfold line_end in El. apply orb_false_iff in El. destruct El as [E1 E2].
      cbn [eol]. rewrite E1, E2. cbn [ret]. rewrite E_dot. fold cbody. rewrite H. reflexivity.
Qed.

Lemma comment_end_body : forall b r, forallb (fun x => negb (line_end x)) b = true ->
  comment_end (b ++ r) = comment_end r.
Proof.
  induction b as [|c b IH]; intros r H; [reflexivity|]. cbn in *.
  apply andb_true_iff in H; destruct H as [Hc Hb]. unfold line_end in Hc.
  destruct (c =? 13)%N; [rewrite orb_true_r in Hc; discriminate|].
  destruct (c =? 10)%N; [discriminate|]. now apply IH.
Qed.

Lemma E_sc : forall s, E (PRule rSpaceComment) s = ret (sc s).
Proof.
  intro s. rewrite E_rule. cbn [Gann Gpeg]. rewrite E_alt by reflexivity.
  rewrite E_rule. cbn [Gann Gpeg]. rewrite !E_alt, !E_char by reflexivity. rewrite E_eol.
  rewrite E_rule. cbn [Gann Gpeg]. rewrite E_seq by reflexivity. rewrite E_alt by reflexivity.
  rewrite !E_lit by discriminate.
  assert (HC : forall u, match E (PSeq (PStar (PSeq (PNot (PRule rEndOfLine)) PDot)) (PRule rEndOfLine)) u with
                | Some (e2, s2) => Some ([] ++ e2, s2) | None => None end = ret (comment_end u)).
  { intro u. rewrite E_seq by reflexivity. fold cbody.
    destruct (E_cbody u) as (b & r & -> & -> & Hb & Hr). rewrite E_eol.
    rewrite (comment_end_body _ _ Hb). destruct Hr as [->|(c & v & -> & Hc)]; [reflexivity|].
    unfold line_end in Hc. cbn. destruct (c =? 13)%N; [reflexivity|].
    destruct (c =? 10)%N; [reflexivity|discriminate]. }
  destruct s as [|c t]; [reflexivity|]. cbn [sc].
  destruct (c =? 32)%N; [reflexivity|]. destruct (c =? 9)%N; [reflexivity|].
  destruct (eol (c :: t)) as [r|]; [reflexivity|]. cbn [ret strip runes_of].
  change (N_of_ascii "-"%char) with 45%N. change (N_of_ascii "/"%char) with 47%N.
  destruct (N.eqb_spec c 45) as [->|H1].
  - cbn. destruct t as [|d u]; [reflexivity|]. destruct (N.eqb_spec d 45) as [->|H2].
    + cbn [ret]. apply HC.
    + reflexivity.
  - destruct (N.eqb_spec c 47) as [->|H3]; [|reflexivity].
    destruct t as [|d u]; [reflexivity|]. destruct (N.eqb_spec d 47) as [->|H2]; [|reflexivity].
    cbn [ret]. apply HC.
Qed.

(** [skip s]: what is left of [s] after the blanks in front. *)
Definition skip (s : list N) : list N :=
  match E (PRule r_) s with Some (_, r) => r | None => s end.

Lemma comment_end_lt : forall s r, comment_end s = Some r -> length r < length s.
Proof.
  induction s as [|c t IH]; intros r H; [discriminate|]. cbn in H.
  destruct (c =? 13)%N.
  - injection H as <-. destruct t as [|d u]; cbn; [lia|]. destruct (d =? 10)%N; cbn; lia.
  - destruct (c =? 10)%N; [injection H as <-; cbn; lia|]. specialize (IH _ H). cbn. lia.
Qed.
Lemma eol_lt : forall s r, eol s = Some r -> length r < length s.
Proof.
  intros [|c t] r H; [discriminate|]. cbn in H.
  destruct (c =? 13)%N.
  - injection H as <-. destruct t as [|d u]; cbn; [lia|]. destruct (d =? 10)%N; cbn; lia.
  - destruct (c =? 10)%N; [injection H as <-; cbn; lia|discriminate].
Qed.
Lemma sc_lt : forall s r, sc s = Some r -> length r < length s.
Proof.
  intros [|c t] r H; [discriminate|]. unfold sc in H.
  destruct (c =? 32)%N; [injection H as <-; cbn; lia|].
  destruct (c =? 9)%N; [injection H as <-; cbn; lia|].
  destruct (eol (c :: t)) eqn:Ee; [injection H as <-; now apply eol_lt|].
  destruct (c =? 45)%N; [|destruct (c =? 47)%N; [|discriminate]];
    (destruct t as [|d u]; [discriminate|]; destruct (d =? _)%N; [|discriminate];
     apply comment_end_lt in H; cbn; lia).
Qed.

Lemma E_skip : forall s, E (PRule r_) s = Some ([], skip s).
Proof.
  intro s. unfold skip. rewrite E_rule. cbn [Gann Gpeg].
  remember (length s) as n eqn:Hn. revert s Hn. induction n as [n IH] using lt_wf_ind. intros s Hn.
  rewrite E_star by reflexivity. rewrite E_sc. destruct (sc s) as [t|] eqn:Es; [|reflexivity].
  cbn [ret]. assert (Hl := sc_lt _ _ Es). rewrite (IH (length t) ltac:(lia) t eq_refl). reflexivity.
Qed.
Lemma skip_step : forall s t, sc s = Some t -> skip s = skip t.
Proof.
  intros s t H. pose proof (E_skip s) as Hs. pose proof (E_skip t) as Ht.
  rewrite E_rule in Hs, Ht. cbn [Gann Gpeg] in *. rewrite E_star in Hs by reflexivity.
  rewrite E_sc, H in Hs. cbn [ret] in Hs. rewrite Ht in Hs. cbn in Hs. congruence.
Qed.
Lemma skip_stop : forall s, sc s = None -> skip s = s.
Proof.
  intros s H. pose proof (E_skip s) as Hs.
  rewrite E_rule in Hs. cbn [Gann Gpeg] in *. rewrite E_star in Hs by reflexivity.
  rewrite E_sc, H in Hs. cbn [ret] in Hs. congruence.
Qed.
Lemma skip_clean : forall s, sc (skip s) = None.
Proof.
  intro s. remember (length s) as n eqn:Hn. revert s Hn. induction n as [n IH] using lt_wf_ind. intros s Hn.
  destruct (sc s) as [t|] eqn:Es.
  - rewrite (skip_step _ _ Es). apply (IH (length t)); [|reflexivity]. apply sc_lt in Es. lia.
  - now rewrite (skip_stop _ Es).
Qed.
Lemma skip_idem : forall s, skip (skip s) = skip s.
Proof. intro s. apply skip_stop, skip_clean. Qed.

Lemma blank_app : forall a b, blank a -> blank b -> blank (a ++ b).
Proof.
  intros a b Ha Hb. induction Ha; cbn; auto.
  - constructor; auto.
  - rewrite <- !app_assoc. cbn [app]. apply blank_comment; auto.
Qed.

Lemma comment_end_spec : forall s r, comment_end s = Some r ->
  exists b c w, s = b ++ c :: w ++ r /\ forallb (fun x => negb (line_end x)) b = true /\
    line_end c = true /\ blank w.
Proof.
  induction s as [|c t IH]; intros r H; [discriminate|]. cbn in H.
  destruct (N.eqb_spec c 13) as [->|H1].
  - injection H as <-. destruct t as [|d u].
    + exists [], 13%N, []. repeat split; auto. constructor.
    + destruct (N.eqb_spec d 10) as [->|].
      * exists [], 13%N, [10%N]. repeat split; auto. repeat constructor.
      * exists [], 13%N, []. repeat split; auto. constructor.
  - destruct (N.eqb_spec c 10) as [->|H2].
    + injection H as <-. exists [], 10%N, []. repeat split; auto. constructor.
    + destruct (IH _ H) as (b & c' & w & -> & Hb & Hc & Hw).
      exists (c :: b), c', w. repeat split; auto. cbn. rewrite Hb. unfold line_end.
      destruct (N.eqb_spec c 10); [congruence|]. destruct (N.eqb_spec c 13); [congruence|]. reflexivity.
Qed.

Lemma sc_spec : forall s r, sc s = Some r -> exists w, s = w ++ r /\ blank w /\ w <> [].
Proof.
  intros [|c t] r H; [discriminate|]. unfold sc in H.
  destruct (N.eqb_spec c 32) as [->|H1].
  { injection H as <-. exists [32%N]. repeat split; [repeat constructor|discriminate]. }
  destruct (N.eqb_spec c 9) as [->|H2].
  { injection H as <-. exists [9%N]. repeat split; [repeat constructor|discriminate]. }
  destruct (eol (c :: t)) as [r'|] eqn:Ee.
  { injection H as <-. cbn in Ee. destruct (N.eqb_spec c 13) as [->|H3].
    - destruct t as [|d u].
      + injection Ee as <-. exists [13%N]. repeat split; [repeat constructor|discriminate].
      + destruct (N.eqb_spec d 10) as [->|]; injection Ee as <-.
        * exists [13%N; 10%N]. repeat split; [repeat constructor|discriminate].
        * exists [13%N]. repeat split; [repeat constructor|discriminate].
    - destruct (N.eqb_spec c 10) as [->|H4]; [|discriminate]. injection Ee as <-.
      exists [10%N]. repeat split; [repeat constructor|discriminate]. }
  destruct (N.eqb_spec c 45) as [->|H5]; [|destruct (N.eqb_spec c 47) as [->|H6]; [|discriminate]].
  - destruct t as [|d u]; [discriminate|]. destruct (N.eqb_spec d 45) as [->|]; [|discriminate].
    destruct (comment_end_spec _ _ H) as (b & c & w & -> & Hb & Hc & Hw).
    exists (#"--" ++ b ++ c :: w). repeat split.
    + cbn. rewrite <- app_assoc. reflexivity.
    + apply blank_comment; auto.
    + discriminate.
  - destruct t as [|d u]; [discriminate|]. destruct (N.eqb_spec d 47) as [->|]; [|discriminate].
    destruct (comment_end_spec _ _ H) as (b & c & w & -> & Hb & Hc & Hw).
    exists (#"//" ++ b ++ c :: w). repeat split.
    + cbn. rewrite <- app_assoc. reflexivity.
    + apply blank_comment; auto.
    + discriminate.
Qed.

Lemma skip_spec : forall s, exists w, s = w ++ skip s /\ blank w.
Proof.
  intro s. remember (length s) as n eqn:Hn. revert s Hn. induction n as [n IH] using lt_wf_ind. intros s Hn.
  destruct (sc s) as [t|] eqn:Es.
  - rewrite (skip_step _ _ Es). assert (Hl := sc_lt _ _ Es).
    destruct (IH (length t) ltac:(lia) t eq_refl) as (w & Hw & Bw).
    destruct (sc_spec _ _ Es) as (w0 & -> & B0 & _). exists (w0 ++ w). split.
    + rewrite <- app_assoc. now rewrite <- Hw.
    + now apply blank_app.
  - exists []. rewrite (skip_stop _ Es). split; [reflexivity|constructor].
Qed.

Lemma skip_lf : forall s, skip (10%N :: s) = skip s.
Proof. intro s. apply skip_step. reflexivity. Qed.
Lemma skip_cr : forall s, skip (13%N :: s) = skip s.
Proof.
  intro s. destruct s as [|d u].
  - apply skip_step. reflexivity.
  - destruct (N.eqb_spec d 10) as [->|Hd].
    + rewrite skip_lf. apply skip_step. reflexivity.
    + apply skip_step. cbn. destruct (N.eqb_spec d 10); congruence.
Qed.

Lemma skip_comment : forall m b c s, m = #"--" \/ m = #"//" ->
  forallb (fun x => negb (line_end x)) b = true -> line_end c = true ->
  skip (m ++ b ++ c :: s) = skip s.
Proof.
  intros m b c s Hm Hb Hc.
  assert (H : sc (m ++ b ++ c :: s) = comment_end (c :: s)).
  { destruct Hm as [->| ->]; cbn; apply (comment_end_body b (c :: s) Hb). }
  unfold line_end in Hc. cbn in H. destruct (N.eqb_spec c 13) as [->|H1].
  - rewrite (skip_step _ _ H). destruct s as [|d u]; [reflexivity|].
    destruct (N.eqb_spec d 10) as [->|]; [|reflexivity]. now rewrite skip_lf.
  - destruct (N.eqb_spec c 10) as [->|]; [|discriminate]. now apply skip_step.
Qed.

Lemma skip_blank : forall w s, blank w -> skip (w ++ s) = skip s.
Proof.
  intros w s H. induction H as [|c w Hc Hw IH|m b c w Hm Hb Hc Hw IH]; [reflexivity| |].
  - cbn [app]. rewrite <- IH. unfold mem in Hc. cbn in Hc.
    destruct (N.eqb_spec c 32) as [->|]; [apply skip_step; reflexivity|].
    destruct (N.eqb_spec c 9) as [->|]; [apply skip_step; reflexivity|].
    destruct (N.eqb_spec c 10) as [->|]; [apply skip_lf|].
    destruct (N.eqb_spec c 13) as [->|]; [apply skip_cr|discriminate].
  - rewrite <- !app_assoc. cbn [app]. rewrite skip_comment by auto. exact IH.
Qed.

(** A text that starts with none of the blank starters is clean. *)
Definition blank_start (c : N) : bool := mem c [32; 9; 10; 13; 45; 47]%N.
Lemma sc_head : forall c t, blank_start c = false -> sc (c :: t) = None.
Proof.
  intros c t H. unfold blank_start, mem in H. cbn in H. unfold sc, eol.
  repeat match goal with |- context [(c =? ?k)%N] => destruct (N.eqb_spec c k); [subst; discriminate|] end.
  reflexivity.
Qed.
Lemma sc_nil : sc [] = None.
Proof. reflexivity. Qed.

Lemma skip_blank_clean : forall w s, blank w -> sc s = None -> skip (w ++ s) = s.
Proof. intros. rewrite skip_blank by auto. now apply skip_stop. Qed.

(** ** __ *)
Lemma blank_sc : forall w s, blank w -> w <> [] -> exists t, sc (w ++ s) = Some t.
Proof.
  intros w s H Hn. destruct H as [|c w Hc Hw|m b c w Hm Hb Hc Hw]; [congruence| |].
  - cbn in Hc. cbn [app]. unfold sc, eol.
    destruct (N.eqb_spec c 32) as [->|]; [eexists; reflexivity|].
    destruct (N.eqb_spec c 9) as [->|]; [eexists; reflexivity|].
    destruct (N.eqb_spec c 10) as [->|]; [eexists; reflexivity|].
    destruct (N.eqb_spec c 13) as [->|]; [eexists; reflexivity|discriminate].
  - assert (H : sc ((m ++ b ++ c :: w) ++ s) = comment_end (c :: w ++ s)).
    { rewrite <- !app_assoc. destruct Hm as [->| ->]; cbn; apply (comment_end_body b (c :: w ++ s) Hb). }
    rewrite H. cbn. unfold line_end in Hc. destruct (c =? 13)%N; [eauto|].
    destruct (c =? 10)%N; [eauto|discriminate].
Qed.

Lemma E_WW : forall s, E (PRule r__) s = match sc s with Some _ => Some ([], skip s) | None => None end.
Proof.
  intro s. rewrite E_rule. cbn [Gann Gpeg]. unfold PPlus. rewrite E_seq by reflexivity.
  rewrite E_sc. destruct (sc s) as [t|] eqn:Es; [|reflexivity]. cbn [ret].
  pose proof (E_skip t) as H. rewrite E_rule in H. cbn [Gann Gpeg] in H. rewrite H.
  rewrite (skip_step _ _ Es). reflexivity.
Qed.
Lemma E_WW_gap : forall g s, gap1 g -> sc s = None -> E (PRule r__) (g ++ s) = Some ([], s).
Proof.
  intros g s [Hb Hn] Hs. rewrite E_WW. destruct (blank_sc g s Hb Hn) as [t ->].
  now rewrite skip_blank_clean.
Qed.
Lemma E_WW_inv : forall s ev r, E (PRule r__) s = Some (ev, r) ->
  ev = [] /\ sc r = None /\ exists g, s = g ++ r /\ gap1 g.
Proof.
  intros s ev r H. rewrite E_WW in H. destruct (sc s) as [t|] eqn:Es; [|discriminate].
  injection H as <- <-. split; [reflexivity|]. split; [apply skip_clean|].
  destruct (skip_spec s) as (w & Hw & Bw). exists w. split; [exact Hw|]. split; [exact Bw|].
  intros ->. cbn in Hw. pose proof (skip_clean s) as Hc. rewrite <- Hw in Hc. congruence.
Qed.
