(** Completeness of the grammar for the layouts of [Syntax]. *)
From Verif Require Import Base Peg Grammar PegProofs Node Vocab Tree Parse GrammarProofs Syntax Blank Lex Ops Complete.

Local Open Scope peg_scope.

Lemma letter_not : forall c, letter c = true -> (c =? 40)%N = false /\ (c =? 91)%N = false /\ (c =? 46)%N = false.
Proof.
  intros c H. unfold letter in H. repeat split; apply N.eqb_neq; intros ->; discriminate H.
Qed.
Lemma lit_start_not : forall c, lit_start c = true -> (c =? 40)%N = false /\ (c =? 91)%N = false.
Proof. intros c H. split; apply N.eqb_neq; intros ->; discriminate H. Qed.
Lemma ident_paren : forall x r, ident x -> E parenP (x ++ r) = None.
Proof. intros x r H. destruct (ident_head _ H) as (c & u & -> & Hc). apply parenP_head. now apply letter_not. Qed.
Lemma pfol_digit : forall r, pfol r -> stops is_digit r.
Proof. intros r [H _]. destruct r; [exact I|]. apply H. Qed.
Lemma pfol_paren : forall r, pfol r -> strip #"(" r = None.
Proof.
  intros r [H _]. destruct r as [|c r]; [reflexivity|]. destruct H as [H _]. unfold mem in H. cbn [existsb] in H.
  apply orb_false_iff in H. destruct H as [H _]. cbn. change (N_of_ascii "("%char) with 40%N. rewrite H. reflexivity.
Qed.
Lemma pfol_dot : forall r, pfol r -> strip #"." r = None.
Proof.
  intros r [H _]. destruct r as [|c r]; [reflexivity|]. destruct H as [H _]. unfold mem in H. cbn [existsb] in H.
  apply orb_false_iff in H. destruct H as [_ H]. apply orb_false_iff in H. destruct H as [H _].
  cbn. change (N_of_ascii "."%char) with 46%N. rewrite H. reflexivity.
Qed.
Lemma brok_prim : forall e r, level e <= 0 -> brok e r.
Proof. intros e r H. unfold brok. destruct e; cbn in *; try lia; discriminate. Qed.

(** ** Primary expressions *)
Lemma P_lit : forall l t, lit_text l t -> P (EVal (VLit l)) t.
Proof.
  intros l t Hl rest Hp _ _. cbn [level C evs]. rewrite E_primary.
  destruct (lit_text_head _ _ Hl) as (c & u & Ht & Hc).
  assert (X : E parenP (t ++ rest) = None).
  { subst t. apply parenP_head. now apply lit_start_not. }
  rewrite X. cbn [orelse]. rewrite (value_complete (VLit l) t rest); [reflexivity|now constructor|].
  apply stops_lfol. now apply pfol_digit.
Qed.

Lemma paren_first : forall l t w x, lit_text l t -> blank w ->
  E parenP (#"(" ++ w ++ t ++ x) = match E (PRule rExpression) (t ++ x) with
    | Some (e, u) => match strip #")" (skip u) with Some r => Some (e ++ [EAct 8], r) | None => None end
    | None => None end.
Proof.
  intros l t w x Hl Hw. rewrite E_parenP. change (strip #"(" (#"(" ++ w ++ t ++ x)) with (Some (w ++ t ++ x)). cbv iota.
  rewrite skip_blank_clean by (exact Hw || (eapply lit_start_clean; exact Hl)). reflexivity.
Qed.
Lemma paren_comma_none : forall l t w w' x, lit_text l t -> blank w -> blank w' ->
  E parenP (#"(" ++ w ++ t ++ w' ++ #"," ++ x) = None.
Proof.
  intros l t w w' x Hl Hw Hw'. rewrite (paren_first l t w (w' ++ #"," ++ x) Hl Hw).
  destruct (expr_ended _ _ (w' ++ #"," ++ x) (P_lit l t Hl)) as (r' & Hs & ->).
  { exists w', (#"," ++ x). split; [reflexivity|]. split; [exact Hw'|reflexivity]. }
  rewrite Hs. rewrite skip_blank_clean by (exact Hw' || reflexivity). reflexivity.
Qed.
Lemma lits_text_cases : forall ls t, lits_text ls t ->
  (exists l, ls = [l] /\ lit_text l t) \/
  (exists l tl w x, t = tl ++ w ++ #"," ++ x /\ lit_text l tl /\ blank w /\ 2 <= length ls).
Proof.
  intros ls t H. destruct H as [l t Hl|l t w1 w2 ls ts Hl H1 H2 Hs].
  - left. eauto.
  - right. exists l, t, w1, (w2 ++ ts). repeat split; auto. destruct Hs; cbn; lia.
Qed.
Lemma parenP_arr : forall p c ls t r, arr_text p c ls t -> ~ (p = true /\ c = false /\ length ls = 1) ->
  E parenP (t ++ r) = None.
Proof.
  intros p c ls t r H Hn. destruct p.
  2:{ destruct (arr_text_head _ _ _ _ H) as (u & ->). now apply parenP_head. }
  destruct H as [w Hw|ls t w1 w2 Hls H1 H2|ls t w1 w2 w3 Hls H1 H2 H3]; unfold opening, closing; rewrite <- !app_assoc.
  - rewrite E_parenP. change (strip #"(" (#"(" ++ w ++ #")" ++ r)) with (Some (w ++ #")" ++ r)). cbv iota.
    rewrite skip_blank_clean by (exact Hw || reflexivity). cbn [app runes_of].
    rewrite expr_none_head by reflexivity. reflexivity.
  - destruct (lits_text_cases _ _ Hls) as [(l & -> & Hl)|(l & tl & w & x & -> & Hl & Hw & _)].
    + exfalso. apply Hn. auto.
    + rewrite <- !app_assoc. now apply (paren_comma_none l).
  - destruct (lits_text_cases _ _ Hls) as [(l & -> & Hl)|(l & tl & w & x & -> & Hl & Hw & _)].
    + now apply (paren_comma_none l).
    + rewrite <- !app_assoc. now apply (paren_comma_none l).
Qed.
Lemma P_arr : forall p c ls t, arr_text p c ls t -> ~ (p = true /\ c = false /\ length ls = 1) -> P (EVal (VArr p ls)) t.
Proof.
  intros p c ls t H Hn rest _ _ _. cbn [level C evs]. rewrite E_primary, (parenP_arr _ _ _ _ _ H Hn). cbn [orelse].
  rewrite (value_complete (VArr p ls) t rest); [reflexivity|econstructor; exact H|exact I].
Qed.

Lemma arglist_none : forall r, strip #"(" r = None -> E (PRule rArgumentList) r = None.
Proof. intros r H. rewrite E_arglist, H. reflexivity. Qed.
(** the alternatives before Reference fail on a plain identifier *)
Lemma prim_ref : forall x r, ident x -> ~ starts_word x -> stops idchar r -> strip #"(" r = None ->
  E (PRule rPrimaryExpression) (x ++ r) = E (PRule rReference) (x ++ r).
Proof.
  intros x r Hx Hs Hr Hp. rewrite E_primary, ident_paren, value_ident by assumption. cbn [orelse].
  rewrite E_callP, ident_complete, arglist_none by assumption. reflexivity.
Qed.
Lemma P_name : forall x, ident x -> ~ starts_word x -> P (EName x) x.
Proof.
  intros x Hx Hs rest Hp Hm _. cbn [level C evs]. specialize (Hm eq_refl).
  assert (Hr : stops idchar rest) by exact Hm.
  rewrite prim_ref by (assumption || now apply pfol_paren).
  rewrite E_ref, E_idref, E_json, ident_complete by assumption.
  rewrite E_dotid, pfol_dot by exact Hp. destruct Hp as [_ Hp]. rewrite Hp. reflexivity.
Qed.

Lemma join_concat : forall sep y xs, join_with sep (y :: xs) = y ++ concat (map (fun x => sep ++ x) xs).
Proof.
  intros sep y xs. revert y. induction xs as [|x xs IH]; intro y; [cbn; now rewrite app_nil_r|].
  rewrite join_head, IH. cbn [map concat]. now rewrite <- !app_assoc.
Qed.
Lemma dots_complete : forall xs rest, Forall ident xs -> stops idchar rest -> strip #"." rest = None ->
  E (dotid **) (concat (map (fun x => #"." ++ x) xs) ++ rest) = Some (ids_ev xs, rest).
Proof.
  induction xs as [|x xs IH]; intros rest Hx Hr Hd.
  - cbn [map concat app]. rewrite E_star by reflexivity. rewrite E_dotid, Hd. reflexivity.
  - inversion Hx as [|? ? Hi Hxs]; subst. cbn [map concat]. rewrite <- !app_assoc.
    rewrite E_star by reflexivity. rewrite E_dotid.
    change (strip #"." (#"." ++ x ++ concat (map (fun x => #"." ++ x) xs) ++ rest)) with
      (Some (x ++ concat (map (fun x => #"." ++ x) xs) ++ rest)). cbv iota.
    rewrite ident_complete; [|exact Hi|destruct xs; [exact Hr|reflexivity]].
    rewrite IH by assumption. reflexivity.
Qed.
Lemma P_ref : forall x y xs, Forall ident (x :: y :: xs) -> ~ starts_word x ->
  P (ERef (x :: y :: xs)) (join_with #"." (x :: y :: xs)).
Proof.
  intros x y xs Hf Hs rest Hp Hm _. specialize (Hm eq_refl). assert (Hr : stops idchar rest) by exact Hm.
  cbn [level C evs]. inversion Hf as [|? ? Hx Hf']; subst. inversion Hf' as [|? ? Hy Hxs]; subst.
  rewrite join_head, <- !app_assoc.
  rewrite prim_ref by (assumption || reflexivity).
  rewrite E_ref, E_idref, ident_complete by (assumption || reflexivity).
  rewrite join_concat, <- !app_assoc. rewrite E_dotid.
  change (strip #"." (#"." ++ y ++ concat (map (fun x => #"." ++ x) xs) ++ rest)) with
      (Some (y ++ concat (map (fun x => #"." ++ x) xs) ++ rest)). cbv iota.
  rewrite ident_complete; [|exact Hy|destruct xs; [exact Hr|reflexivity]].
  rewrite dots_complete by (assumption || now apply pfol_dot). unfold ids_ev. cbn. now rewrite <- ?app_assoc.
Qed.
Lemma json_complete : forall xs x y rest, Forall ident (x :: y :: xs) -> stops idchar rest -> strip #"->" rest = None ->
  E (PRule rJsonReference) (join_with #"->" (x :: y :: xs) ++ rest) = Some (ids_ev (x :: y :: xs), rest).
Proof.
  induction xs as [|z xs IH]; intros x y rest Hf Hr Hd;
    inversion Hf as [|? ? Hx Hf']; subst; inversion Hf' as [|? ? Hy Hxs]; subst.
  - change (join_with #"->" [x; y]) with (x ++ #"->" ++ y). rewrite <- !app_assoc.
    rewrite E_json, ident_complete by (assumption || reflexivity).
    change (strip #"->" (#"->" ++ y ++ rest)) with (Some (y ++ rest)). cbv iota.
    rewrite E_json, ident_complete by assumption. rewrite Hd. reflexivity.
  - rewrite join_head, <- !app_assoc.
    rewrite E_json, ident_complete by (assumption || reflexivity).
    change (strip #"->" (#"->" ++ join_with #"->" (y :: z :: xs) ++ rest)) with (Some (join_with #"->" (y :: z :: xs) ++ rest)). cbv iota.
    rewrite IH by assumption. reflexivity.
Qed.
Lemma P_json : forall x y xs, Forall ident (x :: y :: xs) -> ~ starts_word x ->
  P (EJson (x :: y :: xs)) (join_with #"->" (x :: y :: xs)).
Proof.
  intros x y xs Hf Hs rest Hp Hm _. specialize (Hm eq_refl). assert (Hr : stops idchar rest) by exact Hm.
  cbn [level C evs].
  assert (HJ : E (PRule rJsonReference) (join_with #"->" (x :: y :: xs) ++ rest) = Some (ids_ev (x :: y :: xs), rest)).
  { apply json_complete; [assumption|assumption|apply Hp]. }
  inversion Hf as [|? ? Hx Hf']; subst.
  rewrite join_head, <- !app_assoc in *.
  rewrite prim_ref by (assumption || reflexivity). rewrite E_ref, HJ.
  rewrite E_idref, ident_complete by (assumption || reflexivity). rewrite E_dotid. reflexivity.
Qed.

(** ** Calls *)
Definition Q (es : list expr) (t : list N) : Prop :=
  forall rest, ended rest -> E comma_arg rest = None ->
  exists r', skip r' = skip rest /\ E args1 (t ++ rest) = Some (concat (map evs es), r').
Lemma comma_arg_cong : forall a b, skip a = skip b -> E comma_arg a = E comma_arg b.
Proof. intros a b H. rewrite !E_comma_arg, H. reflexivity. Qed.
Lemma Q_one : forall e t, P e t -> Q [e] t.
Proof.
  intros e t H rest Hr Hn. destruct (expr_ended e t rest H Hr) as (r' & Hs & HE). exists r'. split; [exact Hs|].
  unfold args1. rewrite E_seq by reflexivity. rewrite E_rule. cbn [Gann Gpeg]. rewrite HE.
  rewrite E_star by reflexivity. rewrite (comma_arg_cong r' rest Hs), Hn. cbn. reflexivity.
Qed.
Lemma Q_cons : forall e t w1 w2 es ts, P e t -> blank w1 -> blank w2 -> lays es ts -> Q es ts ->
  Q (e :: es) (t ++ w1 ++ #"," ++ w2 ++ ts).
Proof.
  intros e t w1 w2 es ts H H1 H2 Hl HQ rest Hr Hn. rewrite <- !app_assoc.
  destruct (expr_ended e t (w1 ++ #"," ++ w2 ++ ts ++ rest) H) as (r1 & Hs & HE).
  { exists w1, (#"," ++ w2 ++ ts ++ rest). split; [reflexivity|]. split; [exact H1|reflexivity]. }
  destruct (HQ rest Hr Hn) as (r' & Hs' & HE'). exists r'. split; [exact Hs'|].
  unfold args1 in *. rewrite E_seq in HE' |- * by reflexivity. rewrite E_rule in HE' |- *. cbn [Gann Gpeg] in *.
  rewrite HE. rewrite E_star by reflexivity. rewrite E_comma_arg, Hs.
  rewrite skip_blank_clean by (exact H1 || reflexivity).
  change (strip #"," (#"," ++ w2 ++ ts ++ rest)) with (Some (w2 ++ ts ++ rest)). cbv iota.
  rewrite skip_blank_clean by (exact H2 || (eapply lays_clean; exact Hl)).
  destruct (E (PRule rExpression) (ts ++ rest)) as [[e1 s1]|]; [|discriminate].
  destruct (E (comma_arg **) s1) as [[e2 s2]|]; [|discriminate]. injection HE' as HE' ->.
  cbn [map concat]. rewrite <- HE'. reflexivity.
Qed.
Lemma P_callx : forall f args x, ident f -> ~ starts_word f -> 
  (forall rest, E (PRule rArgumentList) (#"(" ++ x ++ rest) = Some ([EAct 10] ++ concat (map evs args) ++ [EAct 11], rest)) ->
  P (ECall f args) (f ++ #"(" ++ x).
Proof.
  intros f args x Hf Hs HA rest _ _ _. cbn [level C evs]. rewrite <- !app_assoc.
  rewrite E_primary, ident_paren, value_ident by (assumption || reflexivity). cbn [orelse].
  rewrite E_callP, ident_complete by (assumption || reflexivity). rewrite HA. cbn [orelse].
  rewrite <- !app_assoc. reflexivity.
Qed.
Lemma arglist_none_close : forall rest, E ArgList (#")" ++ rest) = None.
Proof.
  intro rest. rewrite E_arglist0. unfold args1. rewrite seq_none; [reflexivity|reflexivity|].
  rewrite E_rule. cbn [Gann Gpeg app runes_of]. now apply expr_none_head.
Qed.
Lemma P_call0 : forall f w, ident f -> ~ starts_word f -> blank w -> P (ECall f []) (f ++ #"(" ++ w ++ #")").
Proof.
  intros f w Hf Hs Hw. apply P_callx; [assumption|assumption|]. intro rest. rewrite <- !app_assoc. rewrite E_arglist.
  change (strip #"(" (#"(" ++ w ++ #")" ++ rest)) with (Some (w ++ #")" ++ rest)). cbv iota.
  rewrite skip_blank_clean by (exact Hw || reflexivity). rewrite arglist_none_close. reflexivity.
Qed.
Lemma P_call : forall f args t w1 w2, ident f -> ~ starts_word f -> lays args t -> Q args t -> blank w1 -> blank w2 ->
  P (ECall f args) (f ++ #"(" ++ w1 ++ t ++ w2 ++ #")").
Proof.
  intros f args t w1 w2 Hf Hs Hl HQ H1 H2. apply P_callx; [assumption|assumption|]. intro rest. rewrite <- !app_assoc. rewrite E_arglist.
  change (strip #"(" (#"(" ++ w1 ++ t ++ w2 ++ #")" ++ rest)) with (Some (w1 ++ t ++ w2 ++ #")" ++ rest)). cbv iota.
  rewrite skip_blank_clean by (exact H1 || (eapply lays_clean; exact Hl)). rewrite E_arglist0.
  destruct (HQ (w2 ++ #")" ++ rest)) as (r' & Hr & HE).
  { exists w2, (#")" ++ rest). split; [reflexivity|]. split; [exact H2|reflexivity]. }
  { rewrite E_comma_arg, skip_blank_clean by (exact H2 || reflexivity). reflexivity. }
  rewrite HE, Hr. rewrite skip_blank_clean by (exact H2 || reflexivity).
  change (strip #"," (#")" ++ rest)) with (@None (list N)). cbv iota.
  rewrite (skip_stop (#")" ++ rest)) by reflexivity. reflexivity.
Qed.
Lemma P_callc : forall f args t w1 w2 w3, ident f -> ~ starts_word f -> lays args t -> Q args t -> blank w1 -> blank w2 -> blank w3 ->
  P (ECall f args) (f ++ #"(" ++ w1 ++ t ++ w2 ++ #"," ++ w3 ++ #")").
Proof.
  intros f args t w1 w2 w3 Hf Hs Hl HQ H1 H2 H3. apply P_callx; [assumption|assumption|]. intro rest. rewrite <- !app_assoc. rewrite E_arglist.
  change (strip #"(" (#"(" ++ w1 ++ t ++ w2 ++ #"," ++ w3 ++ #")" ++ rest)) with (Some (w1 ++ t ++ w2 ++ #"," ++ w3 ++ #")" ++ rest)). cbv iota.
  rewrite skip_blank_clean by (exact H1 || (eapply lays_clean; exact Hl)). rewrite E_arglist0.
  destruct (HQ (w2 ++ #"," ++ w3 ++ #")" ++ rest)) as (r' & Hr & HE).
  { exists w2, (#"," ++ w3 ++ #")" ++ rest). split; [reflexivity|]. split; [exact H2|reflexivity]. }
  { rewrite E_comma_arg, skip_blank_clean by (exact H2 || reflexivity).
    change (strip #"," (#"," ++ w3 ++ #")" ++ rest)) with (Some (w3 ++ #")" ++ rest)). cbv iota.
    rewrite skip_blank_clean by (exact H3 || reflexivity). cbn [app runes_of]. now apply expr_none_head. }
  rewrite HE, Hr. rewrite skip_blank_clean by (exact H2 || reflexivity).
  change (strip #"," (#"," ++ w3 ++ #")" ++ rest)) with (Some (w3 ++ #")" ++ rest)). cbv iota.
  rewrite skip_blank_clean by (exact H3 || reflexivity). reflexivity.
Qed.
Lemma P_paren : forall e t w1 w2, lay e t -> P e t -> blank w1 -> blank w2 -> P (EParen e) (#"(" ++ w1 ++ t ++ w2 ++ #")").
Proof.
  intros e t w1 w2 Hl HP H1 H2 rest _ _ _. cbn [level C evs]. rewrite <- !app_assoc. rewrite E_primary, E_parenP.
  change (strip #"(" (#"(" ++ w1 ++ t ++ w2 ++ #")" ++ rest)) with (Some (w1 ++ t ++ w2 ++ #")" ++ rest)). cbv iota.
  rewrite skip_blank_clean by (exact H1 || (eapply lay_clean; exact Hl)).
  destruct (expr_ended e t (w2 ++ #")" ++ rest) HP) as (r' & Hr & HE).
  { exists w2, (#")" ++ rest). split; [reflexivity|]. split; [exact H2|reflexivity]. }
  rewrite HE, Hr. rewrite skip_blank_clean by (exact H2 || reflexivity). reflexivity.
Qed.

(** ** Between *)
Lemma vfol_digit : forall v r, stops is_digit r -> vfol v r.
Proof. intros [l|p ls] r H; [now apply stops_lfol|exact I]. Qed.
Lemma bodyB_at : forall w1 o w2 x, blank w1 -> op_between o -> blank w2 -> sc x = None ->
  E bodyB (w1 ++ o ++ w2 ++ x) = match E (altB1 // altB2) x with
    | Some (e, r2) => Some ([EText o; EAct 6] ++ e ++ [EAct 7], r2) | None => None end.
Proof.
  intros w1 o w2 x H1 Ho H2 Hx. rewrite E_bodyB.
  rewrite skip_blank_clean by (exact H1 || (apply opst_clean; now apply opst_between)).
  rewrite rB_complete, consumed_app, skip_blank_clean by assumption. reflexivity.
Qed.
Lemma P_between : forall e t w1 o w2 lo tlo w3 a w4 hi thi,
    level e <= 0 -> P e t -> blank w1 -> op_between o -> blank w2 ->
    val_text lo tlo -> blank w3 -> ci #"and" a -> blank w4 -> val_text hi thi ->
    seam e (w1 ++ o) ->
    P (EBetween e o false lo hi) (t ++ w1 ++ o ++ w2 ++ tlo ++ w3 ++ a ++ w4 ++ thi).
Proof.
  intros e t w1 o w2 lo tlo w3 a w4 hi thi Hl HP H1 Ho H2 Hlo H3 Ha H4 Hhi Hm rest Hp _ _. cbn [level C evs]. intros _.
  rewrite <- !app_assoc. rewrite E_betweenx.
  pose proof (P_at 0 e t HP Hl ltac:(lia) (w1 ++ o ++ w2 ++ tlo ++ w3 ++ a ++ w4 ++ thi ++ rest)) as HC.
  cbn [C] in HC. rewrite HC; [|apply pfol_op; [exact H1|now apply opst_between]|apply seam_op; [now apply opst_between|exact Hm]|now apply brok_prim].
  rewrite bodyB_at by (assumption || (eapply val_start_clean; exact Hlo)).
  rewrite E_alt by reflexivity. rewrite E_altB1.
  assert (Hac : sc (a ++ w4 ++ thi ++ rest) = None) by (eapply ci_clean; [exact Ha|reflexivity]).
  rewrite (value_complete lo tlo); [|exact Hlo|].
  2:{ apply vfol_digit. apply blank_digit; [exact H3|]. destruct (ci_head _ _ _ Ha eq_refl) as (d & o' & -> & Hd).
      cbn. unfold letter in Hd. unfold is_digit. destruct (N.leb_spec 48 d), (N.leb_spec d 57); try reflexivity.
      destruct (N.leb_spec 97 d), (N.leb_spec 65 d); cbn in Hd; try lia; discriminate. }
  rewrite skip_blank_clean by assumption. rewrite (istrip_app _ _ _ Ha).
  rewrite skip_blank_clean by (assumption || (eapply val_start_clean; exact Hhi)).
  rewrite (value_complete hi thi); [|exact Hhi|apply vfol_digit; now apply pfol_digit].
  rewrite <- !app_assoc. reflexivity.
Qed.

(** the bracket form: the first alternative does not apply *)
Lemma altB1_none : forall w3 lo tlo w4 w5 hi thi w6 o e rest,
  blank w3 -> val_text lo tlo -> blank w4 -> blank w5 -> val_text hi thi -> blank w6 ->
  brok (EBetween e o true lo hi) rest ->
  E altB1 (#"[" ++ w3 ++ tlo ++ w4 ++ #"," ++ w5 ++ thi ++ w6 ++ #"]" ++ rest) = None.
Proof.
  intros w3 lo tlo w4 w5 hi thi w6 o e rest H3 Hlo H4 H5 Hhi H6 Hb. rewrite E_altB1.
  assert (Hlit : E (PRule rLiteral) (#"[" ++ w3 ++ tlo ++ w4 ++ #"," ++ w5 ++ thi ++ w6 ++ #"]" ++ rest) = None)
    by (apply literal_none_head; reflexivity).
  rewrite E_value, Hlit.
  destruct Hlo as [l tlo Hlo|p c ls tlo Hlo].
  - destruct Hhi as [l2 thi Hhi|p c ls thi Hhi].
    + assert (Ha : arr_text false false [l; l2] (opening false ++ w3 ++ (tlo ++ w4 ++ #"," ++ w5 ++ thi) ++ w6 ++ closing false)).
      { apply at_list; try assumption. constructor; try assumption. now constructor. }
      pose proof (array_complete _ _ _ _ rest Ha) as X. unfold opening, closing in X. rewrite <- !app_assoc in X. rewrite X.
      destruct (istrip #"and" (skip rest)) as [v|] eqn:Hv; [|reflexivity].
      rewrite (Hb eq_refl v Hv). reflexivity.
    + assert (X : E (PRule rArray) (#"[" ++ w3 ++ tlo ++ w4 ++ #"," ++ w5 ++ thi ++ w6 ++ #"]" ++ rest) = None).
      { rewrite E_array, !E_arr_alt.
        change (strip (opening false) (#"[" ++ w3 ++ tlo ++ w4 ++ #"," ++ w5 ++ thi ++ w6 ++ #"]" ++ rest))
          with (Some (w3 ++ tlo ++ w4 ++ #"," ++ w5 ++ thi ++ w6 ++ #"]" ++ rest)).
        change (strip (opening true) (#"[" ++ w3 ++ tlo ++ w4 ++ #"," ++ w5 ++ thi ++ w6 ++ #"]" ++ rest))
          with (@None (list N)). cbv iota.
        rewrite skip_blank_clean by (exact H3 || (eapply lit_start_clean; exact Hlo)).
        rewrite litlist_assoc, E_seq by reflexivity.
        rewrite (literal_complete l tlo); [|exact Hlo|apply stops_lfol; apply blank_digit; [exact H4|reflexivity]].
        assert (Hsk : skip (w4 ++ #"," ++ w5 ++ thi ++ w6 ++ #"]" ++ rest) = 44%N :: w5 ++ thi ++ w6 ++ #"]" ++ rest)
          by (now rewrite skip_blank_clean by (exact H4 || reflexivity)).
        assert (Hsk2 : skip (w5 ++ thi ++ w6 ++ #"]" ++ rest) = thi ++ w6 ++ #"]" ++ rest).
        { apply skip_blank_clean; [exact H5|]. apply (val_start_clean (VArr p ls) thi). econstructor; exact Hhi. }
        destruct (arr_text_head _ _ _ _ Hhi) as (u & Hu). destruct (opening_head p) as (k & Hk & Hkl).
        assert (Y : E comma_lit (w4 ++ #"," ++ w5 ++ thi ++ w6 ++ #"]" ++ rest) = None).
        { rewrite E_comma_lit, Hsk, N.eqb_refl, Hsk2, Hu, Hk. cbn [app]. rewrite lexlit_none by exact Hkl. reflexivity. }
        rewrite E_star by reflexivity. rewrite Y. rewrite Hsk, N.eqb_refl, Hsk2, Hu.
        destruct p; reflexivity. }
      rewrite X. reflexivity.
  - assert (X : E (PRule rArray) (#"[" ++ w3 ++ tlo ++ w4 ++ #"," ++ w5 ++ thi ++ w6 ++ #"]" ++ rest) = None).
    { rewrite E_array, !E_arr_alt.
      change (strip (opening false) (#"[" ++ w3 ++ tlo ++ w4 ++ #"," ++ w5 ++ thi ++ w6 ++ #"]" ++ rest))
        with (Some (w3 ++ tlo ++ w4 ++ #"," ++ w5 ++ thi ++ w6 ++ #"]" ++ rest)).
      change (strip (opening true) (#"[" ++ w3 ++ tlo ++ w4 ++ #"," ++ w5 ++ thi ++ w6 ++ #"]" ++ rest))
        with (@None (list N)). cbv iota.
      assert (Hcl : forall r, sc (tlo ++ r) = None).
      { intro r. apply (val_start_clean (VArr p ls) tlo). econstructor; exact Hlo. }
      rewrite skip_blank_clean by (exact H3 || apply Hcl).
      destruct (arr_text_head _ _ _ _ Hlo) as (u & Hu). destruct (opening_head p) as (k & Hk & Hkl).
      assert (Y : E LitList (tlo ++ w4 ++ #"," ++ w5 ++ thi ++ w6 ++ #"]" ++ rest) = None).
      { rewrite litlist_assoc. rewrite seq_none; [reflexivity|reflexivity|]. rewrite Hu, Hk. now apply literal_none_head. }
      rewrite Y, Hu. destruct p; reflexivity. }
    rewrite X. reflexivity.
Qed.
Lemma P_between_br : forall e t w1 o w2 w3 lo tlo w4 w5 hi thi w6,
    level e <= 0 -> P e t -> blank w1 -> op_between o -> blank w2 -> blank w3 ->
    val_text lo tlo -> blank w4 -> blank w5 -> val_text hi thi -> blank w6 ->
    seam e (w1 ++ o) ->
    P (EBetween e o true lo hi)
        (t ++ w1 ++ o ++ w2 ++ #"[" ++ w3 ++ tlo ++ w4 ++ #"," ++ w5 ++ thi ++ w6 ++ #"]").
Proof.
  intros e t w1 o w2 w3 lo tlo w4 w5 hi thi w6 Hl HP H1 Ho H2 H3 Hlo H4 H5 Hhi H6 Hm rest Hp _ Hb. cbn [level C evs]. intros _.
  rewrite <- !app_assoc. rewrite E_betweenx.
  pose proof (P_at 0 e t HP Hl ltac:(lia) (w1 ++ o ++ w2 ++ #"[" ++ w3 ++ tlo ++ w4 ++ #"," ++ w5 ++ thi ++ w6 ++ #"]" ++ rest)) as HC.
  cbn [C] in HC. rewrite HC; [|apply pfol_op; [exact H1|now apply opst_between]|apply seam_op; [now apply opst_between|exact Hm]|now apply brok_prim].
  rewrite bodyB_at by (assumption || reflexivity).
  rewrite E_alt by reflexivity. rewrite (altB1_none w3 lo tlo w4 w5 hi thi w6 o e) by assumption. rewrite E_altB2.
  change (strip #"[" (#"[" ++ w3 ++ tlo ++ w4 ++ #"," ++ w5 ++ thi ++ w6 ++ #"]" ++ rest))
    with (Some (w3 ++ tlo ++ w4 ++ #"," ++ w5 ++ thi ++ w6 ++ #"]" ++ rest)). cbv iota.
  rewrite skip_blank_clean by (exact H3 || (eapply val_start_clean; exact Hlo)).
  rewrite (value_complete lo tlo); [|exact Hlo|apply vfol_digit; apply blank_digit; [exact H4|reflexivity]].
  rewrite skip_blank_clean by (exact H4 || reflexivity).
  change (strip #"," (#"," ++ w5 ++ thi ++ w6 ++ #"]" ++ rest)) with (Some (w5 ++ thi ++ w6 ++ #"]" ++ rest)). cbv iota.
  rewrite skip_blank_clean by (exact H5 || (eapply val_start_clean; exact Hhi)).
  rewrite (value_complete hi thi); [|exact Hhi|apply vfol_digit; apply blank_digit; [exact H6|reflexivity]].
  rewrite skip_blank_clean by (exact H6 || reflexivity).
  change (strip #"]" (#"]" ++ rest)) with (Some rest). cbv iota. rewrite <- !app_assoc. reflexivity.
Qed.

(** ** The other operators *)
Definition not_a (o : list N) : Prop := match o with c :: _ => (ascii_lower c =? 97)%N = false | [] => False end.
Lemma ci_not_a : forall c w o, ci (c :: w) o -> (c =? 97)%N = false -> not_a o.
Proof.
  intros c w o H Hc. unfold ci in H. destruct o as [|d o]; [discriminate|]. cbn in *. injection H as Hd _. now rewrite Hd.
Qed.
Lemma not_a_app : forall a b, not_a a -> not_a (a ++ b).
Proof. intros [|c a] b H; [contradiction|exact H]. Qed.
Lemma not_a_match : forall o, op_match o -> not_a o.
Proof.
  intros o [->|[->|[(g & x & Hg & Hx & ->)|(g & g' & x & Hg & Hg' & Hx & ->)]]]; reflexivity.
Qed.
Lemma not_a_in : forall o, op_in o -> not_a o.
Proof.
  intros o [H|(x & Hx & n & g & Hn & Hg & ->)]; [now apply (ci_not_a _ _ _ H)|]. apply not_a_app. now apply (ci_not_a _ _ _ Hn).
Qed.
Lemma not_a_cmp : forall o, op_cmp o -> not_a o.
Proof.
  intros o H. destruct H as [H|[H|[H|[H|[H|[H|(x & Hx & n & g & Hn & Hg & ->)]]]]]];
    try (now apply (ci_not_a _ _ _ H)).
  - cbn in H. decompose [or] H; subst; try contradiction; reflexivity.
  - apply not_a_app. now apply (ci_not_a _ _ _ Hn).
Qed.
Lemma brok_op : forall e w o x, blank w -> opst o -> not_a o -> brok e (w ++ o ++ x).
Proof.
  intros e w o x Hw Ho Hn. apply brok_head. rewrite skip_blank_clean by (exact Hw || now apply opst_clean).
  destruct o; [contradiction|exact Hn].
Qed.
Lemma skip_op : forall w o x, blank w -> opst o -> skip (w ++ o ++ x) = o ++ x.
Proof. intros. apply skip_blank_clean; [assumption|now apply opst_clean]. Qed.

Lemma P_pred : forall e t w o, level e <= 1 -> P e t -> gap1 w -> op_match o -> P (EPred e o) (t ++ w ++ o).
Proof.
  intros e t w o Hl HP [Hw Hn] Ho rest Hp _ _. cbn [level C evs]. intros _ _. exists (skip rest). split; [apply skip_idem|].
  rewrite <- !app_assoc. pose proof (opst_match o Ho) as Hs.
  pose proof (P_at 1 e t HP Hl ltac:(lia) (w ++ o ++ rest)) as HC. cbn [C] in HC.
  rewrite E_predx, HC; [|now apply pfol_op|now apply seam_blank|apply brok_op; [exact Hw|exact Hs|now apply not_a_match]|].
  2:{ unfold noB. rewrite skip_op by assumption. now apply match_other. }
  rewrite E_match. destruct (blank_sc w (o ++ rest) Hw Hn) as (u & ->). rewrite skip_op by assumption.
  rewrite rM_complete, consumed_app by exact Ho. reflexivity.
Qed.
Lemma P_in : forall e t w1 o w2 p c ls ta, level e <= 2 -> P e t -> blank w1 -> op_in o ->
    blank w2 -> arr_text p c ls ta -> seam e (w1 ++ o) ->
    P (EIn e o p ls) (t ++ w1 ++ o ++ w2 ++ ta).
Proof.
  intros e t w1 o w2 p c ls ta Hl HP H1 Ho H2 Ha Hm rest Hp _ _. cbn [level C evs]. intros _. exists rest. split; [reflexivity|].
  rewrite <- !app_assoc. pose proof (opst_in o Ho) as Hs.
  pose proof (P_at 2 e t HP Hl ltac:(lia) (w1 ++ o ++ w2 ++ ta ++ rest)) as HC. cbn [C] in HC.
  destruct (in_other o (w2 ++ ta ++ rest) Ho) as [HB HM].
  destruct HC as (r' & Hr & HE).
  { now apply pfol_op. } { now apply seam_op. } { apply brok_op; [exact H1|exact Hs|now apply not_a_in]. }
  { unfold noB. now rewrite skip_op by assumption. } { unfold noM. now rewrite skip_op by assumption. }
  rewrite E_inx, HE, E_bodyI, Hr, skip_op by assumption. rewrite rI_complete, consumed_app by exact Ho.
  rewrite skip_blank_clean by (exact H2 || (apply (val_start_clean (VArr p ls) ta); econstructor; exact Ha)).
  rewrite (array_complete _ _ _ _ rest Ha). reflexivity.
Qed.
Lemma P_cmp : forall l tl w1 o w2 r tr, level l <= 4 -> level r <= 3 ->
    P l tl -> blank w1 -> op_cmp o -> blank w2 -> lay r tr -> P r tr -> seam l (w1 ++ o) ->
    P (ECmp l o r) (tl ++ w1 ++ o ++ w2 ++ tr).
Proof.
  intros l tl w1 o w2 r tr Hl Hr HPl H1 Ho H2 Lr HPr Hm rest Hp Hs Hb. cbn [level C evs]. intros HF.
  rewrite <- !app_assoc. pose proof (opst_cmp o Ho) as Hst.
  destruct (cmp_other o (w2 ++ tr ++ rest) Ho) as (HB & HM & HI).
  pose proof (P_at 4 l tl HPl Hl ltac:(lia) (w1 ++ o ++ w2 ++ tr ++ rest)) as HC. cbn [C] in HC.
  destruct HC as (r1 & Hr1 & HE).
  { now apply pfol_op. } { now apply seam_op. } { apply brok_op; [exact H1|exact Hst|now apply not_a_cmp]. }
  { unfold F3, noB, noM, noI. now rewrite skip_op by assumption. }
  pose proof (P_at 3 r tr HPr Hr ltac:(lia) rest Hp Hs Hb HF) as HC. cbn [C] in HC.
  destruct HC as (r2 & Hr2 & HE2). exists r2. split; [exact Hr2|].
  rewrite HE. rewrite E_star by reflexivity. unfold cmp_step at 1. rewrite E_seq by reflexivity.
  rewrite (compare_complete w1 o w2 (tr ++ rest) H1 Ho H2 ltac:(eapply lay_clean; exact Lr) ltac:(eapply lay_not_eq; exact Lr) r1 Hr1).
  rewrite E_seq by reflexivity. rewrite HE2, E_act. fold cmp_step.
  destruct (E (cmp_step **) r2) as [[e3 r3]|]; [|reflexivity]. cbn [pre]. rewrite <- !app_assoc. reflexivity.
Qed.
Lemma P_not : forall n g e t, ci #"not" n -> gap1 g -> level e <= 4 -> lay e t -> P e t -> P (ENot e) (n ++ g ++ t).
Proof.
  intros n g e t Hn Hg Hl HL HP rest Hp Hs Hb. cbn [level C evs]. intros [HF HC]. rewrite <- !app_assoc.
  pose proof (P_at 4 e t HP Hl ltac:(lia) rest Hp Hs Hb HF) as HX. cbn [C] in HX. destruct HX as (r' & Hr & HE).
  exists r'. split; [exact Hr|].
  rewrite cmp_step_none in HE by (unfold noC in *; rewrite Hr; exact HC). cbn in HE. rewrite app_nil_r in HE.
  destruct (ci_head _ _ _ Hn eq_refl) as (d & n' & Hd & Hdl).
  assert (X : E (PRule rCompareExpression) (n ++ g ++ t ++ rest) = None).
  { apply cmp_none, prim_none.
    - rewrite Hd. apply parenP_head. now apply letter_not.
    - now apply value_not.
    - rewrite E_ident, (istrip_app _ _ _ Hn). reflexivity. }
  rewrite E_notx, X. rewrite skip_stop by (eapply ci_clean; [exact Hn|reflexivity]).
  rewrite nots_app by (assumption || (eapply lay_clean; exact HL)). rewrite HE. reflexivity.
Qed.
Lemma P_logic : forall l tl w1 o w2 r tr, level r <= 5 ->
    P l tl -> blank w1 -> op_logic o -> blank w2 -> lay r tr -> P r tr -> seam l (w1 ++ o) -> ~ bracket_clash l o r ->
    P (ELogic l o r) (tl ++ w1 ++ o ++ w2 ++ tr).
Proof.
  intros l tl w1 o w2 r tr Hr HPl H1 Ho H2 Lr HPr Hm Hk rest Hp Hs Hb. cbn [level C evs]. intros HF.
  rewrite <- !app_assoc. pose proof (opst_logic o Ho) as Hst.
  destruct (logic_other o (w2 ++ tr ++ rest) Ho) as (HB & HM & HI & HC1 & HC2 & HC3).
  pose proof (P_at 6 l tl HPl (level_max l) ltac:(lia) (w1 ++ o ++ w2 ++ tr ++ rest)) as HC. cbn [C] in HC.
  destruct HC as (r1 & Hr1 & HE).
  { now apply pfol_op. } { now apply seam_op. }
  { intros Hbr v Hv. rewrite skip_op in Hv by assumption.
    destruct Ho as [Ho|[Ho|[->| ->]]]; [|rewrite (istrip_clash #"and" _ _ _ Ho eq_refl) in Hv; discriminate|discriminate|discriminate].
    rewrite (istrip_app _ _ _ Ho) in Hv. injection Hv as <-.
    rewrite skip_blank_clean by (exact H2 || (eapply lay_clean; exact Lr)).
    destruct (starts_val r) eqn:Hsv; [exfalso; apply Hk; split; auto|]. eapply sv_false; [exact Lr|exact Hsv|exact Hs]. }
  { unfold F4, F3, noB, noM, noI, noC. rewrite skip_op by assumption. auto 10. }
  pose proof (P_at 5 r tr HPr Hr ltac:(lia) rest Hp Hs Hb HF) as HC. cbn [C] in HC.
  destruct HC as (r2 & Hr2 & HE2). exists r2. split; [exact Hr2|].
  rewrite HE. rewrite E_star by reflexivity. unfold log_step at 1. rewrite E_seq by reflexivity.
  rewrite (logic_complete w1 o w2 (tr ++ rest) H1 Ho H2 ltac:(eapply lay_clean; exact Lr) r1 Hr1).
  rewrite E_seq by reflexivity. rewrite HE2, E_act. fold log_step.
  destruct (E (log_step **) r2) as [[e3 r3]|]; [|reflexivity]. cbn [pre]. rewrite <- !app_assoc. reflexivity.
Qed.

Theorem complete_mut : (forall e t, lay e t -> P e t) /\ (forall es t, lays es t -> Q es t).
Proof.
  apply (lay_lays_ind (fun e t _ => P e t) (fun es t _ => Q es t)).
  - intros; now apply P_lit.
  - intros; eapply P_arr; eassumption.
  - intros; now apply P_name.
  - intros; now apply P_ref.
  - intros; now apply P_json.
  - intros; now apply P_call0.
  - intros; now apply P_call.
  - intros; now apply P_callc.
  - intros; now apply P_paren.
  - intros; now apply P_between.
  - intros; now apply P_between_br.
  - intros; now apply P_pred.
  - intros; eapply P_in; eassumption.
  - intros; now apply P_cmp.
  - intros; now apply P_not.
  - intros; now apply P_logic.
  - intros; now apply Q_one.
  - intros; now apply Q_cons.
Qed.
Theorem lay_complete : forall e t, lay e t -> P e t.
Proof. apply complete_mut. Qed.

(** The whole query. *)
Lemma E_grammar : forall q, E (PRule rGrammar) q =
  match E (PRule rExpression) (skip q) with
  | Some (e, r) => match skip r with [] => Some (e, []) | _ => None end
  | None => None
  end.
Proof.
  intro q. rewrite E_rule. cbn [Gann Gpeg]. rewrite E_seq by reflexivity. rewrite E_skip.
  rewrite E_seq by reflexivity. destruct (E (PRule rExpression) (skip q)) as [[e r]|]; [|reflexivity].
  rewrite E_seq by reflexivity. rewrite E_skip. rewrite E_rule. cbn [Gann Gpeg]. rewrite E_not by reflexivity. rewrite E_dot.
  destruct (skip r); [cbn; now rewrite app_nil_r|reflexivity].
Qed.
Theorem grammar_complete : forall q e, reads q e -> E (PRule rGrammar) q = Some (evs e, []).
Proof.
  intros q e (w1 & t & w2 & -> & H1 & H2 & Hl). rewrite E_grammar.
  rewrite skip_blank_clean by (exact H1 || (eapply lay_clean; exact Hl)).
  destruct (expr_ended e t w2 (lay_complete _ _ Hl)) as (r' & Hr & HE).
  { exists w2, []. split; [now rewrite app_nil_r|]. split; [exact H2|exact I]. }
  rewrite HE, Hr. rewrite <- (app_nil_r w2). rewrite skip_blank_clean by (exact H2 || reflexivity). reflexivity.
Qed.
