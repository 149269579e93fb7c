(** Every layout of an expression is accepted, with the events of that expression. *)
From Verif Require Import Base Peg Grammar PegProofs Node Vocab Tree Parse GrammarProofs Syntax Blank Lex Ops.

Local Open Scope peg_scope.

(** ** The events of an expression *)
Definition ids_ev (xs : list (list N)) : list event := concat (map id_ev xs).
Definition br_ev (b : bool) : list event := if b then [EAct 32] else [].
Fixpoint evs (e : expr) : list event :=
  match e with
  | EVal v => val_ev v
  | EName x => id_ev x
  | ERef xs => [EAct 12] ++ ids_ev xs ++ [EAct 13]
  | EJson xs => [EAct 30] ++ ids_ev xs ++ [EAct 31]
  | ECall f args => id_ev f ++ [EAct 10] ++ concat (map evs args) ++ [EAct 11; EAct 9]
  | EParen e => evs e ++ [EAct 8]
  | EBetween e o b lo hi => evs e ++ [EText o; EAct 6] ++ val_ev lo ++ val_ev hi ++ br_ev b ++ [EAct 7]
  | EPred e o => evs e ++ [EText o; EAct 20; EAct 5]
  | EIn e o p ls => evs e ++ [EText o; EAct 3] ++ arr_ev p ls ++ [EAct 4]
  | ECmp l o r => evs l ++ [EText o; EAct (cmp_act o)] ++ evs r ++ [EAct 2]
  | ENot e => evs e ++ [EAct 1]
  | ELogic l o r => evs l ++ [EText o; EAct (logic_act o)] ++ evs r ++ [EAct 0]
  end.

Definition pre (ev : list event) (o : option (list event * list N)) : option (list event * list N) :=
  match o with Some (e2, r) => Some (ev ++ e2, r) | None => None end.
Lemma pre_pre : forall a b o, pre a (pre b o) = pre (a ++ b) o.
Proof. intros a b [[e r]|]; cbn; [rewrite app_assoc|]; reflexivity. Qed.

(** ** The rules, unfolded *)
Definition cmp_step : pexp := PRule rCompare ;; PRule rCompareInExpression ;; PAct 2.
Definition log_step : pexp := PRule rLogic ;; PRule rNotExpression ;; PAct 0.
Definition parenP : pexp := ch #"(" ;; W ;; PRule rExpression ;; W ;; ch #")" ;; PAct 8.
Definition callP : pexp := PRule rIdentifier ;; PRule rArgumentList ;; PAct 9.
Definition altB1 : pexp := PRule rValue ;; W ;; ilit #"and" ;; W ;; PRule rValue.
Definition altB2 : pexp := ch #"[" ;; W ;; PRule rValue ;; W ;; ch #"," ;; W ;; PRule rValue ;; W ;; ch #"]" ;; PAct 32.
Definition bodyB : pexp := W ;; capB ;; PAct 6 ;; W ;; (altB1 // altB2) ;; PAct 7.
Definition bodyI : pexp := W ;; capI ;; W ;; PAct 3 ;; PRule rArray ;; PAct 4.

Lemma E_expression : forall s, E (PRule rExpression) s = E (PRule rLogicExpression) s.
Proof. intro s. rewrite E_rule. reflexivity. Qed.
Lemma E_logicx : forall s, E (PRule rLogicExpression) s = E (PRule rNotExpression ;; (log_step **)) s.
Proof. intro s. rewrite E_rule. reflexivity. Qed.
Lemma E_notx : forall s, E (PRule rNotExpression) s =
  match E (PRule rCompareExpression) s with
  | Some r => Some r
  | None => match nots (skip s) with
            | Some v => match E (PRule rCompareExpression) v with
                        | Some (e, r) => Some (e ++ [EAct 1], r)
                        | None => None end
            | None => None end
  end.
Proof.
  intro s. rewrite E_rule. cbn [Gann Gpeg]. rewrite E_alt by reflexivity.
  destruct (E (PRule rCompareExpression) s); [reflexivity|].
  rewrite E_seq by reflexivity. rewrite E_skip. rewrite E_seq by reflexivity.
  rewrite E_ilit by (discriminate || reflexivity). unfold nots.
  destruct (istrip #"not" (skip s)) as [v|]; [|reflexivity]. cbn [ret obind].
  rewrite E_seq by reflexivity. rewrite E_WW. unfold gapf. destruct (sc v); [|reflexivity].
  rewrite E_seq by reflexivity. destruct (E (PRule rCompareExpression) (skip v)) as [[e r]|]; [|reflexivity].
  rewrite E_act. reflexivity.
Qed.
Lemma E_cmpx : forall s, E (PRule rCompareExpression) s = E (PRule rCompareInExpression ;; (cmp_step **)) s.
Proof. intro s. rewrite E_rule. reflexivity. Qed.
Lemma E_bodyI : forall s, E bodyI s =
  match rI (skip s) with
  | Some r => match E (PRule rArray) (skip r) with
              | Some (e, r2) => Some ([EText (consumed (skip s) r); EAct 3] ++ e ++ [EAct 4], r2)
              | None => None end
  | None => None
  end.
Proof.
  intro s. unfold bodyI. rewrite E_seq by reflexivity. rewrite E_skip. rewrite E_seq by reflexivity. rewrite E_capI.
  destruct (rI (skip s)) as [r|]; [|reflexivity]. cbn [captured].
  rewrite E_seq by reflexivity. rewrite E_skip. rewrite E_seq by reflexivity. rewrite E_act.
  rewrite E_seq by reflexivity. destruct (E (PRule rArray) (skip r)) as [[e r2]|]; [|reflexivity].
  rewrite E_act. reflexivity.
Qed.
Lemma E_inx : forall s, E (PRule rCompareInExpression) s =
  match E (PRule rPredicateExpression) s with
  | Some (e, r) => match E bodyI r with Some (e2, r2) => Some (e ++ e2, r2) | None => Some (e, r) end
  | None => None
  end.
Proof.
  intro s. rewrite E_rule. cbn [Gann Gpeg]. fold capI. fold bodyI. rewrite E_seq by reflexivity.
  destruct (E (PRule rPredicateExpression) s) as [[e r]|]; [|reflexivity].
  rewrite E_opt by reflexivity. destruct (E bodyI r) as [[e2 r2]|]; [reflexivity|]. now rewrite app_nil_r.
Qed.
Lemma E_match : forall s, E (PRule rMatch) s =
  match sc s with
  | Some _ => match rM (skip s) with
              | Some r => Some ([EText (consumed (skip s) r); EAct 20], skip r)
              | None => None end
  | None => None
  end.
Proof.
  intro s. rewrite E_rule. cbn [Gann Gpeg]. fold capM. rewrite E_seq by reflexivity. rewrite E_WW.
  destruct (sc s); [|reflexivity]. rewrite E_seq by reflexivity. rewrite E_capM.
  destruct (rM (skip s)) as [r|]; [|reflexivity]. cbn [captured]. rewrite E_seq by reflexivity. rewrite E_skip, E_act. reflexivity.
Qed.
Lemma E_predx : forall s, E (PRule rPredicateExpression) s =
  match E (PRule rBetweenExpression) s with
  | Some (e, r) => match E (PRule rMatch) r with Some (e2, r2) => Some (e ++ e2 ++ [EAct 5], r2) | None => Some (e, r) end
  | None => None
  end.
Proof.
  intro s. rewrite E_rule. cbn [Gann Gpeg]. rewrite E_seq by reflexivity.
  destruct (E (PRule rBetweenExpression) s) as [[e r]|]; [|reflexivity].
  rewrite E_opt by reflexivity. rewrite E_seq by reflexivity.
  destruct (E (PRule rMatch) r) as [[e2 r2]|]; [rewrite E_act; reflexivity|]. now rewrite app_nil_r.
Qed.
Lemma E_altB1 : forall s, E altB1 s =
  match E (PRule rValue) s with
  | Some (e1, s1) => match istrip #"and" (skip s1) with
    | Some v => match E (PRule rValue) (skip v) with
      | Some (e2, s2) => Some (e1 ++ e2, s2) | None => None end
    | None => None end
  | None => None end.
Proof.
  intro s. unfold altB1. rewrite E_seq by reflexivity. destruct (E (PRule rValue) s) as [[e1 s1]|]; [|reflexivity].
  rewrite E_seq by reflexivity. rewrite E_skip. rewrite E_seq by reflexivity.
  rewrite E_ilit by (discriminate || reflexivity). destruct (istrip #"and" (skip s1)) as [v|]; [|reflexivity].
  cbn [ret]. rewrite E_seq by reflexivity. rewrite E_skip.
  destruct (E (PRule rValue) (skip v)) as [[e2 s2]|]; reflexivity.
Qed.
Lemma E_altB2 : forall s, E altB2 s =
  match strip #"[" s with
  | Some s0 => match E (PRule rValue) (skip s0) with
    | Some (e1, s1) => match strip #"," (skip s1) with
      | Some v => match E (PRule rValue) (skip v) with
        | Some (e2, s2) => match strip #"]" (skip s2) with
          | Some r => Some (e1 ++ e2 ++ [EAct 32], r) | None => None end
        | None => None end
      | None => None end
    | None => None end
  | None => None end.
Proof.
  intro s. unfold altB2, ch. rewrite E_seq by reflexivity. rewrite E_lit by discriminate.
  destruct (strip #"[" s) as [s0|]; [|reflexivity]. cbn [ret].
  rewrite E_seq by reflexivity. rewrite E_skip. rewrite E_seq by reflexivity.
  destruct (E (PRule rValue) (skip s0)) as [[e1 s1]|]; [|reflexivity].
  rewrite E_seq by reflexivity. rewrite E_skip. rewrite E_seq by reflexivity. rewrite E_lit by discriminate.
  destruct (strip #"," (skip s1)) as [v|]; [|reflexivity]. cbn [ret].
  rewrite E_seq by reflexivity. rewrite E_skip. rewrite E_seq by reflexivity.
  destruct (E (PRule rValue) (skip v)) as [[e2 s2]|]; [|reflexivity].
  rewrite E_seq by reflexivity. rewrite E_skip. rewrite E_seq by reflexivity. rewrite E_lit by discriminate.
  destruct (strip #"]" (skip s2)) as [r|]; [|reflexivity]. cbn [ret]. rewrite E_act. reflexivity.
Qed.
Lemma E_bodyB : forall s, E bodyB s =
  match rB (skip s) with
  | Some r => match E (altB1 // altB2) (skip r) with
              | Some (e, r2) => Some ([EText (consumed (skip s) r); EAct 6] ++ e ++ [EAct 7], r2)
              | None => None end
  | None => None
  end.
Proof.
  intro s. unfold bodyB. rewrite E_seq by reflexivity. rewrite E_skip. rewrite E_seq by reflexivity. rewrite E_capB.
  destruct (rB (skip s)) as [r|]; [|reflexivity]. cbn [captured].
  rewrite E_seq by reflexivity. rewrite E_act. rewrite E_seq by reflexivity. rewrite E_skip.
  rewrite E_seq by reflexivity. destruct (E (altB1 // altB2) (skip r)) as [[e r2]|]; [|reflexivity].
  rewrite E_act. reflexivity.
Qed.
Lemma E_betweenx : forall s, E (PRule rBetweenExpression) s =
  match E (PRule rPrimaryExpression) s with
  | Some (e, r) => match E bodyB r with Some (e2, r2) => Some (e ++ e2, r2) | None => Some (e, r) end
  | None => None
  end.
Proof.
  intro s. rewrite E_rule. cbn [Gann Gpeg]. fold capB. fold altB1. fold altB2. fold bodyB. rewrite E_seq by reflexivity.
  destruct (E (PRule rPrimaryExpression) s) as [[e r]|]; [|reflexivity].
  rewrite E_opt by reflexivity. destruct (E bodyB r) as [[e2 r2]|]; [reflexivity|]. now rewrite app_nil_r.
Qed.
Lemma E_parenP : forall s, E parenP s =
  match strip #"(" s with
  | Some t => match E (PRule rExpression) (skip t) with
    | Some (e, u) => match strip #")" (skip u) with
      | Some r => Some (e ++ [EAct 8], r) | None => None end
    | None => None end
  | None => None end.
Proof.
  intro s. unfold parenP, ch. rewrite E_seq by reflexivity. rewrite E_lit by discriminate.
  destruct (strip #"(" s) as [t|]; [|reflexivity]. cbn [ret].
  rewrite E_seq by reflexivity. rewrite E_skip. rewrite E_seq by reflexivity.
  destruct (E (PRule rExpression) (skip t)) as [[e u]|]; [|reflexivity].
  rewrite E_seq by reflexivity. rewrite E_skip. rewrite E_seq by reflexivity. rewrite E_lit by discriminate.
  destruct (strip #")" (skip u)) as [r|]; [|reflexivity]. cbn [ret]. rewrite E_act. reflexivity.
Qed.
Lemma E_primary : forall s, E (PRule rPrimaryExpression) s =
  orelse (E parenP s) (orelse (E (PRule rValue) s) (orelse (E callP s) (E (PRule rReference) s))).
Proof.
  intro s. rewrite E_rule. cbn [Gann Gpeg]. fold parenP. fold callP. do 3 rewrite E_alt by reflexivity.
  destruct (E parenP s); [reflexivity|]. destruct (E (PRule rValue) s); [reflexivity|]. destruct (E callP s); reflexivity.
Qed.
Definition comma_arg : pexp := W ;; ch #"," ;; W ;; PRule rArgument.
Lemma E_comma_arg : forall s, E comma_arg s =
  match strip #"," (skip s) with
  | Some t => E (PRule rExpression) (skip t)
  | None => None
  end.
Proof.
  intro s. unfold comma_arg, ch. rewrite E_seq by reflexivity. rewrite E_skip.
  rewrite E_seq by reflexivity. rewrite E_lit by discriminate.
  destruct (strip #"," (skip s)) as [t|]; [|reflexivity]. cbn [ret].
  rewrite E_seq by reflexivity. rewrite E_skip. rewrite E_rule. cbn [Gann Gpeg].
  destruct (E (PRule rExpression) (skip t)) as [[e r]|]; reflexivity.
Qed.
Definition args1 : pexp := PRule rArgument ;; (comma_arg **).
Lemma E_arglist0 : forall s, E ArgList s =
  match E args1 s with
  | Some (e1, s1) => match strip #"," (skip s1) with Some t => Some (e1, t) | None => Some (e1, skip s1) end
  | None => None
  end.
Proof.
  intro s. unfold ArgList, args1. fold comma_arg. rewrite !E_seq by reflexivity.
  destruct (E (PRule rArgument) s) as [[e1 s1]|]; [|reflexivity].
  rewrite E_seq by reflexivity. destruct (E (comma_arg **) s1) as [[e2 s2]|]; [|reflexivity].
  rewrite E_seq by reflexivity. rewrite E_skip. rewrite E_opt by reflexivity.
  unfold ch. rewrite E_lit by discriminate. destruct (strip #"," (skip s2)) as [t|]; cbn; rewrite app_nil_r; reflexivity.
Qed.
Lemma E_arglist : forall s, E (PRule rArgumentList) s =
  match strip #"(" s with
  | None => None
  | Some t =>
    match E ArgList (skip t) with
    | Some (ev, u) => match strip #")" (skip u) with
                      | Some r => Some ([EAct 10] ++ ev ++ [EAct 11], r)
                      | None => None end
    | None => match strip #")" (skip t) with
              | Some r => Some ([EAct 10; EAct 11], r)
              | None => None end
    end
  end.
Proof.
  intro s. rewrite E_rule. cbn [Gann Gpeg]. rewrite E_seq by reflexivity. unfold ch at 1. rewrite E_lit by discriminate.
  destruct (strip #"(" s) as [t|]; [|reflexivity]. cbn [ret].
  rewrite E_seq by reflexivity. rewrite E_skip. rewrite E_seq by reflexivity. rewrite E_act.
  rewrite E_seq by reflexivity. rewrite E_opt by reflexivity.
  destruct (E ArgList (skip t)) as [[ev u]|];
    rewrite E_seq by reflexivity; rewrite E_skip, ?skip_idem;
    rewrite E_seq by reflexivity; unfold ch; rewrite E_lit by discriminate;
    match goal with |- context [strip ?w ?x] => destruct (strip w x) as [r|]; [|reflexivity] end;
    cbn [ret]; rewrite E_act; reflexivity.
Qed.
Lemma E_callP : forall s, E callP s =
  match E (PRule rIdentifier) s with
  | Some (e1, s1) => match E (PRule rArgumentList) s1 with
    | Some (e2, r) => Some (e1 ++ e2 ++ [EAct 9], r) | None => None end
  | None => None end.
Proof.
  intro s. unfold callP. rewrite E_seq by reflexivity. destruct (E (PRule rIdentifier) s) as [[e1 s1]|]; [|reflexivity].
  rewrite E_seq by reflexivity. destruct (E (PRule rArgumentList) s1) as [[e2 r]|]; [|reflexivity]. rewrite E_act. reflexivity.
Qed.
Definition dotid : pexp := ch #"." ;; PRule rIdentifier.
Lemma E_dotid : forall s, E dotid s = match strip #"." s with Some t => E (PRule rIdentifier) t | None => None end.
Proof.
  intro s. unfold dotid, ch. rewrite E_seq by reflexivity. rewrite E_lit by discriminate.
  destruct (strip #"." s) as [t|]; [|reflexivity]. cbn [ret]. destruct (E (PRule rIdentifier) t) as [[e r]|]; reflexivity.
Qed.
Lemma E_idref : forall s, E (PRule rIdentifierReference) s =
  match E (PRule rIdentifier) s with
  | Some (e1, s1) => match E dotid s1 with
    | Some (e2, s2) => match E (dotid **) s2 with
      | Some (e3, r) => Some ([EAct 12] ++ (e1 ++ e2 ++ e3) ++ [EAct 13], r) | None => None end
    | None => None end
  | None => None end.
Proof.
  intro s. rewrite E_rule. cbn [Gann Gpeg]. fold dotid. rewrite E_seq by reflexivity. rewrite E_act.
  rewrite E_seq by reflexivity. destruct (E (PRule rIdentifier) s) as [[e1 s1]|]; [|reflexivity].
  rewrite E_dotid. unfold ch. rewrite E_seq by reflexivity. rewrite E_lit by discriminate.
  destruct (strip #"." s1) as [t|]; [|reflexivity]. cbn [ret].
  rewrite E_seq by reflexivity. destruct (E (PRule rIdentifier) t) as [[e2 s2]|]; [|reflexivity].
  rewrite E_seq by reflexivity. fold (ch #"."). fold dotid.
  destruct (E (dotid **) s2) as [[e3 r]|]; [|reflexivity]. rewrite E_act. cbn. now rewrite <- !app_assoc.
Qed.
Lemma E_json : forall s, E (PRule rJsonReference) s =
  match E (PRule rIdentifier) s with
  | Some (e1, s1) => match strip #"->" s1 with
    | Some t => pre e1 (orelse (E (PRule rJsonReference) t) (E (PRule rIdentifier) t))
    | None => None end
  | None => None end.
Proof.
  intro s. rewrite E_rule. cbn [Gann Gpeg]. rewrite E_seq by reflexivity.
  destruct (E (PRule rIdentifier) s) as [[e1 s1]|]; [|reflexivity].
  rewrite E_seq by reflexivity. rewrite E_lit by discriminate. destruct (strip #"->" s1) as [t|]; [|reflexivity].
  cbn [ret]. rewrite E_alt by reflexivity. unfold orelse.
  destruct (E (PRule rJsonReference) t) as [[e r]|]; [reflexivity|].
  destruct (E (PRule rIdentifier) t) as [[e r]|]; reflexivity.
Qed.
Definition wrapj (o : option (list event * list N)) : option (list event * list N) :=
  match o with Some (e, r) => Some ([EAct 30] ++ e ++ [EAct 31], r) | None => None end.
Lemma E_ref : forall s, E (PRule rReference) s =
  orelse (E (PRule rIdentifierReference) s) (orelse (wrapj (E (PRule rJsonReference) s)) (E (PRule rIdentifier) s)).
Proof.
  intro s. rewrite E_rule. cbn [Gann Gpeg]. do 2 rewrite E_alt by reflexivity.
  destruct (E (PRule rIdentifierReference) s); [reflexivity|]. rewrite E_seq, E_act, E_seq by reflexivity.
  destruct (E (PRule rJsonReference) s) as [[e r]|]; [|reflexivity]. rewrite E_act. reflexivity.
Qed.

(** ** What may follow *)
Definition pfol (r : list N) : Prop :=
  match r with c :: _ => mem c [40; 46]%N = false /\ is_digit c = false | [] => True end /\ strip #"->" r = None.
Definition brok (e : expr) (r : list N) : Prop :=
  ends_bracket e = true -> forall v, istrip #"and" (skip r) = Some v -> E (PRule rValue) (skip v) = None.

Lemma blank_head : forall w r, blank w -> w <> [] ->
  exists c u, w ++ r = c :: u /\ mem c [32; 9; 10; 13; 45; 47]%N = true /\ strip #"->" (w ++ r) = None.
Proof.
  intros w r H Hn. destruct H as [|c w Hc Hw|m b c w Hm Hb Hc Hw]; [congruence| |].
  - exists c, (w ++ r). split; [reflexivity|]. cbn in Hc. cbn.
    destruct (N.eqb_spec c 32) as [->|]; [split; reflexivity|]. destruct (N.eqb_spec c 9) as [->|]; [split; reflexivity|].
    destruct (N.eqb_spec c 10) as [->|]; [split; reflexivity|]. destruct (N.eqb_spec c 13) as [->|]; [split; reflexivity|discriminate].
  - destruct Hm as [->| ->]; eexists _, _; split; [reflexivity|split; reflexivity|reflexivity|split; reflexivity].
Qed.
Lemma blank_start_facts : forall c, mem c [32; 9; 10; 13; 45; 47]%N = true ->
  mem c [40; 46]%N = false /\ is_digit c = false /\ idchar c = false.
Proof.
  intros c H. cbn in H. repeat (apply orb_true_iff in H; destruct H as [H|H]);
    try discriminate H; apply N.eqb_eq in H; subst c; auto.
Qed.
Lemma pfol_blank : forall w r, blank w -> pfol r -> pfol (w ++ r).
Proof.
  intros w r Hw Hr. destruct w as [|c0 w0]; [exact Hr|].
  destruct (blank_head (c0 :: w0) r Hw) as (c & u & He & Hc & Ha); [discriminate|].
  destruct (blank_start_facts c Hc) as (H1 & H2 & _). unfold pfol. split; [|exact Ha]. rewrite He. auto.
Qed.
Lemma pfol_op : forall w o r, blank w -> opst o -> pfol (w ++ o ++ r).
Proof.
  intros w o r Hw (c & u & -> & Ho). apply pfol_blank; [exact Hw|].
  destruct (op_start_not c Ho) as (H1 & H2 & H3). split.
  - split; [|exact H2]. cbn in H3. cbn. repeat (apply orb_false_iff in H3; destruct H3 as [? H3]).
    now rewrite H, H5.
  - cbn. unfold blank_start, mem in H1. cbn in H1.
    destruct (N.eqb_spec c 45) as [->|]; [discriminate|reflexivity].
Qed.
Definition closer (c : N) : bool := (c =? 41)%N || (c =? 44)%N.
Definition ended (r : list N) : Prop := exists w u, r = w ++ u /\ blank w /\
  match u with [] => True | c :: _ => closer c = true end.
Lemma ended_skip : forall r, ended r -> match skip r with [] => True | c :: _ => closer c = true end.
Proof.
  intros r (w & u & -> & Hw & Hu). rewrite skip_blank_clean; [exact Hu|exact Hw|].
  destruct u as [|c u]; [reflexivity|]. apply sc_head. unfold closer in Hu.
  destruct (N.eqb_spec c 41) as [->|]; [reflexivity|]. destruct (N.eqb_spec c 44) as [->|]; [reflexivity|discriminate].
Qed.
Lemma closer_facts : forall c, closer c = true -> op_start c = false /\ mem c [40; 46]%N = false /\ is_digit c = false /\ idchar c = false.
Proof.
  intros c H. unfold closer in H. apply orb_true_iff in H. destruct H as [H|H]; apply N.eqb_eq in H; subst c; auto.
Qed.
Lemma ended_pfol : forall r, ended r -> pfol r.
Proof.
  intros r (w & u & -> & Hw & Hu). apply pfol_blank; [exact Hw|]. destruct u as [|c u]; [split; [exact I|reflexivity]|].
  destruct (closer_facts c Hu) as (_ & H1 & H2 & _). split; [auto|]. cbn. unfold closer in Hu.
  destruct (N.eqb_spec c 45) as [->|]; [discriminate|reflexivity].
Qed.
Lemma seam_blank : forall e w r, blank w -> w <> [] -> seam e (w ++ r).
Proof.
  intros e w r Hw Hn _. destruct (blank_head w r Hw Hn) as (c & u & -> & Hc & _). now apply blank_start_facts in Hc.
Qed.
Lemma ended_seam : forall e r, ended r -> seam e r.
Proof.
  intros e r (w & u & -> & Hw & Hu). destruct w as [|c0 w0]; [|apply seam_blank; [exact Hw|discriminate]].
  intros _. cbn. destruct u as [|c u]; [exact I|]. now apply closer_facts.
Qed.
Lemma brok_head : forall e r, match skip r with [] => True | c :: _ => (ascii_lower c =? 97)%N = false end -> brok e r.
Proof.
  intros e r H _ v Hv. destruct (skip r) as [|c u]; [discriminate|]. cbn in Hv.
  change (N_of_ascii "a"%char) with 97%N in Hv. rewrite H in Hv. discriminate.
Qed.
Lemma op_start_a : forall c, op_start c = false -> (ascii_lower c =? 97)%N = false.
Proof.
  intros c H. unfold op_start in H. destruct (N.eqb_spec (ascii_lower c) 97) as [Hx|]; [|reflexivity].
  rewrite Hx in H. discriminate.
Qed.
Lemma ended_brok : forall e r, ended r -> brok e r.
Proof.
  intros e r H. apply brok_head. apply ended_skip in H. destruct (skip r) as [|c u]; [exact I|].
  apply op_start_a. now apply closer_facts.
Qed.
Definition F3 (r : list N) : Prop := noB r /\ noM r /\ noI r.
Definition F4 (r : list N) : Prop := F3 r /\ noC r.
Definition F6 (r : list N) : Prop := F4 r /\ noL r.
Lemma F6_head : forall r, match skip r with [] => True | c :: _ => op_start c = false end -> F6 r.
Proof.
  intros r H. destruct (no_ops _ H) as (A & B & C & D1 & D2 & D3 & L1 & L2). repeat split; assumption.
Qed.
Lemma ended_F6 : forall r, ended r -> F6 r.
Proof.
  intros r H. apply F6_head. apply ended_skip in H. destruct (skip r) as [|c u]; [exact I|]. now apply closer_facts.
Qed.

(** ** First characters *)
Definition starter (c : N) : bool := letter c || lit_start c || (c =? 40)%N || (c =? 91)%N.
Lemma ident_head : forall x, ident x -> exists c u, x = c :: u /\ letter c = true.
Proof. intros x [(c & r & -> & Hc & _) _]. eauto. Qed.
Lemma starter_letter : forall c, letter c = true -> starter c = true.
Proof. intros c H. unfold starter. now rewrite H. Qed.
Lemma starter_lit : forall c, lit_start c = true -> starter c = true.
Proof. intros c H. unfold starter. rewrite H. now rewrite orb_true_r. Qed.
Lemma lay_head : forall e t, lay e t -> exists c u, t = c :: u /\ starter c = true.
Proof.
  intros e t H. induction H;
    try (match goal with Hh : exists c u, ?t = c :: u /\ starter c = true |- exists c u, ?t ++ _ = _ /\ _ =>
           destruct Hh as (k & v & -> & Hk); exists k; eexists; split; [reflexivity|exact Hk] end).
  - destruct (lit_text_head _ _ H) as (c & u & -> & Hc). exists c, u. split; [reflexivity|now apply starter_lit].
  - destruct (arr_text_head _ _ _ _ H) as (u & ->). destruct p; eexists _, _; split; reflexivity.
  - destruct (ident_head _ H) as (c & u & -> & Hc). exists c, u. split; [reflexivity|now apply starter_letter].
  - inversion H as [|? ? Hx _]; subst. destruct (ident_head _ Hx) as (c & u & -> & Hc).
    eexists c, _. split; [reflexivity|now apply starter_letter].
  - inversion H as [|? ? Hx _]; subst. destruct (ident_head _ Hx) as (c & u & -> & Hc).
    eexists c, _. split; [reflexivity|now apply starter_letter].
  - destruct (ident_head _ H) as (c & u & -> & Hc). eexists c, _. split; [reflexivity|now apply starter_letter].
  - destruct (ident_head _ H) as (c & u & -> & Hc). eexists c, _. split; [reflexivity|now apply starter_letter].
  - destruct (ident_head _ H) as (c & u & -> & Hc). eexists c, _. split; [reflexivity|now apply starter_letter].
  - eexists _, _. split; reflexivity.
  - destruct (ci_head _ _ _ H eq_refl) as (d & o' & -> & Hd). eexists d, _. split; [reflexivity|now apply starter_letter].
Qed.
Lemma starter_facts : forall c, starter c = true ->
  blank_start c = false /\ (c =? 61)%N = false /\ (c =? 41)%N = false /\ (c =? 44)%N = false /\ (c =? 93)%N = false.
Proof.
  intros c H. unfold starter, letter, lit_start, is_digit, mem in H.
  unfold blank_start, mem; cbn [existsb].
  assert (X : forall k, (c =? k)%N = true -> c = k) by (intros k Hk; now apply N.eqb_eq).
  repeat match goal with
  | |- context [(c =? ?k)%N] => destruct (N.eqb_spec c k); [subst; discriminate H|]
  end. repeat split.
Qed.
Lemma lay_clean : forall e t r, lay e t -> sc (t ++ r) = None.
Proof. intros e t r H. destruct (lay_head _ _ H) as (c & u & -> & Hc). apply sc_head. now apply starter_facts in Hc. Qed.
Lemma lay_not_eq : forall e t r, lay e t -> not_eq_head (t ++ r).
Proof. intros e t r H. destruct (lay_head _ _ H) as (c & u & -> & Hc). cbn. now apply starter_facts in Hc. Qed.
Lemma lays_head : forall es t, lays es t -> exists c u, t = c :: u /\ starter c = true.
Proof.
  intros es t H. destruct H as [e t He|e t w1 w2 es ts He]; destruct (lay_head _ _ He) as (c & u & -> & Hc).
  - eauto.
  - eexists c, _. split; [reflexivity|exact Hc].
Qed.
Lemma lays_clean : forall es t r, lays es t -> sc (t ++ r) = None.
Proof. intros e t r H. destruct (lays_head _ _ H) as (c & u & -> & Hc). apply sc_head. now apply starter_facts in Hc. Qed.

(** ** Nothing to read *)
Lemma ref_none : forall s, E (PRule rIdentifier) s = None -> E (PRule rReference) s = None.
Proof. intros s H. rewrite E_ref, E_idref, E_json, H. reflexivity. Qed.
Lemma prim_none : forall s, E parenP s = None -> E (PRule rValue) s = None -> E (PRule rIdentifier) s = None ->
  E (PRule rPrimaryExpression) s = None.
Proof. intros s H1 H2 H3. rewrite E_primary, H1, H2, E_callP, H3, (ref_none _ H3). reflexivity. Qed.
Lemma cmp_none : forall s, E (PRule rPrimaryExpression) s = None -> E (PRule rCompareExpression) s = None.
Proof.
  intros s H. rewrite E_cmpx. rewrite seq_none; [reflexivity|reflexivity|].
  rewrite E_inx, E_predx, E_betweenx, H. reflexivity.
Qed.
Lemma parenP_head : forall c s, (c =? 40)%N = false -> E parenP (c :: s) = None.
Proof.
  intros c s H. rewrite E_parenP. cbn. change (N_of_ascii "("%char) with 40%N. rewrite H. reflexivity.
Qed.
Lemma expr_none_head : forall c s, starter c = false -> blank_start c = false -> E (PRule rExpression) (c :: s) = None.
Proof.
  intros c s H Hb. unfold starter in H. do 3 (apply orb_false_iff in H; destruct H as [H ?Hx]).
  rewrite E_expression, E_logicx. rewrite seq_none; [reflexivity|reflexivity|].
  assert (X : E (PRule rCompareExpression) (c :: s) = None).
  { apply cmp_none, prim_none; [now apply parenP_head|now apply value_none_head|now apply ident_none]. }
  rewrite E_notx, X. rewrite skip_stop by now apply sc_head. unfold nots. cbn [istrip runes_of].
  destruct (N.eqb_spec (ascii_lower c) (N_of_ascii "n")) as [He|]; [|reflexivity].
  apply ascii_lower_letter in He; [congruence|reflexivity].
Qed.
Lemma expr_none_nil : E (PRule rExpression) [] = None.
Proof.
  rewrite E_expression, E_logicx. rewrite seq_none; [reflexivity|reflexivity|].
  assert (X : E (PRule rCompareExpression) [] = None).
  { apply cmp_none, prim_none; [rewrite E_parenP; reflexivity|apply value_nil|apply ident_nil]. }
  rewrite E_notx, X, (skip_stop [] eq_refl). reflexivity.
Qed.

(** ** The statement, level by level *)
Definition C (k : nat) (e : expr) (t rest : list N) : Prop :=
  match k with
  | 0 => E (PRule rPrimaryExpression) (t ++ rest) = Some (evs e, rest)
  | 1 => noB rest -> E (PRule rBetweenExpression) (t ++ rest) = Some (evs e, rest)
  | 2 => noB rest -> noM rest -> exists r', skip r' = skip rest /\
           E (PRule rPredicateExpression) (t ++ rest) = Some (evs e, r')
  | 3 => F3 rest -> exists r', skip r' = skip rest /\
           E (PRule rCompareInExpression) (t ++ rest) = Some (evs e, r')
  | 4 => F3 rest -> exists r', skip r' = skip rest /\
           E (PRule rCompareExpression) (t ++ rest) = pre (evs e) (E (cmp_step **) r')
  | 5 => F4 rest -> exists r', skip r' = skip rest /\
           E (PRule rNotExpression) (t ++ rest) = Some (evs e, r')
  | _ => F4 rest -> exists r', skip r' = skip rest /\
           E (PRule rLogicExpression) (t ++ rest) = pre (evs e) (E (log_step **) r')
  end.

Lemma cmp_step_none : forall r, noC r -> E (cmp_step **) r = Some ([], r).
Proof.
  intros r H. rewrite E_star by reflexivity. unfold cmp_step at 1.
  rewrite seq_none; [reflexivity|reflexivity|]. now apply compare_none.
Qed.
Lemma log_step_none : forall r, noL r -> E (log_step **) r = Some ([], r).
Proof.
  intros r H. rewrite E_star by reflexivity. unfold log_step at 1.
  rewrite seq_none; [reflexivity|reflexivity|]. now apply logic_none.
Qed.

Lemma lift : forall k e t rest, k < 6 -> C k e t rest -> C (S k) e t rest.
Proof.
  intros k e t rest Hk. destruct k as [|[|[|[|[|[|k]]]]]]; cbn [C].
  - intros H Hb. rewrite E_betweenx, H. rewrite E_bodyB. unfold noB in Hb. rewrite Hb. reflexivity.
  - intros H Hb Hm. exists rest. split; [reflexivity|]. rewrite E_predx, (H Hb). rewrite E_match.
    unfold noM in Hm. rewrite Hm. destruct (sc rest); reflexivity.
  - intros H (Hb & Hm & Hi). destruct (H Hb Hm) as (r' & Hs & HE). exists r'. split; [exact Hs|].
    rewrite E_inx, HE. rewrite E_bodyI, Hs. unfold noI in Hi. rewrite Hi. reflexivity.
  - intros H Hf. destruct (H Hf) as (r' & Hs & HE). exists r'. split; [exact Hs|].
    rewrite E_cmpx. rewrite E_seq by reflexivity. rewrite HE. reflexivity.
  - intros H [Hf Hc]. destruct (H Hf) as (r' & Hs & HE). exists r'. split; [exact Hs|].
    rewrite E_notx, HE. rewrite cmp_step_none; [|unfold noC in *; rewrite Hs; exact Hc]. cbn. now rewrite app_nil_r.
  - intros H Hf. destruct (H Hf) as (r' & Hs & HE). exists r'. split; [exact Hs|].
    rewrite E_logicx. rewrite E_seq by reflexivity. rewrite HE. reflexivity.
  - lia.
Qed.
Lemma lift_to : forall k e t rest, level e <= k -> k <= 6 -> C (level e) e t rest -> C k e t rest.
Proof.
  intros k e t rest Hl Hk H. remember (k - level e) as d eqn:Hd. revert k Hl Hk Hd.
  induction d as [|d IH]; intros k Hl Hk Hd.
  - replace k with (level e) by lia. exact H.
  - destruct k as [|k]; [lia|]. apply lift; [lia|]. apply IH; lia.
Qed.
Lemma level_max : forall e, level e <= 6.
Proof. destruct e; cbn; lia. Qed.

Definition P (e : expr) (t : list N) : Prop :=
  forall rest, pfol rest -> seam e rest -> brok e rest -> C (level e) e t rest.
Lemma P_at : forall k e t, P e t -> level e <= k -> k <= 6 ->
  forall rest, pfol rest -> seam e rest -> brok e rest -> C k e t rest.
Proof. intros k e t H Hl Hk rest H1 H2 H3. apply lift_to; [exact Hl|exact Hk|]. now apply H. Qed.
Lemma expr_at : forall e t rest, P e t -> pfol rest -> seam e rest -> brok e rest -> F6 rest ->
  exists r', skip r' = skip rest /\ E (PRule rExpression) (t ++ rest) = Some (evs e, r').
Proof.
  intros e t rest H H1 H2 H3 [H4 H5].
  destruct (P_at 6 e t H (level_max e) (le_n _) rest H1 H2 H3 H4) as (r' & Hs & HE).
  exists r'. split; [exact Hs|]. rewrite E_expression, HE.
  rewrite log_step_none; [|unfold noL in *; rewrite Hs; exact H5]. cbn. now rewrite app_nil_r.
Qed.
Lemma expr_ended : forall e t rest, P e t -> ended rest ->
  exists r', skip r' = skip rest /\ E (PRule rExpression) (t ++ rest) = Some (evs e, r').
Proof.
  intros e t rest H He. apply expr_at; [exact H|now apply ended_pfol|now apply ended_seam|now apply ended_brok|now apply ended_F6].
Qed.

(** ** Leading literals *)
Fixpoint slit (e : expr) : bool :=
  match e with
  | EVal (VLit _) => true
  | EBetween e _ _ _ _ | EPred e _ | EIn e _ _ _ | ECmp e _ _ | ELogic e _ _ => slit e
  | _ => false
  end.
Definition leadp (t : list N) : Prop :=
  exists l tl u, t = tl ++ u /\ lit_text l tl /\ stops is_digit u /\ u <> [] /\
    exists c v, op_start c = true /\ forall rest, skip (u ++ rest) = c :: v ++ rest.
Lemma leadp_app : forall t x, leadp t -> leadp (t ++ x).
Proof.
  intros t x (l & tl & u & -> & Hl & Hd & Hn & c & v & Hc & Hs).
  exists l, tl, (u ++ x). split; [now rewrite <- app_assoc|]. split; [exact Hl|].
  split; [destruct u; [congruence|exact Hd]|]. split; [destruct u; [congruence|discriminate]|].
  exists c, (v ++ x). split; [exact Hc|]. intro rest. rewrite <- !app_assoc. apply Hs.
Qed.
Lemma leadp_op : forall l t w o x, lit_text l t -> blank w -> opst o -> leadp (t ++ w ++ o ++ x).
Proof.
  intros l t w o x Hl Hw Ho. exists l, t, (w ++ o ++ x). split; [reflexivity|]. split; [exact Hl|].
  pose proof Ho as (c & u & -> & Hc). destruct (op_start_not c Hc) as (_ & Hd & _).
  split; [apply blank_digit; [exact Hw|exact Hd]|]. split; [destruct w; discriminate|].
  exists c, (u ++ x). split; [exact Hc|]. intro rest. rewrite <- app_assoc. 
  rewrite skip_blank_clean by (exact Hw || (rewrite <- app_assoc; now apply opst_clean)). cbn. now rewrite <- app_assoc.
Qed.
Lemma lead_true : forall e t, lay e t -> slit e = true ->
  (exists l, e = EVal (VLit l) /\ lit_text l t) \/ leadp t.
Proof.
  intros e t H. induction H; cbn [slit]; intro Hs; try discriminate.
  - left. eauto.
  - destruct (IHlay Hs) as [(l & -> & Hl)|Hl]; right; [|now apply leadp_app].
    eapply leadp_op; [exact Hl|assumption|now apply opst_between].
  - destruct (IHlay Hs) as [(l & -> & Hl)|Hl]; right; [|now apply leadp_app].
    eapply leadp_op; [exact Hl|assumption|now apply opst_between].
  - destruct (IHlay Hs) as [(l & -> & Hl)|Hl]; right; [|now apply leadp_app].
    rewrite <- (app_nil_r o). eapply leadp_op; [exact Hl|apply H1|now apply opst_match].
  - destruct (IHlay Hs) as [(l & -> & Hl)|Hl]; right; [|now apply leadp_app].
    eapply leadp_op; [exact Hl|assumption|now apply opst_in].
  - destruct (IHlay1 Hs) as [(l' & -> & Hl)|Hl]; right; [|now apply leadp_app].
    eapply leadp_op; [exact Hl|assumption|now apply opst_cmp].
  - destruct (IHlay1 Hs) as [(l' & -> & Hl)|Hl]; right; [|now apply leadp_app].
    eapply leadp_op; [exact Hl|assumption|now apply opst_logic].
Qed.

Lemma seam_app : forall e a b, opst b -> forall w x, a = w -> seam e (w ++ b) -> seam e (w ++ b ++ x).
Proof.
  intros e a b (c & u & -> & _) w x _ H He. specialize (H He). destruct w; exact H.
Qed.
Lemma seam_op : forall e w o x, opst o -> seam e (w ++ o) -> seam e (w ++ o ++ x).
Proof. intros e w o x Ho H. eapply seam_app; [exact Ho|reflexivity|exact H]. Qed.

Lemma value_not : forall n r, ci #"not" n -> E (PRule rValue) (n ++ r) = None.
Proof.
  intros n r H. pose proof (ci_length _ _ H) as Hl. destruct n as [|a [|b [|c [|d n]]]]; try discriminate Hl.
  unfold ci in H. cbn in H. injection H as Ha Hb Hc.
  assert (Xa : a = 110%N \/ a = 78%N).
  { unfold ascii_lower in Ha. destruct ((65 <=? a)%N && (a <=? 90)%N); [right|left]; lia. }
  assert (Xb : b = 111%N \/ b = 79%N).
  { unfold ascii_lower in Hb. destruct ((65 <=? b)%N && (b <=? 90)%N); [right|left]; lia. }
  rewrite E_value, E_literal. destruct Xa as [->| ->], Xb as [->| ->]; cbn; apply array_none_head; reflexivity.
Qed.
Lemma value_lexlit : forall s, E (PRule rValue) s = None -> lexlit s = None /\ E (PRule rArray) s = None.
Proof.
  intros s H. rewrite E_value, E_literal in H. destruct (lexlit s) as [[l r]|]; [discriminate|]. auto.
Qed.

Lemma join_head : forall sep x y xs, join_with sep (x :: y :: xs) = x ++ sep ++ join_with sep (y :: xs).
Proof. reflexivity. Qed.

Lemma lead_false : forall e t, lay e t -> slit e = false -> forall rest, seam e rest -> lexlit (t ++ rest) = None.
Proof.
  intros e t H. induction H; cbn [slit]; intros Hs rest Hm; try discriminate.
  - destruct (arr_text_head _ _ _ _ H) as (u & ->). destruct (opening_head p) as (k & -> & Hk). now apply lexlit_none.
  - apply value_lexlit. apply value_ident; [assumption|assumption|]. now apply Hm.
  - inversion H as [|? ? Hx _]; subst. rewrite join_head, <- !app_assoc. apply value_lexlit. now apply value_ident.
  - inversion H as [|? ? Hx _]; subst. rewrite join_head, <- !app_assoc. apply value_lexlit. now apply value_ident.
  - rewrite <- !app_assoc. apply value_lexlit. now apply value_ident.
  - rewrite <- !app_assoc. apply value_lexlit. now apply value_ident.
  - rewrite <- !app_assoc. apply value_lexlit. now apply value_ident.
  - now apply lexlit_none.
  - rewrite <- !app_assoc. apply IHlay; [exact Hs|]. apply seam_op; [now apply opst_between|assumption].
  - rewrite <- !app_assoc. apply IHlay; [exact Hs|]. apply seam_op; [now apply opst_between|assumption].
  - rewrite <- !app_assoc. apply IHlay; [exact Hs|]. destruct H1. now apply seam_blank.
  - rewrite <- !app_assoc. apply IHlay; [exact Hs|]. apply seam_op; [now apply opst_in|assumption].
  - rewrite <- !app_assoc. apply IHlay1; [exact Hs|]. apply seam_op; [now apply opst_cmp|assumption].
  - rewrite <- !app_assoc. apply value_lexlit. now apply value_not.
  - rewrite <- !app_assoc. apply IHlay1; [exact Hs|]. apply seam_op; [now apply opst_logic|assumption].
Qed.

Lemma sv_slit : forall e, starts_val e = false -> slit e = false.
Proof. induction e; cbn; auto. discriminate. Qed.

(** a parenthesised expression that is not a literal is not an array *)
Lemma array_paren_none : forall e t w1 w2 rest, lay e t -> blank w1 -> blank w2 ->
  (forall l, e <> EVal (VLit l)) ->
  E (PRule rArray) (#"(" ++ w1 ++ t ++ w2 ++ #")" ++ rest) = None.
Proof.
  intros e t w1 w2 rest H B1 B2 Hn. rewrite E_array, !E_arr_alt.
  change (strip (opening false) (#"(" ++ w1 ++ t ++ w2 ++ #")" ++ rest)) with (@None (list N)). cbv iota.
  change (strip (opening true) (#"(" ++ w1 ++ t ++ w2 ++ #")" ++ rest)) with (Some (w1 ++ t ++ w2 ++ #")" ++ rest)). cbv iota.
  rewrite skip_blank_clean by (assumption || (eapply lay_clean; eassumption)).
  assert (Hc : forall c v, (c =? 41)%N = false -> strip (closing true) (c :: v) = None).
  { intros c v Hc. cbn. change (N_of_ascii ")"%char) with 41%N. rewrite Hc. reflexivity. }
  destruct (slit e) eqn:Hs.
  - destruct (lead_true _ _ H Hs) as [(l & -> & _)|Hl]; [exfalso; now apply (Hn l)|].
    destruct Hl as (l & tl & u & -> & Hl & Hd & Hu & c & v & Hc' & Hsk).
    rewrite <- !app_assoc. rewrite litlist_assoc. rewrite E_seq by reflexivity.
    rewrite (literal_complete l tl).
    2:{ exact Hl. } 2:{ apply stops_lfol. destruct u; [congruence|exact Hd]. }
    destruct (op_start_not c Hc') as (Hb & _ & Hm).
    assert (H41 : (c =? 41)%N = false /\ (c =? 44)%N = false).
    { unfold mem in Hm. cbn [existsb] in Hm. repeat (apply orb_false_iff in Hm; destruct Hm as [? Hm]). auto. }
    destruct H41 as [H41 H44].
    assert (X : E comma_lit (u ++ w2 ++ #")" ++ rest) = None).
    { rewrite E_comma_lit, Hsk, H44. reflexivity. }
    rewrite E_star by reflexivity. rewrite X. rewrite Hsk, H44.
    rewrite skip_stop by now apply sc_head. rewrite Hc by exact H41. reflexivity.
  - assert (X : lexlit (t ++ w2 ++ #")" ++ rest) = None).
    { eapply lead_false; [eassumption|exact Hs|]. apply ended_seam. exists w2, (#")" ++ rest). split; [reflexivity|]. split; [exact B2|reflexivity]. }
    assert (Y : E LitList (t ++ w2 ++ #")" ++ rest) = None).
    { rewrite litlist_assoc. rewrite seq_none; [reflexivity|reflexivity|]. rewrite E_literal, X. reflexivity. }
    rewrite Y. destruct (lay_head _ _ H) as (c & u & -> & Hc'). cbn [app]. rewrite Hc; [reflexivity|now apply starter_facts in Hc'].
Qed.

Lemma sv_false : forall e t, lay e t -> starts_val e = false -> forall rest, seam e rest -> E (PRule rValue) (t ++ rest) = None.
Proof.
  intros e t H. induction H; cbn [starts_val]; intros Hs rest Hm; try discriminate.
  - apply value_ident; [assumption|assumption|]. now apply Hm.
  - inversion H as [|? ? Hx _]; subst. rewrite join_head, <- !app_assoc. now apply value_ident.
  - inversion H as [|? ? Hx _]; subst. rewrite join_head, <- !app_assoc. now apply value_ident.
  - rewrite <- !app_assoc. now apply value_ident.
  - rewrite <- !app_assoc. now apply value_ident.
  - rewrite <- !app_assoc. now apply value_ident.
  - rewrite <- !app_assoc. rewrite E_value.
    assert (X : E (PRule rLiteral) (#"(" ++ w1 ++ t ++ w2 ++ #")" ++ rest) = None) by (apply literal_none_head; reflexivity).
    rewrite X.
    eapply array_paren_none; try eassumption. intros l ->. discriminate.
  - rewrite <- !app_assoc. apply IHlay; [exact Hs|]. apply seam_op; [now apply opst_between|assumption].
  - rewrite <- !app_assoc. apply IHlay; [exact Hs|]. apply seam_op; [now apply opst_between|assumption].
  - rewrite <- !app_assoc. apply IHlay; [exact Hs|]. destruct H1. now apply seam_blank.
  - rewrite <- !app_assoc. apply IHlay; [exact Hs|]. apply seam_op; [now apply opst_in|assumption].
  - rewrite <- !app_assoc. apply IHlay1; [exact Hs|]. apply seam_op; [now apply opst_cmp|assumption].
  - rewrite <- !app_assoc. now apply value_not.
  - rewrite <- !app_assoc. apply IHlay1; [exact Hs|]. apply seam_op; [now apply opst_logic|assumption].
Qed.
Lemma lexlit_any : forall l t r, lit_text l t -> lexlit (t ++ r) <> None.
Proof.
  intros l t r H. destruct H as [s Hs|s Hs| |c ds Hc H0 Hd|w Hw|w Hw];
    try (rewrite lexlit_complete with (l := LStr false s); [discriminate|now constructor|exact I]);
    try (rewrite lexlit_complete with (l := LStr true s); [discriminate|now constructor|exact I]).
  - discriminate.
  - cbn [app lexlit]. rewrite Hc, H0. unfold is_digit in Hc.
    destruct (N.eqb_spec c 39) as [->|]; [discriminate|]. destruct (N.eqb_spec c 34) as [->|]; discriminate.
  - cbn in Hw. decompose [or] Hw; subst; try contradiction; discriminate.
  - cbn in Hw. decompose [or] Hw; subst; try contradiction; discriminate.
Qed.
Lemma sv_true : forall e t, lay e t -> starts_val e = true -> forall rest, E (PRule rValue) (t ++ rest) <> None.
Proof.
  intros e t H. induction H; cbn [starts_val]; intros Hs rest; try discriminate; rewrite <- ?app_assoc; auto.
  - rewrite E_value, E_literal. pose proof (lexlit_any _ _ rest H) as X. destruct (lexlit (t ++ rest)) as [[l' r]|]; [discriminate|congruence].
  - rewrite (value_complete (VArr p ls) t rest); [discriminate|econstructor; eassumption|exact I].
  - destruct e as [[l|]| | | | | | | | | | |]; try discriminate. assert (Hl : lit_text l t) by (inversion H; assumption).
    pose proof (value_complete (VArr true [l]) (opening true ++ w1 ++ t ++ w2 ++ closing true) rest) as X.
    rewrite <- !app_assoc in X. unfold opening, closing in X. rewrite X; [discriminate| |exact I].
    apply vt_arr with (c := false). change #"(" with (opening true). change #")" with (closing true). apply at_list; try assumption. now constructor.
Qed.
