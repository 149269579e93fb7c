(** Consequences of the characterisation of Parse. *)
From Verif Require Import Base Peg PegSpec PegProofs MachineProofs Grammar Node Vocab Tree Parse GrammarProofs Syntax
  Blank Lex Ops Complete CompleteMain Sound ParseProofs Unique PegSpecProofs.
Require Import Arith.
Strategy expand [parse_machine].
Strategy 1000 [parse_fuel mrun].

Section Facts.
  Variable lo : N -> N.

  (** ** C01 *)
  Lemma parse_total : forall q, valid_runes q ->
    (exists n, parse lo q = Ok (Some n)) \/ (exists e, parse lo q = Err e).
  Proof.
    intros q Hq. destruct (parse_cases lo q Hq) as [(e & He & _ & ->)|[(e & ds & _ & _ & -> & _)|(_ & b & f & -> & _)]]; eauto.
    left. destruct He as (w1 & t & w2 & _ & _ & _ & Hl). destruct (stk_last lo e t Hl) as (n & ->). eauto.
  Qed.
  Lemma parse_machine_fuel : forall q f, valid_runes q -> parse_fuel q <= f ->
    mrun Ggo (init_buffer q) f (PRule rGrammar) init_state = parse_machine q.
  Proof.
    intros q f Hq Hf. assert (H : parse_machine q <> MFuel).
    { pose proof (parse_machine_spec q Hq) as H. destruct (E (PRule rGrammar) q) as [[ev r]|]; destruct H as (s & -> & _); discriminate. }
    unfold parse_machine in *. apply mrun_mono_le; assumption.
  Qed.

  (** ** C02 *)
  Lemma call_depth_fuel : forall G buf f e s, call_depth G buf f e s <= f.
  Proof.
    intros G buf. induction f as [|f IH]; intros e s; [reflexivity|]. destruct e; cbn [call_depth]; try lia.
    - pose proof (IH e1 s). destruct (mrun G buf f e1 s) as [| |[|] s1]; try lia. pose proof (IH e2 s1). lia.
    - pose proof (IH e1 s). destruct (mrun G buf f e1 s) as [| |[|] s1]; try lia. pose proof (IH e2 (mrestore s s1)). lia.
    - pose proof (IH e s). destruct (mrun G buf f e s) as [| |[|] s1]; try lia. pose proof (IH (PStar e) s1). lia.
    - pose proof (IH e s). lia.
    - pose proof (IH e s). lia.
    - pose proof (IH e s). lia.
    - pose proof (IH (G r) s). lia.
    - destruct (nth_error buf (mpos s)); [|lia]. pose proof (IH e1 s). pose proof (IH e2 s). destruct (mem n cs); lia.
  Qed.
  Definition cdstep (G : rule -> pexp) (buf : list N) (run : pexp -> mstate -> mres) (cd : pexp -> mstate -> nat) (e : pexp) (s : mstate) : nat :=
    match e with
    | PSeq a b => Nat.max (cd a s) match run a s with MR true s1 => cd b s1 | _ => 0 end
    | PAlt a b => Nat.max (cd a s) match run a s with MR false s1 => cd b (mrestore s s1) | _ => 0 end
    | PStar a => Nat.max (cd a s) match run a s with MR true s1 => cd (PStar a) s1 | _ => 0 end
    | POpt a | PNot a | PCap a => cd a s
    | PRule r => S (cd (G r) s)
    | PSw cs a d => match nth_error buf (mpos s) with Some x => if mem x cs then cd a s else cd d s | None => 0 end
    | PChar _ | PRange _ _ | PDot | PAct _ => 0
    end.
  Lemma call_depth_S : forall G buf f e s, call_depth G buf (S f) e s = cdstep G buf (mrun G buf f) (call_depth G buf f) e s.
  Proof. intros. destruct e; reflexivity. Qed.
  Lemma call_depth_mono : forall G buf f e s, mrun G buf f e s <> MFuel -> call_depth G buf (S f) e s = call_depth G buf f e s.
  Proof.
    intros G buf. induction f as [|f IH]; intros e s H; [now destruct H|].
    rewrite mrun_S in H. rewrite !(call_depth_S _ _ (S f)), (call_depth_S _ _ f e). destruct e; cbn [cdstep mstep] in *; try reflexivity.
    - destruct (mrun G buf f e1 s) as [| |[|] s1] eqn:E1; try congruence;
      rewrite (mrun_mono _ _ _ e1 s) by congruence; rewrite E1; rewrite (IH e1 s) by congruence; try reflexivity. now rewrite IH.
    - destruct (mrun G buf f e1 s) as [| |[|] s1] eqn:E1; try congruence;
      rewrite (mrun_mono _ _ _ e1 s) by congruence; rewrite E1; rewrite (IH e1 s) by congruence; try reflexivity. now rewrite IH.
    - destruct (mrun G buf f e s) as [| |[|] s1] eqn:E1; try congruence;
      rewrite (mrun_mono _ _ _ e s) by congruence; rewrite E1; rewrite (IH e s) by congruence; try reflexivity. now rewrite IH.
    - destruct (mrun G buf f e s) as [| |[|] s1] eqn:E1; try congruence; rewrite (IH e s) by congruence; reflexivity.
    - destruct (mrun G buf f e s) as [| |[|] s1] eqn:E1; try congruence; rewrite (IH e s) by congruence; reflexivity.
    - destruct (mrun G buf f e s) as [| |[|] s1] eqn:E1; try congruence; rewrite (IH e s) by congruence; reflexivity.
    - destruct (mrun G buf f (G r) s) as [| |[|] s1] eqn:E1; try congruence; rewrite (IH (G r) s) by congruence; reflexivity.
    - destruct (nth_error buf (mpos s)); [|reflexivity]. destruct (mem n cs); now apply IH.
  Qed.
  Lemma parse_depth_bound : forall q f, valid_runes q ->
    call_depth Ggo (init_buffer q) f (PRule rGrammar) init_state <= 50 * (length q + 1).
  Proof.
    intros q f Hq. replace (50 * (length q + 1)) with (parse_fuel q) by (unfold parse_fuel, parse_depth; lia).
    destruct (Nat.le_gt_cases f (parse_fuel q)) as [H|H]; [pose proof (call_depth_fuel Ggo (init_buffer q) f (PRule rGrammar) init_state); lia|].
    assert (X : forall k, parse_fuel q <= k -> call_depth Ggo (init_buffer q) k (PRule rGrammar) init_state <= parse_fuel q).
    { intros k Hk. induction Hk as [|k Hk IH]; [apply call_depth_fuel|]. rewrite call_depth_mono; [exact IH|].
      rewrite parse_machine_fuel by assumption. pose proof (parse_machine_spec q Hq) as HM.
      destruct (E (PRule rGrammar) q) as [[ev r]|]; [destruct HM as (s & -> & _)|destruct HM as (s & -> & _)]; discriminate. }
    apply X. lia.
  Qed.

  (** ** C05 *)
  Lemma reads_dec : forall q, (exists e, reads q e) \/ (forall e, ~ reads q e).
  Proof.
    intro q. destruct (E (PRule rGrammar) q) as [[ev r]|] eqn:HE.
    - destruct (grammar_sound _ _ _ HE) as (_ & e & He & _). eauto.
    - right. intros e He. apply grammar_complete in He. congruence.
  Qed.
  Lemma parse_ok_iff : forall q, valid_runes q ->
    ((exists n, parse lo q = Ok n) <-> exists e, reads q e /\ fits e = true).
  Proof.
    intros q Hq. split.
    - intros (n & Hn). destruct (parse_cases lo q Hq) as [(e & He & Hf & _)|[(e & ds & _ & _ & H & _)|(_ & b & f & H & _)]]; eauto; congruence.
    - intros (e & He & Hf). rewrite (parse_reads lo q e Hq He). apply errs_fits in Hf. rewrite Hf. eauto.
  Qed.
  Lemma parse_fits : forall q e, valid_runes q -> reads q e -> fits e = true -> parse lo q = Ok (last (stk lo e) None).
  Proof. intros q e Hq He Hf. rewrite (parse_reads lo q e Hq He). apply errs_fits in Hf. now rewrite Hf. Qed.
  Lemma parse_tree : forall q e, valid_runes q -> reads q e -> fits e = true -> json_free e = true -> parse lo q = Ok (ntree lo e).
  Proof. intros q e Hq He Hf Hj. rewrite (parse_fits q e Hq He Hf). now rewrite (stk_tree lo e Hj Hf). Qed.
  Lemma parse_ok_inv : forall q n, valid_runes q -> parse lo q = Ok n -> exists e, reads q e /\ fits e = true /\ n = last (stk lo e) None.
  Proof.
    intros q n Hq H. destruct (parse_cases lo q Hq) as [(e & He & Hf & K)|[(e & ds & _ & _ & K & _)|(_ & b & f & K & _)]]; [|congruence|congruence].
    exists e. rewrite K in H. injection H as <-. auto.
  Qed.
  Lemma parse_rejects : forall q, valid_runes q -> (forall e, ~ reads q e) <-> (exists b f, parse lo q = Err (PESyntax b f)).
  Proof.
    intros q Hq. split.
    - intro H. destruct (parse_no_reads lo q Hq H) as (b & f & -> & _). eauto.
    - intros (b & f & H) e He. rewrite (parse_reads lo q e Hq He) in H. pose proof (errs_range e) as HR.
      destruct (errs e) as [|x l]; [discriminate|]. inversion HR as [|? ? (ds & -> & _) _]; subst. discriminate.
  Qed.

  (** ** C07 *)
  Lemma valid_app : forall a b, valid_runes (a ++ b) <-> valid_runes a /\ valid_runes b.
  Proof. intros. unfold valid_runes. apply Forall_app. Qed.
  Lemma reads_pad : forall q e w w', reads q e -> blank w -> blank w' -> reads (w ++ q ++ w') e.
  Proof.
    intros q e w w' (w1 & t & w2 & -> & H1 & H2 & Hl) Hw Hw'. exists (w ++ w1), t, (w2 ++ w').
    rewrite <- !app_assoc. auto using blank_app.
  Qed.
  Lemma reads_same : forall q q' e, valid_runes q -> valid_runes q' -> reads q e -> reads q' e -> parse lo q = parse lo q'.
  Proof. intros q q' e Hq Hq' H H'. now rewrite (parse_reads lo q e), (parse_reads lo q' e). Qed.
  Lemma lay_reads : forall e t, lay e t -> reads t e.
  Proof. intros e t H. exists [], t, []. rewrite app_nil_r. repeat split; auto using blank_nil. Qed.
  Lemma parse_pad : forall q w w', valid_runes (w ++ q ++ w') -> blank w -> blank w' -> (exists e, reads q e) ->
    parse lo (w ++ q ++ w') = parse lo q.
  Proof.
    intros q w w' HV Hw Hw' (e & He). eapply reads_same; [exact HV| |apply reads_pad; eassumption|exact He].
    apply valid_app in HV as [_ HV]. now apply valid_app in HV as [HV _].
  Qed.
  (** blanks before a query never matter, even for a rejected one *)
  Lemma reads_lead : forall q w e, blank w -> reads (w ++ q) e <-> reads q e.
  Proof.
    intros q w e Hw. split.
    - intros H. apply grammar_complete in H. rewrite E_grammar in H. rewrite skip_blank in H by exact Hw. rewrite <- E_grammar in H.
      destruct (grammar_sound _ _ _ H) as (_ & e' & He' & Hev). apply evs_inj in Hev. now subst.
    - intros H. pose proof (reads_pad q e w [] H Hw blank_nil) as K. now rewrite app_nil_r in K.
  Qed.

  (** ** C08 *)
  Record link : Set := Link { lw1 : list N; lop : list N; lw2 : list N; lexp : expr; ltxt : list N }.
  Definition link_text (k : link) : list N := lw1 k ++ lop k ++ lw2 k ++ ltxt k.
  Fixpoint links_ok (prev : expr) (ks : list link) : Prop :=
    match ks with
    | [] => True
    | k :: ks' => blank (lw1 k) /\ op_logic (lop k) /\ blank (lw2 k) /\ lay (lexp k) (ltxt k) /\ level (lexp k) <= 5 /\
        seam prev (lw1 k ++ lop k) /\ ~ bracket_clash prev (lop k) (lexp k) /\ links_ok (lexp k) ks'
    end.
  Lemma chain_lay : forall ks acc prev t, lay acc t -> ends_ident acc = ends_ident prev -> ends_bracket acc = ends_bracket prev ->
    links_ok prev ks ->
    lay (fold_left (fun e k => ELogic e (lop k) (lexp k)) ks acc) (t ++ concat (map link_text ks)).
  Proof.
    induction ks as [|k ks IH]; intros acc prev t Hl H1 H2 Hk; [cbn; now rewrite app_nil_r|].
    destruct Hk as (K1 & K2 & K3 & K4 & K5 & K6 & K7 & K8). cbn [fold_left map concat].
    rewrite app_assoc. apply (IH (ELogic acc (lop k) (lexp k)) (lexp k)); [|reflexivity|reflexivity|exact K8]. unfold link_text. apply lay_logic; auto.
    - unfold seam in *. now rewrite H1.
    - intros (B1 & B2). apply K7. split; [now rewrite <- H2|exact B2].
  Qed.
  Lemma fold_tree : forall ks acc, ntree lo (fold_left (fun e k => ELogic e (lop k) (lexp k)) ks acc) =
    fold_left (fun n k => Some (mk_logic n (opn lo (lop k)) (ntree lo (lexp k)))) ks (ntree lo acc).
  Proof. induction ks as [|k ks IH]; intro acc; [reflexivity|]. cbn [fold_left]. now rewrite IH. Qed.
  Lemma fold_json : forall ks acc, json_free acc = true -> forallb (fun k => json_free (lexp k)) ks = true ->
    json_free (fold_left (fun e k => ELogic e (lop k) (lexp k)) ks acc) = true.
  Proof.
    induction ks as [|k ks IH]; intros acc H1 H2; [exact H1|]. cbn in *. apply andb_true_iff in H2 as [H2 H3]. apply IH; [|exact H3]. cbn. now rewrite H1, H2.
  Qed.
  Lemma fold_fits : forall ks acc, fits acc = true -> forallb (fun k => fits (lexp k)) ks = true ->
    fits (fold_left (fun e k => ELogic e (lop k) (lexp k)) ks acc) = true.
  Proof.
    induction ks as [|k ks IH]; intros acc H1 H2; [exact H1|]. cbn in *. apply andb_true_iff in H2 as [H2 H3]. apply IH; [|exact H3]. cbn. now rewrite H1, H2.
  Qed.
  Lemma chain_parse : forall e0 t0 ks, lay e0 t0 -> links_ok e0 ks ->
    valid_runes (t0 ++ concat (map link_text ks)) ->
    json_free e0 = true -> forallb (fun k => json_free (lexp k)) ks = true ->
    fits e0 = true -> forallb (fun k => fits (lexp k)) ks = true ->
    parse lo (t0 ++ concat (map link_text ks)) =
      Ok (fold_left (fun n k => Some (mk_logic n (opn lo (lop k)) (ntree lo (lexp k)))) ks (ntree lo e0)).
  Proof.
    intros e0 t0 ks Hl Hk HV J0 J F0 F. rewrite <- fold_tree. apply parse_tree; auto using fold_json, fold_fits.
    apply lay_reads. eapply chain_lay; eauto.
  Qed.
  (** nothing to the right of a logic operator is a chain *)
  Fixpoint left_nested (e : expr) : Prop :=
    match e with
    | ELogic l _ r => left_nested l /\ left_nested r /\ level r <= 5
    | ECmp l _ r => left_nested l /\ left_nested r /\ level l <= 4 /\ level r <= 3
    | ENot e => left_nested e /\ level e <= 4
    | EParen e => left_nested e
    | EPred e _ => left_nested e /\ level e <= 1
    | EBetween e _ _ _ _ => left_nested e /\ level e <= 0
    | EIn e _ _ _ => left_nested e /\ level e <= 2
    | ECall _ args => (fix all l := match l with [] => True | e :: l' => left_nested e /\ all l' end) args
    | EVal _ | EName _ | ERef _ | EJson _ => True
    end.
  Lemma lay_left : forall e t, lay e t -> left_nested e.
  Proof.
    intros e t H. refine (proj1 (lay_lays_ind (fun e _ _ => left_nested e)
      (fun es _ _ => (fix all l := match l with [] => True | e :: l' => left_nested e /\ all l' end) es) _ _ _ _ _ _ _ _ _ _ _ _ _ _ _ _ _ _) e t H);
      intros; cbn; auto.
  Qed.

  (** ** C09 *)
  Lemma valid_ascii : forall s : string, valid_runes (runes_of s).
  Proof.
    induction s as [|a s IH]; cbn; constructor; auto. pose proof (N_ascii_bounded a). unfold endSymbol. lia.
  Qed.
  Lemma paren_reads : forall q e, reads q e -> reads (#"(" ++ q ++ #")") (EParen e).
  Proof.
    intros q e (w1 & t & w2 & -> & H1 & H2 & Hl). apply lay_reads. rewrite <- !app_assoc. now apply lay_paren.
  Qed.
  Lemma paren_parse : forall q n, valid_runes q -> parse lo q = Ok n -> parse lo (#"(" ++ q ++ #")") = Ok (Some (mk_paren n)).
  Proof.
    intros q n Hq H. destruct (parse_ok_inv q n Hq H) as (e & He & Hf & ->).
    rewrite (parse_fits _ (EParen e)); [|apply valid_app; split; [apply valid_ascii|apply valid_app; split; [exact Hq|apply valid_ascii]]|now apply paren_reads|exact Hf].
    cbn [stk]. unfold red1. now rewrite last_last.
  Qed.

  (** ** C10 *)
  Lemma string_parse : forall (d : bool) s, valid_runes s -> mem (if d then 34%N else 39%N) s = false ->
    parse lo ((if d then 34%N else 39%N) :: s ++ [if d then 34%N else 39%N]) = Ok (Some (mk_string s)).
  Proof.
    intros d s Hs Hm. change (Some (mk_string s)) with (ntree lo (EVal (VLit (LStr d s)))). apply parse_tree; try reflexivity.
    - constructor; [destruct d; reflexivity|]. apply valid_app. split; [exact Hs|]. destruct d; repeat constructor.
    - apply lay_reads. constructor. destruct d; now constructor.
  Qed.
  Fixpoint leftmost (e : expr) : expr :=
    match e with
    | EBetween e _ _ _ _ | EPred e _ | EIn e _ _ _ | ECmp e _ _ | ELogic e _ _ => leftmost e
    | e => e
    end.
  Lemma first_quote : forall c (s s' r r' : list N), mem c s = false -> mem c s' = false -> s ++ c :: r = s' ++ c :: r' -> s = s'.
  Proof.
    intros c. induction s as [|x s IH]; intros s' r r' H H' He; destruct s' as [|y s']; auto; cbn in *.
    - injection He as He _. subst. rewrite N.eqb_refl in H'. discriminate.
    - injection He as He _. subst. rewrite N.eqb_refl in H. discriminate.
    - injection He as -> He. apply orb_false_iff in H as [_ H]. apply orb_false_iff in H' as [_ H']. f_equal. eapply IH; eassumption.
  Qed.
  Lemma head_letter : forall x u c r, ident x -> letter c = false -> x ++ u = c :: r -> False.
  Proof. intros x u c r Hx Hc H. destruct (ident_head x Hx) as (k & v & -> & Hk). cbn in H. injection H as -> _. congruence. Qed.
  Lemma string_first : forall (d : bool) e t, lay e t -> forall x s r,
    mem (if d then 34%N else 39%N) s = false ->
    t ++ x = (if d then 34%N else 39%N) :: s ++ (if d then 34%N else 39%N) :: r -> leftmost e = EVal (VLit (LStr d s)).
  Proof.
    intros d. refine (lay_mind (fun e t _ => forall x s r, mem (if d then 34%N else 39%N) s = false ->
      t ++ x = (if d then 34%N else 39%N) :: s ++ (if d then 34%N else 39%N) :: r -> leftmost e = EVal (VLit (LStr d s)))
      (fun _ _ _ => True) _ _ _ _ _ _ _ _ _ _ _ _ _ _ _ _ _ _); intros; auto; rewrite <- ?app_assoc in *; cbn [leftmost]; eauto.
    - destruct l0 as [y Hy|y Hy| |c ds Hc Hc0 Hd|w Hw|w Hw].
      + destruct d; [discriminate|]. rewrite <- ?app_comm_cons, <- ?app_assoc in H0. injection H0 as H0. do 3 f_equal. eapply first_quote; eassumption.
      + destruct d; [|discriminate]. rewrite <- ?app_comm_cons, <- ?app_assoc in H0. injection H0 as H0. do 3 f_equal. eapply first_quote; eassumption.
      + destruct d; discriminate.
      + destruct d; injection H0 as -> _; discriminate.
      + cbn in Hw. destruct d; decompose [or] Hw; subst; try contradiction; discriminate.
      + cbn in Hw. destruct d; decompose [or] Hw; subst; try contradiction; discriminate.
    - exfalso. destruct (arr_text_head _ _ _ _ a) as (u & ->). destruct p, d; discriminate.
    - exfalso. eapply head_letter; [exact i| |eassumption]. destruct d; reflexivity.
    - exfalso. rewrite (join_head _ x y), <- app_assoc in H0. inversion f; subst. eapply head_letter; [eassumption| |exact H0]. destruct d; reflexivity.
    - exfalso. rewrite (join_head _ x y), <- app_assoc in H0. inversion f; subst. eapply head_letter; [eassumption| |exact H0]. destruct d; reflexivity.
    - exfalso. eapply head_letter; [exact i| |eassumption]. destruct d; reflexivity.
    - exfalso. eapply head_letter; [exact i| |eassumption]. destruct d; reflexivity.
    - exfalso. eapply head_letter; [exact i| |eassumption]. destruct d; reflexivity.
    - destruct d; discriminate.
    - exfalso. unfold ci in c. destruct n as [|k n]; [discriminate|]. cbn in c. injection c as Hk _.
      apply ascii_lower_letter in Hk; [|reflexivity]. cbn in H1. destruct d; injection H1 as -> _; discriminate.
  Qed.

  (** ** C11 *)
  Lemma lit_parse : forall l t, lit_text l t -> valid_runes t ->
    parse lo t = match lerr l with x :: _ => Err x | [] => Ok (Some (lit_node l)) end.
  Proof.
    intros l t H Ht. rewrite (parse_reads lo t (EVal (VLit l))); [|exact Ht|apply lay_reads; now constructor].
    cbn [errs verr stk vnode last]. pose proof (lerr_fits l) as HF. destruct (lerr l); [|reflexivity]. now rewrite lnode_fits by now apply HF.
  Qed.
  Lemma digits_valid : forall ds, forallb is_digit ds = true -> valid_runes ds.
  Proof.
    intros ds H. unfold valid_runes. apply Forall_forall. intros c Hc. rewrite forallb_forall in H. apply H in Hc. unfold is_digit in Hc.
    apply andb_true_iff in Hc as [_ Hc]. apply N.leb_le in Hc. unfold endSymbol. lia.
  Qed.
  Lemma int_parse : forall c ds, is_digit c = true -> (c <> 48%N \/ ds = []) -> forallb is_digit ds = true ->
    parse lo (c :: ds) = if (dec_value (c :: ds) <=? maxInt)%Z then Ok (Some (mk_int (dec_value (c :: ds)))) else Err (PERange (c :: ds)).
  Proof.
    intros c ds Hc H0 Hd. assert (HL : lit_text (LInt (c :: ds)) (c :: ds)).
    { destruct (N.eqb_spec c 48) as [->|Hn]; [|constructor; auto; now apply N.eqb_neq]. destruct H0 as [H0|H0]; [congruence|]. subst. constructor. }
    rewrite (lit_parse _ _ HL) by (apply digits_valid; cbn; now rewrite Hc). cbn [lerr]. destruct (_ <=? _)%Z; reflexivity.
  Qed.
  (** the first token of a query is never preceded by anything but blanks *)
  Lemma blank_first : forall c r, blank (c :: r) -> blank_start c = true.
  Proof.
    intros c r H. inversion H as [|? ? Hc ? E1|m body e w Hm ? ? ? E1]; subst.
    - unfold blank_start, mem in *. cbn in *. destruct (N.eqb_spec c 32); destruct (N.eqb_spec c 9); destruct (N.eqb_spec c 10); destruct (N.eqb_spec c 13); cbn in *; congruence.
    - destruct Hm as [->| ->]; cbn in E1; injection E1 as <- _; reflexivity.
  Qed.
  Lemma reads_first : forall c r e, blank_start c = false -> reads (c :: r) e -> exists t w, c :: r = t ++ w /\ blank w /\ lay e t.
  Proof.
    intros c r e Hc (w1 & t & w2 & H & H1 & H2 & Hl). destruct w1 as [|k w1]; [exists t, w2; auto|]. cbn in H. injection H as -> _.
    apply blank_first in H1. congruence.
  Qed.
  Lemma digit_not_blank : forall c, is_digit c = true -> blank_start c = false.
  Proof.
    intros c H. unfold is_digit in H. apply andb_true_iff in H as [H1 H2]. apply N.leb_le in H1, H2.
    unfold blank_start, mem. cbn. repeat match goal with |- context [(c =? ?k)%N] => destruct (N.eqb_spec c k); [lia|] end. reflexivity.
  Qed.
  Lemma op_digit : forall w o z c r, blank w -> opst o -> w ++ o ++ z = c :: r -> is_digit c = true -> False.
  Proof. intros w o z c r Hw Ho He Hc. pose proof (pfol_digit _ (pfol_op w o z Hw Ho)) as HP. rewrite He in HP. cbn in HP. congruence. Qed.
  Lemma zero_first : forall e t, lay e t -> forall c r x, is_digit c = true -> t ++ x = 48%N :: c :: r -> t = [48%N].
  Proof.
    refine (lay_mind (fun e t _ => forall c r x, is_digit c = true -> t ++ x = 48%N :: c :: r -> t = [48%N]) (fun _ _ _ => True)
      _ _ _ _ _ _ _ _ _ _ _ _ _ _ _ _ _ _); auto.
    - intros l t H c r x Hc He. destruct H as [y Hy|y Hy| |k ds Hk H0 Hd|w Hw|w Hw]; try discriminate; auto.
      + injection He as -> _. discriminate.
      + cbn in Hw. decompose [or] Hw; subst; try contradiction; discriminate.
      + cbn in Hw. decompose [or] Hw; subst; try contradiction; discriminate.
    - intros p c ls t H _ k r x _ He. destruct (arr_text_head _ _ _ _ H) as (u & ->). destruct p; discriminate.
    - intros y Hy _ c r x _ He. exfalso. eapply head_letter; [exact Hy| |exact He]. reflexivity.
    - intros y z xs Hy _ c r x _ He. exfalso. rewrite join_head, <- app_assoc in He. inversion Hy; subst. eapply head_letter; [eassumption| |exact He]. reflexivity.
    - intros y z xs Hy _ c r x _ He. exfalso. rewrite join_head, <- app_assoc in He. inversion Hy; subst. eapply head_letter; [eassumption| |exact He]. reflexivity.
    - intros f w Hf _ _ c r x _ He. exfalso. rewrite <- app_assoc in He. eapply head_letter; [exact Hf| |exact He]. reflexivity.
    - intros f args t w1 w2 Hf _ _ _ _ _ c r x _ He. exfalso. rewrite <- app_assoc in He. eapply head_letter; [exact Hf| |exact He]. reflexivity.
    - intros f args t w1 w2 w3 Hf _ _ _ _ _ _ c r x _ He. exfalso. rewrite <- app_assoc in He. eapply head_letter; [exact Hf| |exact He]. reflexivity.
    - discriminate.
    - intros e t w1 o w2 v tlo w3 a w4 hi thi _ _ IH Hw Ho _ _ _ _ _ _ _ c r x Hc He. exfalso. rewrite <- app_assoc in He. pose proof (IH _ _ _ Hc He) as ->.
      cbn [app] in He. injection He as He. rewrite <- ?app_assoc in He. exact (op_digit _ _ _ _ _ Hw (opst_between o Ho) He Hc).
    - intros e t w1 o w2 w3 v tlo w4 w5 hi thi w6 _ _ IH Hw Ho _ _ _ _ _ _ _ _ c r x Hc He. exfalso. rewrite <- app_assoc in He. pose proof (IH _ _ _ Hc He) as ->.
      cbn [app] in He. injection He as He. rewrite <- ?app_assoc in He. exact (op_digit _ _ _ _ _ Hw (opst_between o Ho) He Hc).
    - intros e t w o _ _ IH [Hw _] Ho c r x Hc He. exfalso. rewrite <- app_assoc in He. pose proof (IH _ _ _ Hc He) as ->.
      cbn [app] in He. injection He as He. rewrite <- ?app_assoc in He. exact (op_digit _ _ _ _ _ Hw (opst_match o Ho) He Hc).
    - intros e t w1 o w2 p k ls ta _ _ IH Hw Ho _ _ _ c r x Hc He. exfalso. rewrite <- app_assoc in He. pose proof (IH _ _ _ Hc He) as ->.
      cbn [app] in He. injection He as He. rewrite <- ?app_assoc in He. exact (op_digit _ _ _ _ _ Hw (opst_in o Ho) He Hc).
    - intros l tl w1 o w2 r0 tr _ _ _ IH Hw Ho _ _ _ _ c r x Hc He. exfalso. rewrite <- app_assoc in He. pose proof (IH _ _ _ Hc He) as ->.
      cbn [app] in He. injection He as He. rewrite <- ?app_assoc in He. exact (op_digit _ _ _ _ _ Hw (opst_cmp o Ho) He Hc).
    - intros n g e t Hn _ _ _ _ c r x _ He. exfalso. rewrite <- app_assoc in He. unfold ci in Hn. destruct n as [|k n]; [discriminate|]. cbn in Hn. injection Hn as Hk _.
      apply ascii_lower_letter in Hk; [|reflexivity]. cbn in He. injection He as -> _. discriminate.
    - intros l tl w1 o w2 r0 tr _ _ IH Hw Ho _ _ _ _ _ c r x Hc He. exfalso. rewrite <- app_assoc in He. pose proof (IH _ _ _ Hc He) as ->.
      cbn [app] in He. injection He as He. rewrite <- ?app_assoc in He. exact (op_digit _ _ _ _ _ Hw (opst_logic o Ho) He Hc).
  Qed.
  Lemma leading_zero : forall w c r, blank w -> is_digit c = true -> forall e, ~ reads (w ++ 48%N :: c :: r) e.
  Proof.
    intros w c r Hw Hc e He. apply reads_lead in He; [|exact Hw]. apply reads_first in He as (t & w2 & He & H2 & Hl); [|reflexivity].
    pose proof (zero_first e t Hl c r w2 Hc (eq_sym He)) as ->. cbn in He. injection He as <-. apply blank_first in H2.
    rewrite digit_not_blank in H2; congruence.
  Qed.

  (** ** C12 *)
  Lemma array_parse : forall p c ls t, arr_text p c ls t -> ~ (p = true /\ c = false /\ length ls = 1) -> valid_runes t -> forallb lit_fits ls = true ->
    parse lo t = Ok (Some (mk_array (map (fun l => Some (lit_node l)) ls))).
  Proof.
    intros p c ls t H Hn Ht Hf. change (Some (mk_array (map (fun l => Some (lit_node l)) ls))) with (ntree lo (EVal (VArr p ls))).
    apply parse_tree; auto. apply lay_reads. econstructor; eassumption.
  Qed.
  Lemma in_parse : forall e t w1 o w2 p c ls ta, level e <= 2 -> lay e t -> blank w1 -> op_in o ->
    blank w2 -> arr_text p c ls ta -> seam e (w1 ++ o) -> valid_runes (t ++ w1 ++ o ++ w2 ++ ta) ->
    json_free e = true -> fits e = true -> forallb lit_fits ls = true ->
    parse lo (t ++ w1 ++ o ++ w2 ++ ta) =
      Ok (Some (mk_compare (ntree lo e) (Some (mk_op (normalize_operation lo o))) (Some (mk_array (map (fun l => Some (lit_node l)) ls))))).
  Proof.
    intros e t w1 o w2 p c ls ta H1 H2 H3 H4 H5 H6 H7 HV Hj Hf Hl.
    change (Some (mk_compare _ _ _)) with (ntree lo (EIn e o p ls)). apply parse_tree; auto.
    - apply lay_reads. econstructor; eassumption.
    - cbn. now rewrite Hf.
  Qed.
  Definition lit_value (l : literal) : gval :=
    match l with
    | LStr _ s => GStr s
    | LInt ds => GInt (dec_value ds)
    | LBool w => GBool (streq w #"true" || streq w #"TRUE")
    | LNull _ => GNil
    end.
  Lemma lit_value_node : forall l, value (lit_node l) = Some (lit_value l).
  Proof. intros []; reflexivity. Qed.
  Lemma array_value : forall ls, value (mk_array (map (fun l => Some (lit_node l)) ls)) = Some (GArr (map lit_value ls)).
  Proof.
    intro ls. cbn [value mk_array nVType nArray].
    match goal with |- match ?X with _ => _ end = _ => assert (H : X = Some (map lit_value ls)); [|now rewrite H] end.
    induction ls as [|l ls IH]; [reflexivity|]. cbn [map]. rewrite lit_value_node. now rewrite IH.
  Qed.
End Facts.
