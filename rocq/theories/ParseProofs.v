(** Parse, end to end: the machine run, Execute and the tree. *)
From Verif Require Import Base Peg Grammar PegProofs MachineProofs Node Vocab Tree Parse GrammarProofs Syntax
  Blank Lex Ops Complete CompleteMain Sound.

(** ** The machine run of Parse *)
Lemma pok_go : forall r, pok (Ggo r) = true.
Proof. destruct r; vm_compute; reflexivity. Qed.
Lemma last_lt : forall q d, q <> [] -> valid_runes q -> (last q d < endSymbol)%N.
Proof.
  intros q d Hn H. revert Hn. induction H as [|c q Hc Hq IH]; [congruence|]. intros _.
  destruct q as [|c' q]; [exact Hc|]. change (last (c :: c' :: q) d) with (last (c' :: q) d). apply IH. discriminate.
Qed.
Lemma init_buffer_eq : forall q, valid_runes q -> init_buffer q = q ++ [endSymbol].
Proof.
  intros q H. unfold init_buffer. destruct q as [|c q]; [reflexivity|].
  pose proof (last_lt (c :: q) 0%N ltac:(discriminate) H). destruct (N.eqb_spec (last (c :: q) 0%N) endSymbol); [lia|reflexivity].
Qed.
Lemma wf_rule : forall r, wf (PRule r) = true.
Proof. destruct r; vm_compute; reflexivity. Qed.
Lemma parse_machine_spec : forall q, valid_runes q ->
  match E (PRule rGrammar) q with
  | Some (ev, _) => exists s, parse_machine q = MR true s /\ minv q s /\ toks_events q (trim (mtree s) (mtidx s)) = erase ev
  | None => exists s, parse_machine q = MR false s /\ minv q s
  end.
Proof.
  intros q Hq. unfold parse_machine. rewrite init_buffer_eq by exact Hq.
  pose proof (mrun_frun Ggo q Hq pok_go (parse_fuel q) (PRule rGrammar) init_state eq_refl (minv_init q)) as HS.
  cbn [mpos init_state skipn] in HS. unfold parse_fuel in *.
  rewrite (EE_enough Ggo ge (PRule rGrammar) q (wf_rule _)) in HS. rewrite (E_Eg _ _ (wf_rule _) eq_refl) in HS.
  unfold simulates in HS. destruct (E (PRule rGrammar) q) as [[ev r]|]; cbn [erz] in HS.
  - destruct HS as (s & H1 & H2 & _ & _ & H3). exists s. split; [exact H1|]. split; [exact H2|].
    unfold new_toks in H3. cbn [mtidx init_state skipn] in H3. exact H3.
  - destruct HS as (s & H1 & H2 & _). exists s. auto.
Qed.

Lemma Forall_firstn : forall A (P : A -> Prop) n l, Forall P l -> Forall P (firstn n l).
Proof. intros A P n l H. rewrite <- (firstn_skipn n l), Forall_app in H. apply H. Qed.

Lemma digits_from : forall ds acc, forallb is_digit ds = true -> atoi_from acc ds = (acc * 10 ^ Z.of_nat (length ds) + dec_value ds)%Z.
Proof.
  induction ds as [|c ds IH]; intros acc H; [cbn; lia|]. cbn [forallb] in H. apply andb_true_iff in H as [Hc H].
  unfold is_digit in Hc. apply andb_true_iff in Hc as [H1 H2]. apply N.leb_le in H1, H2.
  cbn [atoi_from dec_value length]. rewrite IH by exact H. rewrite Nat2Z.inj_succ, Z.pow_succ_r by lia. rewrite N2Z.inj_sub by exact H1. ring.
Qed.
Lemma digits_value : forall ds, forallb is_digit ds = true -> atoi_value ds = dec_value ds.
Proof. intros ds H. unfold atoi_value. rewrite digits_from by exact H. lia. Qed.

(** ** Execute on events *)
Section Run.
  Variable lo : N -> N.

  Fixpoint run (evs : list event) (st : list N * tree) : option (list N * tree) :=
    match evs with
    | [] => Some st
    | EText s :: es => run es (s, snd st)
    | EAct n :: es => match run_action lo n (fst st) (snd st) with
                      | Some t => run es (fst st, t)
                      | None => None
                      end
    end.
  Lemma run_app : forall a b st, run (a ++ b) st = match run a st with Some st' => run b st' | None => None end.
  Proof.
    induction a as [|[s|n] a IH]; intros b st; [reflexivity| |]; cbn [app run]; [apply IH|].
    destruct (run_action lo n (fst st) (snd st)); [apply IH|reflexivity].
  Qed.
  Lemma run_erase : forall ev st, run (erase ev) st = run ev st.
  Proof.
    induction ev as [|[s|n] ev IH]; intro st; [reflexivity|apply IH|]. cbn [erase filter ghost].
    destruct (Nat.leb_spec 30 n) as [Hn|Hn]; cbn [negb run].
    - assert (HA : forall text t, run_action lo n text t = Some t).
      { intros text t. do 30 (destruct n as [|n]; [lia|]). reflexivity. }
      rewrite HA. rewrite IH. now destruct st.
    - destruct (run_action lo n (fst st) (snd st)); [apply IH|reflexivity].
  Qed.
  Lemma slice_rng_app : forall q b e, b <= e -> e <= length q -> slice_rng (q ++ [endSymbol]) b e = Some (slice q b e).
  Proof.
    intros q b e H1 H2. unfold slice_rng, slice. rewrite app_length. cbn [length].
    destruct (Nat.leb_spec b e); [|lia]. destruct (Nat.leb_spec e (length q + 1)); [|lia]. cbn [andb]. f_equal.
    rewrite skipn_app. rewrite firstn_app. rewrite skipn_length.
    replace (e - b - (length q - b)) with 0 by lia. now rewrite firstn_O, app_nil_r.
  Qed.
  Lemma execute_run : forall q toks text t, Forall (tok_in q) toks ->
    execute lo (q ++ [endSymbol]) toks text t = option_map snd (run (toks_events q toks) (text, t)).
  Proof.
    intros q toks. induction toks as [|tk toks IH]; intros text t H; [reflexivity|].
    inversion H as [|? ? [H1 H2] H3]; subst. cbn [execute toks_events flat_map]. unfold tok_events at 1.
    destruct (trule tk); cbn [app].
    - now apply IH.
    - rewrite slice_rng_app by assumption. cbn [run]. now apply IH.
    - cbn [run fst snd]. destruct (run_action lo n text t); [now apply IH|reflexivity].
  Qed.

  (** ** What an expression leaves on the stack *)
  Definition opn (o : list N) : option node := Some (mk_op (normalize_operation lo o)).
  (** [tree_of] with the code's NormalizeOperation; see [ntree_tree] in NormProofs *)
  Fixpoint ntree (e : expr) : option node :=
    match e with
    | EVal v => Some (val_node v)
    | EName x => Some (mk_ident x)
    | ERef xs => Some (mk_reference xs)
    | EJson _ => None
    | ECall f args => Some (mk_function f (map ntree args))
    | EParen e => Some (mk_paren (ntree e))
    | EBetween e o _ l h => Some (mk_between (ntree e) (Some (mk_op (normalize_operation lo o))) (Some (val_node l)) (Some (val_node h)))
    | EPred e o => Some (mk_predicate (ntree e) (Some (mk_op (normalize_operation lo o))))
    | EIn e o p ls => Some (mk_compare (ntree e) (Some (mk_op (normalize_operation lo o))) (Some (val_node (VArr p ls))))
    | ECmp l o r => Some (mk_compare (ntree l) (Some (mk_op (normalize_operation lo o))) (ntree r))
    | ENot e => Some (mk_not (ntree e))
    | ELogic l o r => Some (mk_logic (ntree l) (Some (mk_op (normalize_operation lo o))) (ntree r))
    end.
  Definition lnode (l : literal) : node :=
    match l with LInt ds => mk_int (Z.min (dec_value ds) maxInt) | _ => lit_node l end.
  Definition vnode (v : val) : node :=
    match v with VLit l => lnode l | VArr _ ls => mk_array (map (fun l => Some (lnode l)) ls) end.
  Definition lerr (l : literal) : list perr :=
    match l with LInt ds => if (dec_value ds <=? maxInt)%Z then [] else [PERange ds] | _ => [] end.
  Definition verr (v : val) : list perr :=
    match v with VLit l => lerr l | VArr _ ls => concat (map lerr ls) end.
  Fixpoint errs (e : expr) : list perr :=
    match e with
    | EVal v => verr v
    | EName _ | ERef _ | EJson _ => []
    | ECall _ args => concat (map errs args)
    | EParen e | EPred e _ | ENot e => errs e
    | EBetween e _ _ lo hi => errs e ++ verr lo ++ verr hi
    | EIn e _ p ls => errs e ++ verr (VArr p ls)
    | ECmp l _ r | ELogic l _ r => errs l ++ errs r
    end.
  Definition red1 (f : option node -> node) (l : list (option node)) : list (option node) :=
    removelast l ++ [Some (f (last l None))].
  Definition red3 (f : option node -> option node -> option node -> node) (l : list (option node)) : list (option node) :=
    let l1 := removelast l in let l2 := removelast l1 in
    removelast l2 ++ [Some (f (last l2 None) (last l1 None) (last l None))].
  Fixpoint stk (e : expr) : list (option node) :=
    match e with
    | EVal v => [Some (vnode v)]
    | EName x => [Some (mk_ident x)]
    | ERef xs => [Some (mk_reference xs)]
    | EJson xs => map (fun x => Some (mk_ident x)) xs
    | ECall f args => [Some (mk_function f (concat (map stk args)))]
    | EParen e => red1 mk_paren (stk e)
    | EBetween e o _ l h => red1 (fun x => mk_between x (opn o) (Some (vnode l)) (Some (vnode h))) (stk e)
    | EPred e o => red1 (fun x => mk_predicate x (opn o)) (stk e)
    | EIn e o p ls => red1 (fun x => mk_compare x (opn o) (Some (vnode (VArr p ls)))) (stk e)
    | ECmp l o r => red3 mk_compare (stk l ++ opn o :: stk r)
    | ENot e => red1 mk_not (stk e)
    | ELogic l o r => red3 mk_logic (stk l ++ opn o :: stk r)
    end.

  Definition adds (ev : list event) (ns : list (option node)) (er : list perr) : Prop :=
    forall text s e m, exists text', run ev (text, Tree s e m) = Some (text', Tree (s ++ ns) (e ++ er) m).
  Lemma adds_app : forall a b na nb ea eb, adds a na ea -> adds b nb eb -> adds (a ++ b) (na ++ nb) (ea ++ eb).
  Proof.
    intros a b na nb ea eb Ha Hb text s e m. destruct (Ha text s e m) as (t1 & H1). destruct (Hb t1 (s ++ na) (e ++ ea) m) as (t2 & H2).
    exists t2. rewrite run_app, H1, H2. now rewrite <- !app_assoc.
  Qed.
  Lemma adds_nil : adds [] [] [].
  Proof. intros text s e m. exists text. cbn. now rewrite !app_nil_r. Qed.
  Lemma adds_concat : forall A (f : A -> list event) g h l, (forall x, In x l -> adds (f x) (g x) (h x)) ->
    adds (concat (map f l)) (concat (map g l)) (concat (map h l)).
  Proof.
    intros A f g h l H. induction l as [|x l IH]; [apply adds_nil|]. cbn [map concat].
    apply adds_app; [apply H; now left|]. apply IH. intros y Hy. apply H. now right.
  Qed.
  Lemma pop_snoc : forall s x e m, pop (Tree (s ++ [x]) e m) = (x, Tree s e m).
  Proof.
    intros s x e m. unfold pop. cbn [tStack tErrors tMarks]. destruct (s ++ [x]) eqn:H; [now apply app_eq_nil in H as [_ H]|].
    rewrite <- H. now rewrite last_last, removelast_last.
  Qed.
  Lemma snoc_ex : forall (l : list (option node)), l <> [] -> l = removelast l ++ [last l None].
  Proof. intros l H. now apply app_removelast_last. Qed.
  Lemma last_app_ne : forall (s l : list (option node)), l <> [] -> last (s ++ l) None = last l None.
  Proof.
    intros s l H. rewrite (snoc_ex l H). rewrite app_assoc. now rewrite !last_last.
  Qed.
  Lemma removelast_length : forall (l : list (option node)), length (removelast l) = length l - 1.
  Proof.
    intro l. destruct l as [|x l]; [reflexivity|]. rewrite (snoc_ex (x :: l)) at 2 by discriminate. rewrite app_length. cbn [length]. lia.
  Qed.
  Lemma pop_ne : forall s l e m, l <> [] -> pop (Tree (s ++ l) e m) = (last l None, Tree (s ++ removelast l) e m).
  Proof. intros s l e m H. rewrite (snoc_ex l H) at 1. rewrite app_assoc. apply pop_snoc. Qed.
  Lemma adds_red1 : forall a f ns er n, adds a ns er -> ns <> [] ->
    (forall text t, run_action lo n text t = let (x, t1) := pop t in Some (push (Some (f x)) t1)) ->
    adds (a ++ [EAct n]) (red1 f ns) er.
  Proof.
    intros a f ns er n Ha Hn Hf text s e m. destruct (Ha text s e m) as (t1 & H1). exists t1.
    rewrite run_app, H1. cbn [run fst snd]. rewrite Hf, pop_ne by exact Hn. unfold push, red1. cbn. now rewrite <- app_assoc.
  Qed.
  Lemma adds_red3 : forall a f ns er n, adds a ns er -> 3 <= length ns ->
    (forall text t, run_action lo n text t = let (r, t1) := pop t in let (o, t2) := pop t1 in let (l, t3) := pop t2 in
       Some (push (Some (f l o r)) t3)) ->
    adds (a ++ [EAct n]) (red3 f ns) er.
  Proof.
    intros a f ns er n Ha Hn Hf text s e m. destruct (Ha text s e m) as (t1 & H1). exists t1.
    assert (N1 : ns <> []) by (intros ->; cbn in Hn; lia).
    assert (N2 : removelast ns <> []).
    { intro Hx. apply (f_equal (@length _)) in Hx. rewrite removelast_length in Hx. cbn in Hx. lia. }
    assert (N3 : removelast (removelast ns) <> []).
    { intro Hx. apply (f_equal (@length _)) in Hx. rewrite !removelast_length in Hx. cbn in Hx. lia. }
    rewrite run_app, H1. cbn [run fst snd]. rewrite Hf, !pop_ne by assumption. unfold push, red3. cbn. now rewrite <- app_assoc.
  Qed.
  (** an operator pushes its node *)
  Definition is_op_act (n : nat) : Prop := forall text t, run_action lo n text t = Some (add_operation lo text t).
  Lemma adds_op : forall o n, is_op_act n -> adds [EText o; EAct n] [opn o] [].
  Proof. intros o n Hn text s e m. exists o. cbn [run fst snd]. rewrite Hn. cbn. now rewrite app_nil_r. Qed.
  Lemma op_cmp_act : forall o, is_op_act (cmp_act o).
  Proof.
    intros o text t. unfold cmp_act. destruct o as [|c o]; [reflexivity|]. destruct (letter c); [|reflexivity].
    destruct (Nat.leb 4 (length (c :: o))); reflexivity.
  Qed.
  Lemma op_logic_act : forall o, is_op_act (logic_act o).
  Proof. intros o text t. unfold logic_act. destruct o as [|c o]; [reflexivity|]. destruct (letter c); reflexivity. Qed.

  Lemma atoi_digits : forall ds, ds <> [] -> forallb is_digit ds = true ->
    atoi ds = (Z.min (dec_value ds) maxInt, if (dec_value ds <=? maxInt)%Z then None else Some (PERange ds)).
  Proof.
    intros ds Hn Hd. unfold atoi. destruct ds as [|c ds]; [congruence|]. change (forallb atoi_digit (c :: ds)) with (forallb is_digit (c :: ds)).
    rewrite Hd, digits_value by exact Hd. change atoi_max with maxInt.
    destruct (Z.leb_spec (dec_value (c :: ds)) maxInt); [rewrite Z.min_l|rewrite Z.min_r]; auto; lia.
  Qed.
  Lemma adds_lit : forall l t, lit_text l t -> adds (lit_ev l) [Some (lnode l)] (lerr l).
  Proof.
    intros l t H text s e m. destruct H as [x Hx|x Hx| |c ds Hc H0 Hd|w Hw|w Hw]; cbn [lit_ev lerr lnode lit_node].
    - exists x. cbn. now rewrite app_nil_r.
    - exists x. cbn. now rewrite app_nil_r.
    - exists #"0". cbn. now rewrite app_nil_r.
    - exists (c :: ds). cbn [run fst snd run_action]. unfold add_integer.
      rewrite atoi_digits; [|discriminate|cbn; now rewrite Hc, Hd].
      destruct (dec_value (c :: ds) <=? maxInt)%Z; cbn; [now rewrite app_nil_r|reflexivity].
    - exists w. cbn in Hw. decompose [or] Hw; subst; try contradiction; cbn; now rewrite app_nil_r.
    - exists w. cbn. now rewrite app_nil_r.
  Qed.
  (** a marked region becomes one node *)
  Lemma adds_marked : forall a ns er m0 n0 f,
    (forall text t, run_action lo m0 text t = Some (add_mark t)) ->
    adds a ns er ->
    (forall text t, run_action lo n0 text t = match pop_marked t with
        | Some (l, t1) => match f l with Some x => Some (push (Some x) t1) | None => None end | None => None end) ->
    forall x, f ns = Some x ->
    adds ([EAct m0] ++ a ++ [EAct n0]) [Some x] er.
  Proof.
    intros a ns er m0 n0 f Hm Ha Hn x Hx text s e m. cbn [app run fst snd]. rewrite Hm. unfold add_mark. cbn [tStack tErrors tMarks].
    destruct (Ha text s e (m ++ [length s])) as (t1 & H1). exists t1. rewrite run_app, H1. cbn [run fst snd]. rewrite Hn.
    unfold pop_marked, pop_mark. cbn [tStack tErrors tMarks]. destruct (m ++ [length s]) eqn:Hml; [now apply app_eq_nil in Hml as [_ Hml]|].
    rewrite <- Hml. rewrite last_last, removelast_last. cbn [tStack tErrors tMarks]. rewrite app_length. destruct (Nat.leb_spec (length s) (length s + length ns)); [|lia].
    rewrite skipn_app, skipn_all, Nat.sub_diag. cbn [app skipn]. rewrite Hx. unfold push. cbn.
    rewrite firstn_app, firstn_all, Nat.sub_diag. cbn. now rewrite app_nil_r.
  Qed.
  Lemma lits_forall : forall ls t, lits_text ls t -> forall l, In l ls -> exists x, lit_text l x.
  Proof.
    intros ls t H. induction H as [l t Hl|l t w1 w2 ls ts Hl _ _ _ IH]; intros k [->|Hk]; eauto. contradiction.
  Qed.
  Lemma arr_forall : forall p c ls t, arr_text p c ls t -> forall l, In l ls -> exists x, lit_text l x.
  Proof. intros p c ls t H. destruct H; [intros l []|eapply lits_forall; eassumption|eapply lits_forall; eassumption]. Qed.
  Lemma concat_single : forall A B (f : A -> B) l, concat (map (fun x => [f x]) l) = map f l.
  Proof. intros A B f l. induction l as [|x l IH]; cbn; congruence. Qed.
  Lemma adds_arr : forall p c ls t, arr_text p c ls t -> adds (arr_ev p ls) [Some (vnode (VArr p ls))] (concat (map lerr ls)).
  Proof.
    intros p c ls t H. unfold arr_ev. eapply (adds_marked _ (map (fun l => Some (lnode l)) ls) _ _ _ (fun l => Some (mk_array l))).
    - intros text u. destruct p; reflexivity.
    - unfold lits_ev. rewrite <- (concat_single _ _ (fun l => Some (lnode l))). apply adds_concat. intros l Hl.
      destruct (arr_forall _ _ _ _ H l Hl) as (x & Hx). eapply adds_lit. exact Hx.
    - intros text u. destruct p; cbn; unfold pop_array; destruct (pop_marked u) as [[? ?]|]; reflexivity.
    - reflexivity.
  Qed.
  Lemma adds_val : forall v t, val_text v t -> adds (val_ev v) [Some (vnode v)] (verr v).
  Proof. intros v t H. destruct H; [eapply adds_lit|eapply adds_arr]; eassumption. Qed.
  Lemma adds_ids : forall xs, adds (ids_ev xs) (map (fun x => Some (mk_ident x)) xs) [].
  Proof.
    intros xs. unfold ids_ev. rewrite <- (concat_single _ _ (fun x => Some (mk_ident x))).
    replace (@nil perr) with (concat (map (fun _ : list N => @nil perr) xs)) by (induction xs; cbn; congruence).
    apply adds_concat. intros x _ text s e m. exists x. cbn. now rewrite app_nil_r.
  Qed.

  Lemma red1_ne : forall f l, red1 f l <> [].
  Proof. intros f l H. unfold red1 in H. now apply app_eq_nil in H as [_ H]. Qed.
  Lemma red3_ne : forall f l, red3 f l <> [].
  Proof. intros f l H. unfold red3 in H. now apply app_eq_nil in H as [_ H]. Qed.
  Lemma stk_ne : forall e t, lay e t -> stk e <> [].
  Proof. intros e t H. destruct H; cbn [stk]; try discriminate; try apply red1_ne; apply red3_ne. Qed.
  Lemma stk3 : forall l o r tl tr, lay l tl -> lay r tr -> 3 <= length (stk l ++ opn o :: stk r).
  Proof.
    intros l o r tl tr Hl Hr. apply stk_ne in Hl. apply stk_ne in Hr. rewrite app_length. cbn [length].
    destruct (stk l); [congruence|]. destruct (stk r); [congruence|]. cbn. lia.
  Qed.

  Lemma node_names_idents : forall xs, node_names (map (fun x => Some (mk_ident x)) xs) = Some xs.
  Proof. induction xs as [|x xs IH]; [reflexivity|]. cbn. now rewrite IH. Qed.

  Lemma adds_call : forall f a ns er, adds a ns er ->
    adds (id_ev f ++ [EAct 10] ++ a ++ [EAct 11; EAct 9]) [Some (mk_function f ns)] er.
  Proof.
    intros f a ns er Ha.
    assert (HA : adds ([EAct 10] ++ a ++ [EAct 11]) [Some (mk_array ns)] er).
    { eapply (adds_marked _ _ _ _ _ (fun l => Some (mk_array l))); [intros; reflexivity|exact Ha| |reflexivity].
      intros text u. cbn. unfold pop_array. destruct (pop_marked u) as [[? ?]|]; reflexivity. }
    assert (HB : adds (id_ev f) [Some (mk_ident f)] []) by (intros text s e m; exists f; cbn; now rewrite app_nil_r).
    pose proof (adds_app _ _ _ _ _ _ HB HA) as HC. intros text s e m. destruct (HC text s e m) as (t1 & H1). exists t1.
    replace (id_ev f ++ [EAct 10] ++ a ++ [EAct 11; EAct 9]) with ((id_ev f ++ [EAct 10] ++ a ++ [EAct 11]) ++ [EAct 9])
      by (rewrite <- !app_assoc; reflexivity).
    rewrite run_app, H1. cbn [run fst snd run_action]. unfold pop_function.
    replace (s ++ [Some (mk_ident f)] ++ [Some (mk_array ns)]) with ((s ++ [Some (mk_ident f)]) ++ [Some (mk_array ns)])
      by (rewrite <- !app_assoc; reflexivity).
    rewrite pop_snoc, pop_snoc. reflexivity.
  Qed.

  (** an action that takes the last of [ns] and everything pushed after it *)
  Lemma adds_tail : forall a b f ns tl er er2 n, adds a ns er -> ns <> [] -> adds b tl er2 ->
    (forall text s x e m, run_action lo n text (Tree (s ++ x :: tl) e m) = Some (Tree (s ++ [Some (f x)]) e m)) ->
    adds (a ++ b ++ [EAct n]) (red1 f ns) (er ++ er2).
  Proof.
    intros a b f ns tl er er2 n Ha Hn Hb Hf text s e m.
    destruct (adds_app _ _ _ _ _ _ Ha Hb text s e m) as (t1 & H1). exists t1.
    rewrite app_assoc, run_app, H1. cbn [run fst snd]. unfold red1. rewrite (snoc_ex ns Hn) at 1. rewrite <- !app_assoc. cbn [app].
    rewrite (app_assoc s), Hf. now rewrite <- app_assoc.
  Qed.
  Lemma pop_tail : forall s x y e m, pop (Tree (s ++ [x; y]) e m) = (y, Tree (s ++ [x]) e m).
  Proof. intros. change [x; y] with ([x] ++ [y]). rewrite app_assoc. apply pop_snoc. Qed.
  Lemma pop_tail2 : forall s x y z e m, pop (Tree (s ++ [x; y; z]) e m) = (z, Tree (s ++ [x; y]) e m).
  Proof. intros. change [x; y; z] with ([x; y] ++ [z]). rewrite app_assoc. apply pop_snoc. Qed.
  Lemma pop_tail3 : forall s x y z w e m, pop (Tree (s ++ [x; y; z; w]) e m) = (w, Tree (s ++ [x; y; z]) e m).
  Proof. intros. change [x; y; z; w] with ([x; y; z] ++ [w]). rewrite app_assoc. apply pop_snoc. Qed.
  Lemma adds_between : forall a ns er o v1 v2 t1 t2, adds a ns er -> ns <> [] -> val_text v1 t1 -> val_text v2 t2 ->
    forall b, adds (a ++ [EText o; EAct 6] ++ val_ev v1 ++ val_ev v2 ++ br_ev b ++ [EAct 7])
      (red1 (fun x => mk_between x (opn o) (Some (vnode v1)) (Some (vnode v2))) ns) (er ++ verr v1 ++ verr v2).
  Proof.
    intros a ns er o v1 v2 t1 t2 Ha Hn H1 H2 b.
    assert (HX : adds (a ++ ([EText o; EAct 6] ++ val_ev v1 ++ val_ev v2) ++ [EAct 7])
      (red1 (fun x => mk_between x (opn o) (Some (vnode v1)) (Some (vnode v2))) ns) (er ++ verr v1 ++ verr v2)).
    2: { intros text s e m. destruct (HX text s e m) as (text' & H). exists text'. rewrite <- H. rewrite <- run_erase.
         rewrite <- (run_erase (a ++ _ ++ [EAct 7])). rewrite !erase_app. rewrite <- !app_assoc. destruct b; reflexivity. }
    eapply (adds_tail _ _ _ _ [opn o; Some (vnode v1); Some (vnode v2)]); [exact Ha|exact Hn| |].
    - apply (adds_app _ _ [opn o] [Some (vnode v1); Some (vnode v2)] []); [now apply adds_op|].
      apply (adds_app _ _ [Some (vnode v1)] [Some (vnode v2)]); eapply adds_val; eassumption.
    - intros. cbn [run_action]. unfold pop_between. rewrite pop_tail3, pop_tail2, pop_tail, pop_snoc. reflexivity.
  Qed.

  Lemma run_mut : (forall e t, lay e t -> adds (evs e) (stk e) (errs e)) /\
    (forall es t, lays es t -> adds (concat (map evs es)) (concat (map stk es)) (concat (map errs es))).
  Proof.
    apply (lay_lays_ind (fun e t _ => adds (evs e) (stk e) (errs e))
      (fun es t _ => adds (concat (map evs es)) (concat (map stk es)) (concat (map errs es)))); intros; cbn [evs stk errs verr].
    - eapply adds_lit; eassumption.
    - eapply adds_arr; eassumption.
    - intros text s e m. exists x. cbn. now rewrite app_nil_r.
    - eapply (adds_marked _ _ _ _ _ (fun l => match node_names l with Some ns => Some (mk_reference ns) | None => None end)).
      + intros text u. reflexivity.
      + apply adds_ids.
      + intros text u. cbn. unfold pop_identifier_reference. destruct (pop_marked u) as [[ns ?]|]; [|reflexivity]. destruct (node_names ns); reflexivity.
      + now rewrite node_names_idents.
    - intros text s e m. destruct (adds_ids (x :: y :: xs) text s e m) as (text' & H). exists text'. rewrite <- H.
      rewrite <- run_erase. rewrite <- (run_erase (ids_ev _)). rewrite !erase_app. cbn [erase filter ghost Nat.leb negb app]. now rewrite app_nil_r.
    - apply (adds_call f []); apply adds_nil.
    - now apply adds_call.
    - now apply adds_call.
    - apply adds_red1; [exact H|eapply stk_ne; eassumption|reflexivity].
    - eapply adds_between; try eassumption. eapply stk_ne; eassumption.
    - eapply adds_between; try eassumption. eapply stk_ne; eassumption.
    - rewrite <- (app_nil_r (errs e)). change [EText o; EAct 20; EAct 5] with ([EText o; EAct 20] ++ [EAct 5]).
      eapply (adds_tail _ _ _ _ [opn o]); [exact H|eapply stk_ne; eassumption|now apply adds_op|].
      intros. cbn [run_action]. unfold pop_predicate. rewrite pop_tail, pop_snoc. reflexivity.
    - rewrite (app_assoc [EText o; EAct 3]).
      eapply (adds_tail _ _ _ _ [opn o; Some (vnode (VArr p ls))]); [exact H|eapply stk_ne; eassumption| |].
      + apply (adds_app _ _ [opn o] [Some (vnode (VArr p ls))] []); [now apply adds_op|]. eapply adds_arr; eassumption.
      + intros. cbn [run_action]. unfold pop_compare. rewrite pop_tail2, pop_tail, pop_snoc. reflexivity.
    - rewrite (app_assoc (evs l)), app_assoc.
      eapply adds_red3; [|eapply stk3; eassumption|reflexivity].
      rewrite <- app_assoc. apply adds_app; [assumption|]. apply (adds_app _ _ [opn o] _ []); [apply adds_op, op_cmp_act|assumption].
    - apply adds_red1; [exact H|eapply stk_ne; eassumption|reflexivity].
    - rewrite (app_assoc (evs l)), app_assoc.
      eapply adds_red3; [|eapply stk3; eassumption|reflexivity].
      rewrite <- app_assoc. apply adds_app; [assumption|]. apply (adds_app _ _ [opn o] _ []); [apply adds_op, op_logic_act|assumption].
    - cbn. now rewrite !app_nil_r.
    - cbn [map concat]. now apply adds_app.
  Qed.

  (** ** Parse *)
  Theorem parse_reads : forall q e, valid_runes q -> reads q e ->
    parse lo q = match errs e with x :: _ => Err x | [] => Ok (last (stk e) None) end.
  Proof.
    intros q e Hq He. pose proof (parse_machine_spec q Hq) as HM. rewrite (grammar_complete q e He) in HM.
    destruct HM as (s & H1 & H2 & H3). unfold parse. rewrite H1. rewrite init_buffer_eq by exact Hq.
    destruct He as (w1 & t & w2 & _ & _ & _ & Hl).
    rewrite execute_run by (unfold trim; apply Forall_firstn; apply H2). rewrite H3, run_erase.
    destruct (proj1 run_mut e t Hl [] [] [] []) as (t' & H). unfold tree0. rewrite H. cbn.
    destruct (errs e); [|reflexivity]. f_equal. apply stk_ne in Hl. change (stk e) with ([] ++ stk e). now rewrite pop_ne.
  Qed.
  Theorem parse_no_reads : forall q, valid_runes q -> (forall e, ~ reads q e) ->
    exists b e, parse lo q = Err (PESyntax b e) /\ b <= e <= length q.
  Proof.
    intros q Hq Hn. pose proof (parse_machine_spec q Hq) as HM.
    destruct (E (PRule rGrammar) q) as [[ev r]|] eqn:HE.
    - destruct (grammar_sound _ _ _ HE) as (_ & e & He & _). now apply Hn in He.
    - destruct HM as (s & H1 & H2). unfold parse. rewrite H1. eexists _, _. split; [reflexivity|]. apply H2.
  Qed.
End Run.

(** ** Errors and trees *)
Lemma concat_nil_iff : forall A B (f : A -> list B) (p : A -> bool) l, (forall x, In x l -> (f x = [] <-> p x = true)) ->
  (concat (map f l) = [] <-> forallb p l = true).
Proof.
  intros A B f p l H. induction l as [|x l IH]; [easy|]. cbn [map concat forallb]. rewrite andb_true_iff.
  rewrite <- (H x (or_introl eq_refl)), <- IH by (intros y Hy; apply H; now right). split; [apply app_eq_nil|intros [-> ->]; reflexivity].
Qed.
Lemma lerr_fits : forall l, lerr l = [] <-> lit_fits l = true.
Proof. intros [| ds | |]; cbn; try easy. destruct (dec_value ds <=? maxInt)%Z; easy. Qed.
Lemma verr_fits : forall v, verr v = [] <-> val_fits v = true.
Proof. intros [l|p ls]; [apply lerr_fits|]. apply concat_nil_iff. intros l _. apply lerr_fits. Qed.

(** an induction principle that goes into the arguments of a call *)
Lemma expr_ind2 : forall P : expr -> Prop,
  (forall v, P (EVal v)) -> (forall x, P (EName x)) -> (forall xs, P (ERef xs)) -> (forall xs, P (EJson xs)) ->
  (forall f args, Forall P args -> P (ECall f args)) -> (forall e, P e -> P (EParen e)) ->
  (forall e o b lo hi, P e -> P (EBetween e o b lo hi)) -> (forall e o, P e -> P (EPred e o)) ->
  (forall e o p ls, P e -> P (EIn e o p ls)) -> (forall l o r, P l -> P r -> P (ECmp l o r)) ->
  (forall e, P e -> P (ENot e)) -> (forall l o r, P l -> P r -> P (ELogic l o r)) -> forall e, P e.
Proof.
  intros P H1 H2 H3 H4 H5 H6 H7 H8 H9 H10 H11 H12. fix IH 1. intros [v|x|xs|xs|f args|e|e o b lo hi|e o|e o p ls|l o r|e|l o r];
    [apply H1|apply H2|apply H3|apply H4|apply H5|apply H6; apply IH|apply H7; apply IH|apply H8; apply IH|apply H9; apply IH
    |apply H10; apply IH|apply H11; apply IH|apply H12; apply IH].
  induction args as [|a args IHa]; constructor; [apply IH|exact IHa].
Qed.
Lemma errs_fits : forall e, errs e = [] <-> fits e = true.
Proof.
  induction e using expr_ind2; cbn [errs fits]; try easy; try (now apply verr_fits).
  - apply concat_nil_iff. now apply Forall_forall.
  - rewrite !andb_true_iff, <- IHe, <- !verr_fits. split; [intros H; now apply app_eq_nil in H as [-> [-> ->]%app_eq_nil]|].
    intros [[-> ->] ->]. reflexivity.
  - rewrite !andb_true_iff, <- IHe. change (forallb lit_fits ls) with (val_fits (VArr p ls)). rewrite <- !verr_fits.
    split; [apply app_eq_nil|intros [-> ->]; reflexivity].
  - rewrite !andb_true_iff, <- IHe1, <- IHe2. split; [apply app_eq_nil|intros [-> ->]; reflexivity].
  - rewrite !andb_true_iff, <- IHe1, <- IHe2. split; [apply app_eq_nil|intros [-> ->]; reflexivity].
Qed.
Definition is_range (x : perr) : Prop := exists ds, x = PERange ds /\ (maxInt < dec_value ds)%Z.
Lemma Forall_concat : forall A B (P : B -> Prop) (f : A -> list B) l, (forall x, In x l -> Forall P (f x)) -> Forall P (concat (map f l)).
Proof.
  intros A B P f l H. induction l as [|x l IH]; cbn; [constructor|]. apply Forall_app. split; [apply H; now left|]. apply IH. intros; apply H. now right.
Qed.
Lemma lerr_range : forall l, Forall is_range (lerr l).
Proof.
  intros [| ds | |]; cbn; try constructor. destruct (Z.leb_spec (dec_value ds) maxInt); repeat constructor. exists ds. split; [reflexivity|lia].
Qed.
Lemma verr_range : forall v, Forall is_range (verr v).
Proof. intros [l|p ls]; [apply lerr_range|]. apply Forall_concat. intros. apply lerr_range. Qed.
Lemma errs_range : forall e, Forall is_range (errs e).
Proof.
  induction e using expr_ind2; cbn [errs]; repeat (apply Forall_app; split); auto; try apply verr_range; try constructor.
  apply Forall_concat. now apply Forall_forall.
Qed.

Section Trees.
  Variable lo : N -> N.
  Lemma lnode_fits : forall l, lit_fits l = true -> lnode l = lit_node l.
  Proof. intros [| ds | |]; cbn; try reflexivity. intros H%Z.leb_le. now rewrite Z.min_l. Qed.
  Lemma map_ext_forallb : forall A B (f g : A -> B) (p : A -> bool) l, forallb p l = true ->
    (forall x, In x l -> p x = true -> f x = g x) -> map f l = map g l.
  Proof.
    intros A B f g p l H Hx. rewrite forallb_forall in H. apply map_ext_in. auto.
  Qed.
  Lemma vnode_fits : forall v, val_fits v = true -> vnode v = val_node v.
  Proof.
    intros [l|p ls] H; [now apply lnode_fits|]. cbn. f_equal. eapply map_ext_forallb; [exact H|]. intros. cbn. now rewrite lnode_fits.
  Qed.
  Lemma red1_one : forall f x, red1 f [x] = [Some (f x)].
  Proof. reflexivity. Qed.
  Lemma stk_tree : forall e, json_free e = true -> fits e = true -> stk lo e = [ntree lo e].
  Proof.
    induction e using expr_ind2; cbn [json_free fits stk ntree]; intros Hj Hf; repeat rewrite andb_true_iff in *;
      rewrite ?IHe, ?IHe1, ?IHe2 by tauto; try reflexivity; try discriminate.
    - now rewrite vnode_fits.
    - do 3 f_equal. rewrite <- (concat_single _ _ (ntree lo)). f_equal. rewrite Forall_forall in H. rewrite forallb_forall in Hj, Hf.
      apply map_ext_in. intros e He. now rewrite H by auto.
    - rewrite red1_one, !vnode_fits by tauto. reflexivity.
    - rewrite red1_one. rewrite (vnode_fits (VArr p ls)) by tauto. reflexivity.
  Qed.

  Definition first_err (e : expr) : option perr := match errs e with x :: _ => Some x | [] => None end.

  (** every outcome of Parse *)
  Theorem parse_cases : forall q, valid_runes q ->
    (exists e, reads q e /\ fits e = true /\ parse lo q = Ok (last (stk lo e) None)) \/
    (exists e ds, reads q e /\ fits e = false /\ parse lo q = Err (PERange ds) /\ (maxInt < dec_value ds)%Z) \/
    ((forall e, ~ reads q e) /\ exists b f, parse lo q = Err (PESyntax b f) /\ b <= f <= length q).
  Proof.
    intros q Hq. destruct (E (PRule rGrammar) q) as [[ev r]|] eqn:HE.
    - destruct (grammar_sound _ _ _ HE) as (_ & e & He & _). pose proof (parse_reads lo q e Hq He) as HP.
      pose proof (errs_range e) as HR. pose proof (errs_fits e) as HF. destruct (errs e) as [|x l].
      + left. exists e. intuition.
      + right. left. inversion HR as [|? ? (ds & -> & Hd) _]; subst. exists e, ds. repeat split; auto.
        destruct (fits e); [|reflexivity]. destruct HF as [_ HF]. now specialize (HF eq_refl).
    - right. right. assert (HN : forall e, ~ reads q e).
      { intros e He. apply grammar_complete in He. congruence. }
      split; [exact HN|]. now apply parse_no_reads.
  Qed.

  (** all stack entries are there *)
  Lemma stk_some : forall e t, lay e t -> Forall (fun x => x <> None) (stk lo e).
  Proof.
    assert (R1 : forall f l, Forall (fun x : option node => x <> None) l -> Forall (fun x => x <> None) (red1 f l)).
    { intros f l H. unfold red1. apply Forall_app. split; [|repeat constructor; discriminate].
      destruct l as [|x l]; [constructor|]. rewrite (snoc_ex (x :: l)) in H by discriminate. apply Forall_app in H. apply H. }
    assert (RL : forall l, Forall (fun x : option node => x <> None) l -> Forall (fun x => x <> None) (removelast l)).
    { intros l H. destruct l as [|x l]; [constructor|]. rewrite (snoc_ex (x :: l)) in H by discriminate. apply Forall_app in H. apply H. }
    intros e t H. clear t H. induction e using expr_ind2; cbn [stk]; try (repeat constructor; discriminate); auto.
    - apply Forall_forall. intros x (y & <- & _)%in_map_iff. discriminate.
    - unfold red3. apply Forall_app. split; [|repeat constructor; discriminate]. repeat apply RL. apply Forall_app. split; [auto|].
      constructor; [discriminate|auto].
    - unfold red3. apply Forall_app. split; [|repeat constructor; discriminate]. repeat apply RL. apply Forall_app. split; [auto|].
      constructor; [discriminate|auto].
  Qed.
  Lemma stk_last : forall e t, lay e t -> exists n, last (stk lo e) None = Some n.
  Proof.
    intros e t H. pose proof (stk_some e t H) as HS. pose proof (stk_ne lo e t H) as HN. rewrite (snoc_ex _ HN) in HS.
    apply Forall_app in HS as [_ HS]. inversion HS; subst. destruct (last (stk lo e) None); [eauto|congruence].
  Qed.
End Trees.
