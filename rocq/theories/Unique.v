(** A query text has at most one reading: the actions determine the expression. *)
From Verif Require Import Base Peg Grammar PegProofs Node Vocab Tree Parse GrammarProofs Syntax Lex Ops Complete CompleteMain ParseProofs.

(** a machine that rebuilds the expression from the actions; a mark saves the
    stack and starts a new one *)
Inductive item : Set := IE (e : expr) | IO (o : list N) | IA (l : list expr) | IB.
Definition dstate : Set := list N * list item * list (list item).

Fixpoint as_exprs (l : list item) : option (list expr) :=
  match l with
  | [] => Some []
  | IE e :: l' => match as_exprs l' with Some es => Some (e :: es) | None => None end
  | _ => None
  end.
Fixpoint as_names (l : list expr) : option (list (list N)) :=
  match l with
  | [] => Some []
  | EName x :: l' => match as_names l' with Some es => Some (x :: es) | None => None end
  | _ => None
  end.
Fixpoint as_lits (l : list expr) : option (list literal) :=
  match l with
  | [] => Some []
  | EVal (VLit x) :: l' => match as_lits l' with Some es => Some (x :: es) | None => None end
  | _ => None
  end.
Definition omap {A B} (f : A -> B) (o : option A) : option B := match o with Some x => Some (f x) | None => None end.
Definition obind {A B} (f : A -> option B) (o : option A) : option B := match o with Some x => f x | None => None end.

Definition region (f : list expr -> option item) (text : list N) (st : list item) (m : list (list item)) : option dstate :=
  match m with
  | s :: m' => match as_exprs (rev st) with
               | Some es => match f es with Some i => Some (text, i :: s, m') | None => None end
               | None => None end
  | [] => None
  end.
Definition dact (n : nat) (d : dstate) : option dstate :=
  let '(text, st, m) := d in
  match n, st with
  | 0, IE r :: IO o :: IE l :: s => Some (text, IE (ELogic l o r) :: s, m)
  | 1, IE e :: s => Some (text, IE (ENot e) :: s, m)
  | 2, IE r :: IO o :: IE l :: s => Some (text, IE (ECmp l o r) :: s, m)
  | 3, _ | 6, _ | 15, _ | 16, _ | 17, _ | 18, _ | 19, _ | 20, _ => Some (text, IO text :: st, m)
  | 4, IE (EVal (VArr p ls)) :: IO o :: IE e :: s => Some (text, IE (EIn e o p ls) :: s, m)
  | 5, IO o :: IE e :: s => Some (text, IE (EPred e o) :: s, m)
  | 7, IB :: IE (EVal hi) :: IE (EVal lo) :: IO o :: IE e :: s => Some (text, IE (EBetween e o true lo hi) :: s, m)
  | 7, IE (EVal hi) :: IE (EVal lo) :: IO o :: IE e :: s => Some (text, IE (EBetween e o false lo hi) :: s, m)
  | 8, IE e :: s => Some (text, IE (EParen e) :: s, m)
  | 9, IA l :: IE (EName f) :: s => Some (text, IE (ECall f l) :: s, m)
  | 10, _ | 12, _ | 21, _ | 23, _ | 30, _ => Some (text, [], st :: m)
  | 11, _ => region (fun es => Some (IA es)) text st m
  | 13, _ => region (fun es => omap (fun xs => IE (ERef xs)) (as_names es)) text st m
  | 14, _ => Some (text, IE (EName text) :: st, m)
  | 22, _ => region (fun es => omap (fun ls => IE (EVal (VArr false ls))) (as_lits es)) text st m
  | 24, _ => region (fun es => omap (fun ls => IE (EVal (VArr true ls))) (as_lits es)) text st m
  | 25, _ => Some (text, IE (EVal (VLit (LInt text))) :: st, m)
  | 26, _ => Some (text, IE (EVal (VLit (LBool text))) :: st, m)
  | 27, _ => Some (text, IE (EVal (VLit (LNull text))) :: st, m)
  | 28, _ => Some (text, IE (EVal (VLit (LStr false text))) :: st, m)
  | 29, _ => Some (text, IE (EVal (VLit (LStr true text))) :: st, m)
  | 31, _ => region (fun es => omap (fun xs => IE (EJson xs)) (as_names es)) text st m
  | 32, _ => Some (text, IB :: st, m)
  | _, _ => None
  end.
Fixpoint decode (l : list event) (d : dstate) : option dstate :=
  match l with
  | [] => Some d
  | EText s :: l' => decode l' (s, snd (fst d), snd d)
  | EAct n :: l' => match dact n d with Some d' => decode l' d' | None => None end
  end.
Lemma decode_app : forall a b d, decode (a ++ b) d = match decode a d with Some d' => decode b d' | None => None end.
Proof.
  induction a as [|[s|n] a IH]; intros b d; cbn [app decode]; [reflexivity|apply IH|]. destruct (dact n d); [apply IH|reflexivity].
Qed.

Definition dadds (ev : list event) (is : list item) : Prop :=
  forall text st m, exists text', decode ev (text, st, m) = Some (text', rev is ++ st, m).
Lemma dadds_app : forall a b x y, dadds a x -> dadds b y -> dadds (a ++ b) (x ++ y).
Proof.
  intros a b x y Ha Hb text st m. destruct (Ha text st m) as (t1 & H1). destruct (Hb t1 (rev x ++ st) m) as (t2 & H2).
  exists t2. rewrite decode_app, H1, H2. now rewrite rev_app_distr, <- app_assoc.
Qed.
Lemma dadds_concat : forall A (f : A -> list event) g l, (forall x, In x l -> dadds (f x) [g x]) ->
  dadds (concat (map f l)) (map g l).
Proof.
  intros A f g l H. induction l as [|x l IH]; [intros text st m; exists text; reflexivity|]. cbn [map concat].
  change (g x :: map g l) with ([g x] ++ map g l). apply dadds_app; [apply H; now left|]. apply IH. intros. apply H. now right.
Qed.
Lemma dadds_then : forall a is i n, dadds a is ->
  (forall text st m, dact n (text, rev is ++ st, m) = Some (text, i :: st, m)) -> dadds (a ++ [EAct n]) [i].
Proof.
  intros a is i n Ha Hn text st m. destruct (Ha text st m) as (t1 & H1). exists t1. rewrite decode_app, H1. cbn [decode]. now rewrite Hn.
Qed.
Lemma as_exprs_map : forall l, as_exprs (map IE l) = Some l.
Proof. induction l as [|e l IH]; [reflexivity|]. cbn. now rewrite IH. Qed.
Lemma as_names_map : forall l, as_names (map EName l) = Some l.
Proof. induction l as [|e l IH]; [reflexivity|]. cbn. now rewrite IH. Qed.
Lemma as_lits_map : forall l, as_lits (map (fun x => EVal (VLit x)) l) = Some l.
Proof. induction l as [|e l IH]; [reflexivity|]. cbn. now rewrite IH. Qed.
Lemma dadds_region : forall a es n0 n1 f i, dadds a (map IE es) ->
  (forall text st m, dact n0 (text, st, m) = Some (text, [], st :: m)) ->
  (forall text st m, dact n1 (text, st, m) = region f text st m) -> f es = Some i ->
  dadds ([EAct n0] ++ a ++ [EAct n1]) [i].
Proof.
  intros a es n0 n1 f i Ha H0 H1 Hf text st m. cbn [app decode]. rewrite H0. destruct (Ha text [] (st :: m)) as (t1 & HA). exists t1.
  rewrite decode_app, HA. cbn [decode]. rewrite H1. unfold region. rewrite app_nil_r, rev_involutive, as_exprs_map, Hf. reflexivity.
Qed.
Lemma dadds_lit : forall l, dadds (lit_ev l) [IE (EVal (VLit l))].
Proof. intros [[|] s|ds|w|w] text st m; eexists; reflexivity. Qed.
Lemma dadds_id : forall x, dadds (id_ev x) [IE (EName x)].
Proof. intros x text st m. eexists. reflexivity. Qed.
Lemma dadds_arr : forall p ls, dadds (arr_ev p ls) [IE (EVal (VArr p ls))].
Proof.
  intros p ls. unfold arr_ev. eapply (dadds_region _ (map (fun l => EVal (VLit l)) ls)).
  - rewrite map_map. apply dadds_concat. intros. apply dadds_lit.
  - intros. destruct p; reflexivity.
  - intros. destruct p; reflexivity.
  - cbn. rewrite as_lits_map. destruct p; reflexivity.
Qed.
Lemma dadds_val : forall v, dadds (val_ev v) [IE (EVal v)].
Proof. intros [l|p ls]; [apply dadds_lit|apply dadds_arr]. Qed.
Lemma dadds_ids : forall xs, dadds (ids_ev xs) (map IE (map EName xs)).
Proof. intro xs. rewrite map_map. apply dadds_concat. intros. apply dadds_id. Qed.
Lemma dadds_op : forall o n, (forall text st m, dact n (text, st, m) = Some (text, IO text :: st, m)) -> dadds [EText o; EAct n] [IO o].
Proof. intros o n H text st m. exists o. cbn [decode fst snd]. rewrite H. reflexivity. Qed.
Lemma dact_cmp : forall o text st m, dact (cmp_act o) (text, st, m) = Some (text, IO text :: st, m).
Proof.
  intros o text st m. unfold cmp_act. destruct o as [|c o]; [reflexivity|]. destruct (letter c); [|reflexivity].
  destruct (Nat.leb 4 (length (c :: o))); reflexivity.
Qed.
Lemma dact_logic : forall o text st m, dact (logic_act o) (text, st, m) = Some (text, IO text :: st, m).
Proof. intros o text st m. unfold logic_act. destruct o as [|c o]; [reflexivity|]. destruct (letter c); reflexivity. Qed.

Lemma dadds_evs : forall e, dadds (evs e) [IE e].
Proof.
  induction e using expr_ind2; cbn [evs].
  - apply dadds_val.
  - apply dadds_id.
  - eapply dadds_region; [apply dadds_ids|reflexivity|reflexivity|]. cbn. now rewrite as_names_map.
  - eapply dadds_region; [apply dadds_ids|reflexivity|reflexivity|]. cbn. now rewrite as_names_map.
  - replace (id_ev f ++ [EAct 10] ++ concat (map evs args) ++ [EAct 11; EAct 9])
      with ((id_ev f ++ [EAct 10] ++ concat (map evs args) ++ [EAct 11]) ++ [EAct 9]) by (rewrite <- !app_assoc; reflexivity).
    eapply (dadds_then _ ([IE (EName f)] ++ [IA args])); [|reflexivity]. apply dadds_app; [apply dadds_id|].
    eapply dadds_region; [|reflexivity|reflexivity|reflexivity]. rewrite Forall_forall in H.
    apply dadds_concat. exact H.
  - eapply dadds_then; [exact IHe|reflexivity].
  - destruct b; cbn [br_ev].
    + replace (evs e ++ [EText o; EAct 6] ++ val_ev lo ++ val_ev hi ++ [EAct 32] ++ [EAct 7])
        with ((evs e ++ [EText o; EAct 6] ++ val_ev lo ++ val_ev hi ++ [EAct 32]) ++ [EAct 7]) by (rewrite <- !app_assoc; reflexivity).
      eapply (dadds_then _ ([IE e] ++ [IO o] ++ [IE (EVal lo)] ++ [IE (EVal hi)] ++ [IB])); [|reflexivity].
      repeat apply dadds_app; auto using dadds_val; [now apply dadds_op|]. intros text st m. eexists. reflexivity.
    + replace (evs e ++ [EText o; EAct 6] ++ val_ev lo ++ val_ev hi ++ [] ++ [EAct 7])
        with ((evs e ++ [EText o; EAct 6] ++ val_ev lo ++ val_ev hi) ++ [EAct 7]) by (rewrite <- !app_assoc; reflexivity).
      eapply (dadds_then _ ([IE e] ++ [IO o] ++ [IE (EVal lo)] ++ [IE (EVal hi)])); [|reflexivity].
      repeat apply dadds_app; auto using dadds_val. now apply dadds_op.
  - replace (evs e ++ [EText o; EAct 20; EAct 5]) with ((evs e ++ [EText o; EAct 20]) ++ [EAct 5]) by (rewrite <- !app_assoc; reflexivity).
    eapply (dadds_then _ ([IE e] ++ [IO o])); [|reflexivity]. apply dadds_app; [assumption|now apply dadds_op].
  - replace (evs e ++ [EText o; EAct 3] ++ arr_ev p ls ++ [EAct 4]) with ((evs e ++ [EText o; EAct 3] ++ arr_ev p ls) ++ [EAct 4])
      by (rewrite <- !app_assoc; reflexivity).
    eapply (dadds_then _ ([IE e] ++ [IO o] ++ [IE (EVal (VArr p ls))])); [|reflexivity].
    repeat apply dadds_app; auto using dadds_arr. now apply dadds_op.
  - rewrite (app_assoc (evs e1)), app_assoc. rewrite <- (app_assoc (evs e1)).
    eapply (dadds_then _ ([IE e1] ++ [IO o] ++ [IE e2])); [|reflexivity].
    repeat apply dadds_app; auto. apply dadds_op, dact_cmp.
  - eapply dadds_then; [exact IHe|reflexivity].
  - rewrite (app_assoc (evs e1)), app_assoc. rewrite <- (app_assoc (evs e1)).
    eapply (dadds_then _ ([IE e1] ++ [IO o] ++ [IE e2])); [|reflexivity].
    repeat apply dadds_app; auto. apply dadds_op, dact_logic.
Qed.
Lemma evs_inj : forall e1 e2, evs e1 = evs e2 -> e1 = e2.
Proof.
  intros e1 e2 H. destruct (dadds_evs e1 [] [] []) as (t1 & H1). destruct (dadds_evs e2 [] [] []) as (t2 & H2).
  rewrite H in H1. rewrite H1 in H2. cbn in H2. now injection H2.
Qed.
Theorem reads_unique : forall q e1 e2, reads q e1 -> reads q e2 -> e1 = e2.
Proof.
  intros q e1 e2 H1 H2. apply grammar_complete in H1. apply grammar_complete in H2. rewrite H1 in H2. injection H2 as H. now apply evs_inj.
Qed.
