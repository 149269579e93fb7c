(** Proofs about the visitor (C24, C25). *)
From Verif Require Import Base Node Visitor.

Section VP.
  Variables St Er : Type.
  Variable bad : ntype -> Er.
  Notation visitor := (visitor St Er).
  Notation vfunc := (vfunc St Er).

  (** the hook that the field names of Visitor announce for a node type *)
  Definition documented (v : visitor) (t : ntype) : option (option vfunc) :=
    match t with
    | NValue => Some (vValue _ _ v)
    | NOperation => Some (vOperation _ _ v)
    | NIdentifier => Some (vIdentifier _ _ v)
    | NParentheses => Some (vParentheses _ _ v)
    | NCompare => Some (vBinary _ _ v)
    | NLogic => Some (vLogic _ _ v)
    | NPredicates => Some (vPredicates _ _ v)
    | NNot => Some (vNot _ _ v)
    | NBetween => Some (vBetween _ _ v)
    | NFunction => Some (vFunction _ _ v)
    | NReference | NOther => None
    end.

  Lemma dispatch : forall v n s h, nType n <> NFunction -> documented v (nType n) = Some h ->
    visit bad v (Some n) s = match h with Some f => f (Some n) s | None => Panic end.
  Proof. intros v n s h Hf H. unfold visit. destruct (nType n); cbn in H; try congruence; injection H as <-; reflexivity. Qed.
  Lemma dispatch_function : forall (v : visitor) n s, nType n = NFunction ->
    visit bad v (Some n) s = match vBetween _ _ v with Some f => f (Some n) s | None => Panic end.
  Proof. intros v n s H. unfold visit. rewrite H. reflexivity. Qed.
  Lemma dispatch_other : forall v n s, documented v (nType n) = None -> visit bad v (Some n) s = Err (bad (nType n)).
  Proof. intros v n s H. unfold visit. destruct (nType n); try discriminate; reflexivity. Qed.
  (** two visitors that differ only in FunctionExpression and TerminateExpression *)
  Definition same_but_unused (v w : visitor) : Prop :=
    vBinary _ _ v = vBinary _ _ w /\ vLogic _ _ v = vLogic _ _ w /\ vBetween _ _ v = vBetween _ _ w /\
    vPredicates _ _ v = vPredicates _ _ w /\ vParentheses _ _ v = vParentheses _ _ w /\ vNot _ _ v = vNot _ _ w /\
    vIdentifier _ _ v = vIdentifier _ _ w /\ vOperation _ _ v = vOperation _ _ w /\ vValue _ _ v = vValue _ _ w.
  Lemma unused_hooks : forall v w n s, same_but_unused v w -> visit bad v n s = visit bad w n s.
  Proof.
    intros v w [n|] s (H1 & H2 & H3 & H4 & H5 & H6 & H7 & H8 & H9); [|reflexivity]. unfold visit.
    rewrite H1, H2, H3, H4, H5, H6, H7, H8, H9. reflexivity.
  Qed.

  Lemma init_same : forall v : visitor, init bad v = v.
  Proof. reflexivity. Qed.
  (** the hook that Visit uses is nil *)
  Definition used (v : visitor) (t : ntype) : option (option vfunc) :=
    match t with NFunction => Some (vBetween _ _ v) | _ => documented v t end.
  Lemma init_useless : forall v n s, used v (nType n) = Some None -> visit bad (init bad v) (Some n) s = Panic.
  Proof. intros v n s H. unfold visit. cbn [init value_receiver fst]. destruct (nType n); cbn in H; try discriminate; injection H as ->; reflexivity. Qed.

  (** ** Init's own copy *)
  Lemma bind_ext : forall r k k', (forall s, k s = k' s) -> bind St Er r k = bind St Er r k'.
  Proof. intros [s| |] k k' H; cbn; auto. Qed.
  Lemma local_all : forall v l s, local_visit_all St Er bad v l s =
    (fix all (l : list (option node)) (s : St) : outcome Er St :=
        match l with [] => Ok s | p :: l' => bind St Er (match p with None => Panic | Some m => local_visit St Er bad v m s end) (all l') end) l s.
  Proof.
    induction l as [|p l IH]; intro s; [reflexivity|]. cbn [local_visit_all]. unfold local_visit_p.
    destruct p as [m|]; [|reflexivity]. destruct (local_visit St Er bad v m s); cbn [bind]; auto.
  Qed.
  Lemma init_body_visit : forall v n s, visit bad (init_body St Er bad v) (Some n) s = local_visit St Er bad v n s.
  Proof.
    intros v n s. destruct n as [ty vt i b st fl arr op na nas ex le o ri ps].
    unfold visit, init_body. cbn [nType vValue vOperation vIdentifier vParentheses vBinary vLogic vPredicates vNot vBetween].
    destruct ty; cbn [local_visit nType]; try reflexivity.
    - destruct (vValue St Er v); [reflexivity|]. cbn. unfold d_value. cbn. destruct vt; try reflexivity. apply local_all.
    - destruct (vOperation St Er v); reflexivity.
    - destruct (vIdentifier St Er v); reflexivity.
    - destruct (vPredicates St Er v); reflexivity.
    - destruct (vBinary St Er v); reflexivity.
    - destruct (vLogic St Er v); reflexivity.
    - destruct (vParentheses St Er v); reflexivity.
    - destruct (vNot St Er v); reflexivity.
    - destruct (vBetween St Er v); [reflexivity|]. cbn [or_else call d_between deref nLeft nOp nParams].
      unfold local_visit_p. apply bind_ext. intro. apply local_all.
    - destruct (vBetween St Er v); [reflexivity|]. cbn [or_else call d_between deref nLeft nOp nParams].
      unfold local_visit_p. apply bind_ext. intro. apply local_all.
  Qed.

  (** identifiers and operations of a tree without functions and references, left to right *)
  Inductive walk : option node -> list node -> Prop :=
  | walk_leaf : forall n, nType n = NIdentifier \/ nType n = NOperation -> walk (Some n) [n]
  | walk_value : forall n, nType n = NValue -> nVType n <> VArray -> walk (Some n) []
  | walk_array : forall n ls, nType n = NValue -> nVType n = VArray -> walks (nArray n) ls -> walk (Some n) ls
  | walk_inner : forall n ls, nType n = NParentheses \/ nType n = NNot -> walk (nExpression n) ls -> walk (Some n) ls
  | walk_pred : forall n l1 l2, nType n = NPredicates -> walk (nLeft n) l1 -> walk (nOp n) l2 -> walk (Some n) (l1 ++ l2)
  | walk_bin : forall n l1 l2 l3, nType n = NCompare \/ nType n = NLogic -> walk (nLeft n) l1 -> walk (nOp n) l2 -> walk (nRight n) l3 ->
      walk (Some n) (l1 ++ l2 ++ l3)
  | walk_between : forall n l1 l2 l3, nType n = NBetween -> walk (nLeft n) l1 -> walk (nOp n) l2 -> walks (nParams n) l3 ->
      walk (Some n) (l1 ++ l2 ++ l3)
  with walks : list (option node) -> list node -> Prop :=
  | walks_nil : walks [] []
  | walks_cons : forall p ps l1 l2, walk p l1 -> walks ps l2 -> walks (p :: ps) (l1 ++ l2).
  Scheme walk_mind := Induction for walk Sort Prop
    with walks_mind := Induction for walks Sort Prop.
  Combined Scheme walk_walks_ind from walk_mind, walks_mind.

  (** hooks on the leaves, in order, until one fails *)
  Fixpoint run_leaves (fi fo : vfunc) (l : list node) (s : St) : outcome Er St :=
    match l with
    | [] => Ok s
    | n :: l' =>
        match (match nType n with NIdentifier => fi | _ => fo end) (Some n) s with
        | Ok s' => run_leaves fi fo l' s'
        | r => r
        end
    end.
  Lemma run_app : forall fi fo a b s, run_leaves fi fo (a ++ b) s = bind St Er (run_leaves fi fo a s) (run_leaves fi fo b).
  Proof.
    induction a as [|n a IH]; intros b s; [reflexivity|]. cbn [app run_leaves].
    destruct ((match nType n with NIdentifier => fi | _ => fo end) (Some n) s); cbn [bind]; auto.
  Qed.
  Lemma bind_assoc : forall r k k', bind St Er (bind St Er r k) k' = bind St Er r (fun s => bind St Er (k s) k').
  Proof. intros [s| |] k k'; reflexivity. Qed.
  Definition leaf_visitor (fi fo : vfunc) : visitor :=
    Visitor St Er None None None None None None None None (Some fi) (Some fo) None.
  Lemma local_default : forall fi fo,
    (forall p l, walk p l -> forall s, local_visit_p St Er bad (leaf_visitor fi fo) p s = run_leaves fi fo l s) /\
    (forall ps l, walks ps l -> forall s, local_visit_all St Er bad (leaf_visitor fi fo) ps s = run_leaves fi fo l s).
  Proof.
    intros fi fo. apply walk_walks_ind.
    - intros n Hn s. unfold local_visit_p. rewrite <- init_body_visit. unfold visit. cbn [run_leaves].
      destruct Hn as [-> | ->]; cbn; destruct (_ (Some n) s); reflexivity.
    - intros n Hn Hv s. unfold local_visit_p. rewrite <- init_body_visit. unfold visit. rewrite Hn. cbn. unfold d_value, deref.
      destruct (nVType n); congruence || reflexivity.
    - intros n ls Hn Hv Hw IH s. unfold local_visit_p. rewrite <- init_body_visit. unfold visit. rewrite Hn. cbn. unfold d_value, deref.
      rewrite Hv. apply IH.
    - intros n ls Hn Hw IH s. unfold local_visit_p. rewrite <- init_body_visit. unfold visit. destruct Hn as [-> | ->]; apply IH.
    - intros n l1 l2 Hn H1 IH1 H2 IH2 s. unfold local_visit_p. rewrite <- init_body_visit. unfold visit. rewrite Hn. cbn. unfold d_predicates, deref.
      rewrite IH1, run_app. apply bind_ext. exact IH2.
    - intros n l1 l2 l3 Hn H1 IH1 H2 IH2 H3 IH3 s. unfold local_visit_p. rewrite <- init_body_visit. unfold visit.
      destruct Hn as [-> | ->]; cbn; unfold d_binary, deref; rewrite IH1, run_app, bind_assoc; apply bind_ext; intro; rewrite IH2, run_app; apply bind_ext; exact IH3.
    - intros n l1 l2 l3 Hn H1 IH1 H2 IH2 H3 IH3 s. unfold local_visit_p. rewrite <- init_body_visit. unfold visit. rewrite Hn. cbn. unfold d_between, deref.
      rewrite IH1, run_app, bind_assoc. apply bind_ext. intro. rewrite IH2, run_app. apply bind_ext. exact IH3.
    - reflexivity.
    - intros p ps l1 l2 H1 IH1 H2 IH2 s. cbn [local_visit_all]. rewrite IH1, run_app. apply bind_ext. exact IH2.
  Qed.
  Lemma local_function : forall (v : visitor) n s, nType n = NFunction -> vBetween _ _ v = None -> nLeft n = None ->
    visit bad (init_body St Er bad v) (Some n) s = Panic.
  Proof. intros v n s H Hv Hl. unfold visit. rewrite H. cbn. rewrite Hv. cbn. unfold d_between, deref. rewrite Hl. reflexivity. Qed.
End VP.
