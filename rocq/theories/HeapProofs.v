(** Heap.v refines Tree.v. *)
From Verif Require Import Base Peg Grammar Node Tree Parse Heap HeapSpec.
Strategy expand [parse_machine].
Strategy 1000 [parse_fuel mrun].

(** [holds], and no slice of a node (of length > 0) shares array [k]. *)
Inductive den (m : memory) (k : nat) : ptr -> option node -> Prop :=
| den_nil : den m k None None
| den_node : forall a h n, nth_error (mNodes m) a = Some h ->
    hType h = nType n -> hVType h = nVType n -> hInt h = nInt n -> hBool h = nBool n -> hStr h = nStr n -> hFloat h = nFloat n ->
    hOperation h = nOperation n -> hName h = nName n -> hNames h = nNames n ->
    den m k (hExpression h) (nExpression n) -> den m k (hLeft h) (nLeft n) -> den m k (hOp h) (nOp n) -> den m k (hRight h) (nRight n) ->
    dens m k (hArray h) (nArray n) -> dens m k (hParams h) (nParams n) ->
    den m k (Some a) (Some n)
with dens (m : memory) (k : nat) : slice -> list (option node) -> Prop :=
| dens_intro : forall s a l, nth_error (mArrs m) (sArr s) = Some a -> sLen s <= length a -> (sLen s = 0 \/ sArr s <> k) ->
    denl m k (firstn (sLen s) a) l -> dens m k s l
with denl (m : memory) (k : nat) : list ptr -> list (option node) -> Prop :=
| denl_nil : denl m k [] []
| denl_cons : forall p ps n ns, den m k p n -> denl m k ps ns -> denl m k (p :: ps) (n :: ns).

Scheme den_i := Induction for den Sort Prop
  with dens_i := Induction for dens Sort Prop
  with denl_i := Induction for denl Sort Prop.
Combined Scheme den_mind from den_i, dens_i, denl_i.

Lemma den_holds : forall m k,
  (forall p n, den m k p n -> holds m p n) /\ (forall s l, dens m k s l -> holds_slice m s l) /\ (forall ps ns, denl m k ps ns -> holds_list m ps ns).
Proof.
  intros m k. apply (den_mind m k (fun p n _ => holds m p n) (fun s l _ => holds_slice m s l) (fun ps ns _ => holds_list m ps ns)).
  - apply holds_nil.
  - intros. eapply holds_node; eassumption.
  - intros. eapply holds_intro; eassumption.
  - apply holds_none.
  - intros. now apply holds_more.
Qed.

(** ** Memory that grows, and is written at [k] only *)
Definition later (m : memory) (k : nat) (m' : memory) (k' : nat) : Prop :=
  (forall a h, nth_error (mNodes m) a = Some h -> nth_error (mNodes m') a = Some h) /\
  (forall j a, nth_error (mArrs m) j = Some a -> j <> k -> nth_error (mArrs m') j = Some a /\ j <> k') /\
  (forall j a, nth_error (mArrs m) j = Some a -> exists a', nth_error (mArrs m') j = Some a').

Lemma den_later : forall m k m' k', later m k m' k' ->
  (forall p n, den m k p n -> den m' k' p n) /\ (forall s l, dens m k s l -> dens m' k' s l) /\ (forall ps ns, denl m k ps ns -> denl m' k' ps ns).
Proof.
  intros m k m' k' (L1 & L2 & L3).
  apply (den_mind m k (fun p n _ => den m' k' p n) (fun s l _ => dens m' k' s l) (fun ps ns _ => denl m' k' ps ns)).
  - apply den_nil.
  - intros. eapply den_node; try eassumption. now apply L1.
  - intros s a l E Hl D H IH. destruct (Nat.eq_dec (sLen s) 0) as [Z|Z].
    + destruct (L3 _ _ E) as (a' & E'). apply (dens_intro m' k' s a'); [exact E'|lia|now left|]. rewrite Z in IH |- *. exact IH.
    + destruct D as [D|D]; [contradiction|]. destruct (L2 _ _ E D) as (E' & D'). apply (dens_intro m' k' s a); [exact E'|exact Hl|now right|exact IH].
  - apply denl_nil.
  - intros. now apply denl_cons.
Qed.
Lemma later_refl : forall m k, later m k m k.
Proof. intros m k. repeat split; eauto. Qed.
Lemma later_trans : forall m k m' k' m'' k'', later m k m' k' -> later m' k' m'' k'' -> later m k m'' k''.
Proof.
  intros m k m' k' m'' k'' (A1 & A2 & A3) (B1 & B2 & B3). split; [|split].
  - eauto.
  - intros j a E D. destruct (A2 j a E D). now apply B2.
  - intros j a E. destruct (A3 j a E) as (a' & E'). eauto.
Qed.
Lemma nth_app_l : forall A (l r : list A) i x, nth_error l i = Some x -> nth_error (l ++ r) i = Some x.
Proof. intros A l r i x H. rewrite nth_error_app1; [exact H|]. apply nth_error_Some. congruence. Qed.
Lemma nth_app_new : forall A (l : list A) x, nth_error (l ++ [x]) (length l) = Some x.
Proof. intros. rewrite nth_error_app2 by lia. now rewrite Nat.sub_diag. Qed.
Lemma later_node : forall a ns n k, later (Mem a ns) k (Mem a (ns ++ [n])) k.
Proof. intros. split; [|split]; cbn; eauto. intros. now apply nth_app_l. Qed.
Lemma later_arr : forall a ns l k, later (Mem a ns) k (Mem (a ++ [l]) ns) k.
Proof. intros. split; [|split]; cbn; eauto; intros; [split; [now apply nth_app_l|assumption]|eexists; apply nth_app_l; eassumption]. Qed.
Lemma later_move : forall a ns l k, later (Mem a ns) k (Mem (a ++ [l]) ns) (length a).
Proof.
  intros. split; [|split]; cbn; eauto; intros.
  - split; [now apply nth_app_l|]. assert (j < length a) by (apply nth_error_Some; congruence). lia.
  - eexists; apply nth_app_l; eassumption.
Qed.
Lemma store_len : forall A (l : list A) i x, length (store l i x) = length l.
Proof. induction l as [|y l IH]; intros [|i] x; cbn; auto. Qed.
Lemma store_same : forall A (l : list A) i x, i < length l -> nth_error (store l i x) i = Some x.
Proof. induction l as [|y l IH]; intros [|i] x H; cbn in *; try lia; auto. apply IH. lia. Qed.
Lemma store_other : forall A (l : list A) i j x, j <> i -> nth_error (store l i x) j = nth_error l j.
Proof. induction l as [|y l IH]; intros [|i] [|j] x H; cbn; auto; try congruence. Qed.
Lemma store_firstn : forall A (l : list A) i x, i < length l -> firstn (S i) (store l i x) = firstn i l ++ [x].
Proof. induction l as [|y l IH]; intros [|i] x H; cbn [length] in *; try lia; [reflexivity|]. cbn [store]. rewrite !firstn_cons. cbn [app]. f_equal. apply IH. lia. Qed.
Lemma later_write : forall a ns k l, later (Mem a ns) k (Mem (store a k l) ns) k.
Proof.
  intros. split; [|split]; cbn; auto; intros j b E.
  - intro D. split; [now rewrite store_other|exact D].
  - destruct (Nat.eq_dec j k) as [->|D]; [exists l; apply store_same; apply nth_error_Some; congruence|exists b; now rewrite store_other].
Qed.

Lemma denl_length : forall m k ps ns, denl m k ps ns -> length ps = length ns.
Proof. induction 1; cbn; auto. Qed.
Lemma denl_app : forall m k ps ns ps' ns', denl m k ps ns -> denl m k ps' ns' -> denl m k (ps ++ ps') (ns ++ ns').
Proof. intros m k ps ns ps' ns' H H'. induction H; cbn; [exact H'|now constructor]. Qed.
Lemma denl_firstn : forall m k ps ns i, denl m k ps ns -> denl m k (firstn i ps) (firstn i ns).
Proof. intros m k ps ns i H. revert i. induction H; intros [|i]; cbn; constructor; auto. Qed.
Lemma denl_skipn : forall m k ps ns i, denl m k ps ns -> denl m k (skipn i ps) (skipn i ns).
Proof. intros m k ps ns i H. revert i. induction H; intros [|i]; cbn; try constructor; auto. Qed.
Lemma denl_nth : forall m k ps ns i p, denl m k ps ns -> nth_error ps i = Some p -> exists n, nth_error ns i = Some n /\ den m k p n.
Proof. intros m k ps ns i p H. revert i. induction H; intros [|i] E; cbn in *; try discriminate; [injection E as ->; eauto|auto]. Qed.

(** ** The relation between the two trees *)
Definition rel (h : htree) (t : tree) : Prop :=
  (exists a, nth_error (mArrs (hMem h)) (sArr (hStack h)) = Some a /\ sLen (hStack h) <= length a /\
     denl (hMem h) (sArr (hStack h)) (firstn (sLen (hStack h)) a) (tStack t)) /\
  hErrors h = tErrors t /\ hMarks h = tMarks t.
Definition ext (h h' : htree) : Prop := later (hMem h) (sArr (hStack h)) (hMem h') (sArr (hStack h')).
Definition dn (h : htree) : ptr -> option node -> Prop := den (hMem h) (sArr (hStack h)).
Definition ds (h : htree) : slice -> list (option node) -> Prop := dens (hMem h) (sArr (hStack h)).

Lemma ext_dn : forall h h' p n, ext h h' -> dn h p n -> dn h' p n.
Proof. intros h h' p n X. apply (den_later _ _ _ _ X). Qed.
Lemma ext_ds : forall h h' s l, ext h h' -> ds h s l -> ds h' s l.
Proof. intros h h' p n X. apply (den_later _ _ _ _ X). Qed.

Lemma rel_len : forall h t, rel h t -> sLen (hStack h) = length (tStack t).
Proof. intros h t ((a & _ & L & D) & _). apply denl_length in D. rewrite firstn_length in D. lia. Qed.
Lemma rel0 : rel htree0 tree0.
Proof. split; [|split; reflexivity]. exists []. cbn. repeat split; [lia|constructor]. Qed.


Ltac pj := cbn [hMem hStack hErrors hMarks mArrs mNodes sArr sLen tStack tErrors tMarks push add_error hadd_error] in *.

Section Refine.
  Variable grow : nat -> nat.

  Lemma push_rel : forall h t p n, rel h t -> dn h p n -> exists h', hpush grow p h = Some h' /\ rel h' (push n t) /\ ext h h'.
  Proof.
    intros [[arrs nodes] [k len] er mk] t p n ((a & E & L & D) & He & Hm) Hp. unfold dn in Hp. pj. unfold hpush. pj. rewrite E.
    destruct (Nat.ltb_spec len (length a)) as [G|G].
    - eexists. split; [reflexivity|].
      assert (X : later (Mem arrs nodes) k (Mem (store arrs k (store a len p)) nodes) k) by apply later_write. split; [|exact X].
      split; [|split; [exact He|exact Hm]]. pj. exists (store a len p). split; [|split].
      + apply store_same. apply nth_error_Some. congruence.
      + rewrite store_len. lia.
      + rewrite store_firstn by lia. apply denl_app; [now apply (den_later _ _ _ _ X)|]. constructor; [now apply (den_later _ _ _ _ X)|constructor].
    - eexists. split; [reflexivity|]. set (a' := firstn len a ++ [p] ++ repeat None (grow len)).
      assert (X : later (Mem arrs nodes) k (Mem (arrs ++ [a']) nodes) (length arrs)) by apply later_move. split; [|exact X].
      split; [|split; [exact He|exact Hm]]. pj. exists a'. split; [apply nth_app_new|].
      assert (La : length (firstn len a) = len) by (rewrite firstn_length; lia). split.
      + unfold a'. rewrite app_length, La. cbn [length app]. lia.
      + replace (firstn (S len) a') with (firstn len a ++ [p]).
        * apply denl_app; [now apply (den_later _ _ _ _ X)|]. constructor; [now apply (den_later _ _ _ _ X)|constructor].
        * unfold a'. rewrite firstn_app, La. replace (S len - len) with 1 by lia. rewrite (firstn_all2 (firstn len a)) by lia. reflexivity.
  Qed.

  Lemma pop_rel : forall h t, rel h t -> exists p h', hpop h = Some (p, h') /\ dn h' p (fst (pop t)) /\ rel h' (snd (pop t)) /\ ext h h'.
  Proof.
    intros [[arrs nodes] [k len] er mk] t R. pose proof (rel_len _ _ R) as HL. destruct R as ((a & E & L & D) & He & Hm). pj. unfold hpop. pj.
    destruct len as [|len].
    - destruct t as [st te tm]. pj. destruct st; [|discriminate HL]. cbn [pop tStack fst snd]. do 2 eexists. split; [reflexivity|]. split; [apply den_nil|]. split; [|apply later_refl].
      split; [|split; assumption]. exists a. pj. split; [exact E|]. split; [exact L|exact D].
    - rewrite E. destruct (nth_error a len) as [p|] eqn:Ep; [|apply nth_error_None in Ep; lia].
      do 2 eexists. split; [reflexivity|].
      assert (Hf : firstn (S len) a = firstn len a ++ [p]).
      { clear - Ep. revert len Ep. induction a as [|x a IH]; intros [|len] Ep; cbn [nth_error] in Ep; try discriminate; [now injection Ep as ->|]. rewrite firstn_cons. rewrite (IH len Ep). reflexivity. }
      destruct t as [st te tm]. pj. destruct (rev st) as [|n st'] eqn:Er.
      { apply (f_equal (@length _)) in Er. rewrite rev_length in Er. cbn [length] in Er. lia. }
      apply (f_equal (@rev _)) in Er. rewrite rev_involutive in Er. cbn [rev] in Er. subst st. set (st := rev st') in *. clearbody st. clear st'.
      rewrite app_length in HL. cbn [length] in HL. assert (HL' : len = length st) by lia.
      assert (Pp : pop (Tree (st ++ [n]) te tm) = (n, Tree st te tm)).
      { unfold pop. pj. rewrite last_last, removelast_last. destruct st; reflexivity. }
      rewrite Pp. cbn [fst snd]. destruct (denl_nth _ _ _ _ len p D) as (n' & En & Dn).
      { rewrite Hf, nth_error_app2 by (rewrite firstn_length; lia). rewrite firstn_length. replace (len - Nat.min len (length a)) with 0 by lia. reflexivity. }
      rewrite HL', nth_app_new in En. injection En as <-. split; [exact Dn|]. split; [|apply later_refl].
      split; [|split; assumption]. exists a. pj. split; [exact E|]. split; [lia|].
      apply (denl_firstn _ _ _ _ len) in D. rewrite firstn_firstn in D. replace (Nat.min len (S len)) with len in D by lia.
      rewrite (firstn_app len st), HL', Nat.sub_diag, firstn_all, app_nil_r in D. now rewrite HL'.
  Qed.

  Lemma new_slice_rel : forall h t ps ns, rel h t -> denl (hMem h) (sArr (hStack h)) ps ns ->
    let (s, h') := new_slice ps h in ds h' s ns /\ rel h' t /\ ext h h' /\ hStack h' = hStack h.
  Proof.
    intros [[arrs nodes] [k len] er mk] t ps ns ((a & E & L & D) & He & Hm) H. pj. unfold new_slice. pj.
    assert (X : later (Mem arrs nodes) k (Mem (arrs ++ [ps]) nodes) k) by apply later_arr.
    assert (K : k < length arrs) by (apply nth_error_Some; congruence).
    split; [|split; [|split; [exact X|reflexivity]]].
    - apply (dens_intro _ _ _ ps); pj; [apply nth_app_new|lia|right; lia|]. rewrite firstn_all. now apply (den_later _ _ _ _ X).
    - split; [|split; assumption]. exists a. pj. split; [now apply nth_app_l|]. split; [exact L|]. now apply (den_later _ _ _ _ X).
  Qed.

  (** results of an operation in both models *)
  Definition sim (h : htree) (o : option tree) (o' : option htree) : Prop :=
    match o, o' with
    | Some t', Some h' => rel h' t' /\ ext h h'
    | None, None => True
    | _, _ => False
    end.
  Lemma sim_ext : forall h h1 o o', ext h h1 -> sim h1 o o' -> sim h o o'.
  Proof. intros h h1 [t|] [h'|] X H; cbn in *; auto. destruct H. split; [assumption|]. eapply later_trans; eassumption. Qed.

  Lemma pop_marked_rel : forall h t, rel h t ->
    match pop_marked t, hpop_marked h with
    | Some (l, t'), Some (s, h') => ds h' s l /\ rel h' t' /\ ext h h'
    | None, None => True
    | _, _ => False
    end.
  Proof.
    intros h t R. pose proof (rel_len _ _ R) as HL. unfold pop_marked, hpop_marked, pop_mark, hpop_mark.
    destruct R as ((a & E & L & D) & He & Hm). rewrite Hm. destruct (tMarks t) as [|m0 ms] eqn:Em; [exact I|].
    set (mark := last (m0 :: ms) 0). set (ms' := removelast (m0 :: ms)). clearbody mark ms'. pj. rewrite E, <- HL.
    destruct (Nat.leb_spec mark (sLen (hStack h))) as [G|G]; [|exact I].
    set (h1 := HTree (hMem h) (hStack h) (hErrors h) ms').
    assert (R1 : rel h1 (Tree (tStack t) (tErrors t) ms')) by (split; [exists a; split; [exact E|split; [exact L|exact D]]|split; [exact He|reflexivity]]).
    pose proof (new_slice_rel h1 _ (skipn mark (firstn (sLen (hStack h)) a)) (skipn mark (tStack t)) R1 (denl_skipn _ _ _ _ mark D)) as N.
    destruct (new_slice (skipn mark (firstn (sLen (hStack h)) a)) h1) as [s h2]. destruct N as (N1 & N2 & N3 & N4).
    unfold ds, ext in *. rewrite N4 in *. subst h1. pj. split; [exact N1|]. split; [|exact N3].
    destruct N2 as ((a2 & E2 & L2 & D2) & He2 & Hm2). rewrite N4 in E2, L2, D2. pj. split; [|split; assumption]. exists a2. pj. split; [exact E2|]. split; [lia|].
    apply (denl_firstn _ _ _ _ mark) in D2. rewrite firstn_firstn in D2. replace (Nat.min mark (sLen (hStack h))) with mark in D2 by lia. exact D2.
  Qed.

  Definition nden (h : htree) (x : hnode) (n : node) : Prop :=
    hType x = nType n /\ hVType x = nVType n /\ hInt x = nInt n /\ hBool x = nBool n /\ hStr x = nStr n /\ hFloat x = nFloat n /\
    hOperation x = nOperation n /\ hName x = nName n /\ hNames x = nNames n /\
    dn h (hExpression x) (nExpression n) /\ dn h (hLeft x) (nLeft n) /\ dn h (hOp x) (nOp n) /\ dn h (hRight x) (nRight n) /\
    ds h (hArray x) (nArray n) /\ ds h (hParams x) (nParams n).
  Lemma push_new_rel : forall h t x n, rel h t -> nden h x n -> sim h (Some (push (Some n) t)) (push_new grow x h).
  Proof.
    intros h t x n R (H1 & H2 & H3 & H4 & H5 & H6 & H7 & H8 & H9 & D1 & D2 & D3 & D4 & D5 & D6).
    unfold push_new, new_node. set (h1 := HTree _ _ _ _).
    assert (X : ext h h1) by (destruct h as [[arrs nodes] [k len] er mk]; apply later_node).
    assert (R1 : rel h1 t).
    { destruct R as ((a & E & L & D) & He & Hm). split; [|split; assumption]. exists a. split; [exact E|]. split; [exact L|]. now apply (den_later _ _ _ _ X). }
    assert (Dn : dn h1 (Some (length (mNodes (hMem h)))) (Some n)).
    { apply (den_node _ _ _ x); try assumption; try (now apply (den_later _ _ _ _ X)). unfold h1. pj. apply nth_app_new. }
    destruct (push_rel h1 t _ _ R1 Dn) as (h' & -> & R' & X'). split; [exact R'|]. eapply later_trans; eassumption.
  Qed.
  Lemma nil_slice_ds : forall h t, rel h t -> ds h nil_slice [].
  Proof.
    intros h t ((a & E & _) & _). unfold nil_slice, ds. destruct (mArrs (hMem h)) as [|a0 rest] eqn:Ea; [destruct (sArr (hStack h)); discriminate E|].
    apply (dens_intro _ _ _ a0); cbn; [now rewrite Ea|lia|now left|constructor].
  Qed.
  Lemma nil_dn : forall h, dn h None None. Proof. intro. apply den_nil. Qed.

  Lemma error_rel : forall h t e, rel h t -> rel (hadd_error e h) (add_error e t).
  Proof. intros h t [e|] R; [|exact R]. destruct R as (R & He & Hm). split; [exact R|]. pj. split; [now rewrite He|exact Hm]. Qed.
  Lemma error_ext : forall h e, ext h (hadd_error e h).
  Proof. intros h [e|]; apply later_refl. Qed.

  Ltac pops R :=
    match goal with |- context [hpop ?h] =>
      let p := fresh "p" in let h' := fresh "h" in let E := fresh "E" in let D := fresh "D" in let R' := fresh "R" in let X := fresh "X" in
      destruct (pop_rel h _ R) as (p & h' & E & D & R' & X); rewrite E; clear E;
      let n := fresh "n" in let t' := fresh "t" in destruct (pop _) as [n t']; cbn [fst snd] in *;
      repeat match goal with H : dn h _ _ |- _ => apply (ext_dn _ _ _ _ X) in H end;
      apply (sim_ext _ _ _ _ X); clear R X
    end.
  Ltac fields := unfold nden; cbn; repeat split; auto using nil_dn; try (eapply nil_slice_ds; eassumption).

  Lemma names_rel : forall h ps ns, denl (hMem h) (sArr (hStack h)) ps ns -> hnode_names ps h = node_names ns.
  Proof.
    intros h ps ns H. induction H as [|p ps n ns Hp H IH]; [reflexivity|]. cbn [hnode_names node_names]. rewrite IH.
    inversion Hp as [|a x n' E]; subst; [reflexivity|]. cbn [deref]. rewrite E. destruct (node_names ns); [|reflexivity]. congruence.
  Qed.

  Variable lo : N -> N.
  Lemma action_rel : forall i text h t, rel h t -> sim h (run_action lo i text t) (hrun_action grow lo i text h).
  Proof.
    assert (Hsame : forall h t, rel h t -> sim h (Some t) (Some h)) by (intros; split; [assumption|apply later_refl]).
    assert (Htwo : forall ty h t, rel h t -> sim h (let (r, t1) := pop t in let (op, t2) := pop t1 in let (l, t3) := pop t2 in
        Some (push (Some (Node ty VNone 0 false [] 0 [] [] [] [] None l op r [])) t3)) (hpop_two grow ty h)).
    { intros ty h t R. unfold hpop_two. pops R. pops R0. pops R. apply push_new_rel; [assumption|fields]. }
    assert (Hone : forall ty h t, rel h t -> sim h (let (e, t1) := pop t in Some (push (Some (Node ty VNone 0 false [] 0 [] [] [] [] e None None None [])) t1)) (hpop_one grow ty h)).
    { intros ty h t R. unfold hpop_one. pops R. apply push_new_rel; [assumption|fields]. }
    assert (Hleaf : forall ty vt z b s o nm h t, rel h t -> sim h (Some (push (Some (Node ty vt z b s 0 [] o nm [] None None None None [])) t)) (push_new grow (leaf ty vt z b s o nm) h)).
    { intros. apply push_new_rel; [assumption|fields]. }
    assert (Hmark : forall h t, rel h t -> sim h (Some (add_mark t)) (Some (hadd_mark h))).
    { intros h t R. pose proof (rel_len _ _ R) as HL. split; [|apply later_refl]. destruct R as (R & He & Hm). split; [exact R|]. unfold hadd_mark, add_mark. pj. split; [exact He|]. now rewrite Hm, HL. }
    assert (Harr : forall h t, rel h t -> sim h (pop_array t) (hpop_array grow h)).
    { intros h t R. unfold pop_array, hpop_array. pose proof (pop_marked_rel h t R) as P. destruct (pop_marked t) as [[l t1]|], (hpop_marked h) as [[s h1]|]; try contradiction; [|exact I].
      destruct P as (P1 & P2 & P3). apply (sim_ext _ _ _ _ P3). apply push_new_rel; [assumption|fields]. }
    assert (Href : forall h t, rel h t -> sim h (pop_identifier_reference t) (hpop_identifier_reference grow h)).
    { intros h t R. unfold pop_identifier_reference, hpop_identifier_reference. pose proof (pop_marked_rel h t R) as P.
      destruct (pop_marked t) as [[l t1]|], (hpop_marked h) as [[s h1]|]; try contradiction; [|exact I].
      destruct P as (P1 & P2 & P3). inversion P1 as [s' a l' E L _ D]; subst. unfold elements. rewrite E, (names_rel _ _ _ D).
      destruct (node_names l); [|exact I]. apply (sim_ext _ _ _ _ P3). apply push_new_rel; [assumption|fields]. }
    assert (Hpred : forall h t, rel h t -> sim h (pop_predicate t) (hpop_predicate grow h)).
    { intros h t R. unfold pop_predicate, hpop_predicate. pops R. pops R0. apply push_new_rel; [assumption|fields]. }
    assert (Hbet : forall h t, rel h t -> sim h (pop_between t) (hpop_between grow h)).
    { intros h t R. unfold pop_between, hpop_between. pops R. pops R0. pops R. pops R0.
      assert (DL : denl (hMem h3) (sArr (hStack h3)) [p0; p] [n0; n]) by (repeat (constructor; try assumption)).
      pose proof (new_slice_rel h3 _ _ _ R DL) as N. destruct (new_slice [p0; p] h3) as [s h4]. destruct N as (N1 & N2 & N3 & _).
      apply (sim_ext _ _ _ _ N3). repeat match goal with H : dn h3 _ _ |- _ => apply (ext_dn _ _ _ _ N3) in H end.
      apply push_new_rel; [assumption|fields]. }
    assert (Hfun : forall h t, rel h t -> sim h (pop_function t) (hpop_function grow h)).
    { intros h t R. unfold pop_function, hpop_function. pops R. pops R0.
      assert (HE : sim h1 (Some (add_error (Some PEFunction) t1)) (Some (hadd_error (Some PEFunction) h1))) by (split; [now apply error_rel|apply later_refl]).
      inversion D as [|a x n' E]; subst; [exact HE|]. inversion D0 as [|a0 x0 n0' E0]; subst; [exact HE|].
      cbn [deref]. rewrite E, E0.
      repeat match goal with H : hType _ = nType _ |- _ => rewrite H | H : hVType _ = nVType _ |- _ => rewrite H end.
      destruct (nType n0'); try exact HE. destruct (nType n'); try exact HE. destruct (nVType n'); try exact HE.
      apply push_new_rel; [assumption|fields]. }
    assert (Hint : forall text h t, rel h t -> sim h (Some (add_integer text t)) (let (z, e) := atoi text in push_new grow (leaf NValue VInt z false [] [] []) (hadd_error e h))).
    { intros text h t R. unfold add_integer. destruct (atoi text) as [z e]. apply (sim_ext _ _ _ _ (error_ext h e)). apply Hleaf. now apply error_rel. }
    assert (Hbool : forall text h t, rel h t -> sim h (Some (add_boolean text t)) (let (b, e) := parse_bool text in push_new grow (leaf NValue VBool 0 b [] [] []) (hadd_error e h))).
    { intros text h t R. unfold add_boolean. destruct (parse_bool text) as [b e]. apply (sim_ext _ _ _ _ (error_ext h e)). apply Hleaf. now apply error_rel. }
    intros i text h t R.
    do 30 (destruct i as [|i]; [cbn [run_action hrun_action]; try solve [auto]; try solve [apply Htwo; assumption]; try solve [apply Hone; assumption];
      try solve [apply Hleaf; assumption]|]).
    cbn [run_action hrun_action]. auto.
  Qed.

  Lemma execute_rel : forall buf toks text h t, rel h t -> sim h (execute lo buf toks text t) (hexecute grow lo buf toks text h).
  Proof.
    intros buf. induction toks as [|tk toks IH]; intros text h t R; cbn [execute hexecute].
    - split; [exact R|apply later_refl].
    - destruct (trule tk) as [r| |n]; [now apply IH| |].
      + destruct (slice_rng _ _ _); [now apply IH|exact I].
      + pose proof (action_rel n text h t R) as S. destruct (run_action lo n text t), (hrun_action grow lo n text h); try contradiction; [|exact I].
        destruct S as [S1 S2]. apply (sim_ext _ _ _ _ S2). now apply IH.
  Qed.

  Lemma hparse_rel : forall q, match parse lo q, hparse grow lo q with
    | Ok n, Ok (p, h) => holds (hMem h) p n
    | Err e, Err e' => e = e'
    | Panic, Panic => True
    | _, _ => False
    end.
  Proof.
    intro q. unfold parse, hparse. destruct (parse_machine q) as [| |[|] s]; [exact I|exact I| |reflexivity].
    pose proof (execute_rel (init_buffer q) (trim (mtree s) (mtidx s)) [] htree0 tree0 rel0) as S.
    destruct (execute _ _ _ _ _) as [t|], (hexecute _ _ _ _ _ _) as [h|]; try contradiction; [|exact I]. destruct S as [R _].
    assert (Ee : hErrors h = tErrors t) by apply R. rewrite Ee. destruct (tErrors t); [|reflexivity].
    destruct (pop_rel h t R) as (p & h' & -> & D & _). exact (proj1 (den_holds _ _) _ _ D).
  Qed.

  Lemma steps_rel : forall acts h t, rel h t -> sim h (steps_of (run_action lo) acts t) (steps_of (hrun_action grow lo) acts h).
  Proof.
    induction acts as [|[i text] acts IH]; intros h t R; cbn [steps_of].
    - split; [exact R|apply later_refl].
    - pose proof (action_rel i text h t R) as S. destruct (run_action lo i text t), (hrun_action grow lo i text h); try contradiction; [|exact I].
      destruct S as [S1 S2]. apply (sim_ext _ _ _ _ S2). now apply IH.
  Qed.
  Lemma rel_stack : forall h t, rel h t -> exists ps, elements (hStack h) h = Some ps /\ denl (hMem h) (sArr (hStack h)) ps (tStack t).
  Proof. intros h t ((a & E & L & D) & _). unfold elements. rewrite E. eauto. Qed.

  Lemma actions_rel : forall acts,
    match steps_of (run_action lo) acts tree0, steps_of (hrun_action grow lo) acts htree0 with
    | Some t, Some h => (exists ps, elements (hStack h) h = Some ps /\ holds_list (hMem h) ps (tStack t)) /\ hErrors h = tErrors t /\ hMarks h = tMarks t
    | None, None => True
    | _, _ => False
    end.
  Proof.
    intro acts. pose proof (steps_rel acts htree0 tree0 rel0) as S. destruct (steps_of _ acts tree0) as [t|], (steps_of _ acts htree0) as [h|]; try contradiction; [|exact I].
    destruct S as [R _]. split; [|split; apply R]. destruct (rel_stack h t R) as (ps & E & D). exists ps. split; [exact E|]. exact (proj2 (proj2 (den_holds _ _)) _ _ D).
  Qed.
  Lemma stable_rel : forall acts acts' t h ps i p n h',
    steps_of (run_action lo) acts tree0 = Some t -> steps_of (hrun_action grow lo) acts htree0 = Some h ->
    elements (hStack h) h = Some ps -> nth_error ps i = Some p -> nth_error (tStack t) i = Some n ->
    steps_of (hrun_action grow lo) acts' h = Some h' -> holds (hMem h') p n.
  Proof.
    intros acts acts' t h ps i p n h' Ht Hh Hps Hp Hn H'. pose proof (steps_rel acts htree0 tree0 rel0) as S. rewrite Ht, Hh in S. destruct S as [R _].
    destruct (rel_stack h t R) as (ps' & E & D). rewrite E in Hps. injection Hps as ->. destruct (denl_nth _ _ _ _ i p D Hp) as (n' & En & Dn).
    rewrite Hn in En. injection En as <-. pose proof (steps_rel acts' h t R) as S. rewrite H' in S. destruct (steps_of _ acts' t); [|contradiction]. destruct S as [_ X].
    exact (proj1 (den_holds _ _) _ _ (ext_dn _ _ _ _ X Dn)).
  Qed.
  Lemma parsed_stable : forall q n p h acts h', parse lo q = Ok n -> hparse grow lo q = Ok (p, h) -> steps_of (hrun_action grow lo) acts h = Some h' -> holds (hMem h') p n.
  Proof.
    intros q n p h acts h' Hn Hp H'. unfold parse in Hn. unfold hparse in Hp. destruct (parse_machine q) as [| |[|] s]; [discriminate Hn|discriminate Hn| |discriminate Hn].
    pose proof (execute_rel (init_buffer q) (trim (mtree s) (mtidx s)) [] htree0 tree0 rel0) as S.
    destruct (execute _ _ _ _ _) as [t|]; [|discriminate Hn]. destruct (hexecute _ _ _ _ _ _) as [h0|]; [|contradiction]. destruct S as [R _].
    destruct (tErrors t); [|discriminate Hn]. injection Hn as <-. destruct (hErrors h0); [|discriminate Hp].
    destruct (pop_rel h0 t R) as (p' & h1 & E & D & R1 & _). rewrite E in Hp. injection Hp as -> ->.
    pose proof (steps_rel acts h _ R1) as S. rewrite H' in S. destruct (steps_of (run_action lo) acts (snd (pop t))); [|contradiction]. destruct S as [_ X].
    exact (proj1 (den_holds _ _) _ _ (ext_dn _ _ _ _ X D)).
  Qed.
End Refine.

Scheme holds_i := Induction for holds Sort Prop
  with holds_slice_i := Induction for holds_slice Sort Prop
  with holds_list_i := Induction for holds_list Sort Prop.
Combined Scheme holds_mind from holds_i, holds_slice_i, holds_list_i.
Lemma holds_det : forall m p n n', holds m p n -> holds m p n' -> n' = n.
Proof.
  intros m. assert (G : (forall p n, holds m p n -> forall n', holds m p n' -> n' = n) /\ (forall s l, holds_slice m s l -> forall l', holds_slice m s l' -> l' = l) /\
    (forall ps ns, holds_list m ps ns -> forall ns', holds_list m ps ns' -> ns' = ns)).
  { apply (holds_mind m (fun p n _ => forall n', holds m p n' -> n' = n) (fun s l _ => forall l', holds_slice m s l' -> l' = l) (fun ps ns _ => forall ns', holds_list m ps ns' -> ns' = ns)).
    - intros n' H. now inversion H.
    - intros a h n E E1 E2 E3 E4 E5 E6 E7 E8 E9 H1 I1 H2 I2 H3 I3 H4 I4 H5 I5 H6 I6 n' H.
      inversion H as [|a' h' n2 F F1 F2 F3 F4 F5 F6 F7 F8 F9 K1 K2 K3 K4 K5 K6]; subst. rewrite E in F. injection F as <-.
      apply I1 in K1. apply I2 in K2. apply I3 in K3. apply I4 in K4. apply I5 in K5. apply I6 in K6. f_equal.
      clear - E1 E2 E3 E4 E5 E6 E7 E8 E9 F1 F2 F3 F4 F5 F6 F7 F8 F9 K1 K2 K3 K4 K5 K6. destruct n, n2; cbn in *. subst.
      f_equal; congruence.
    - intros s a l E L H IH l' K. inversion K as [s' a' l2 F M D]; subst. rewrite E in F. injection F as <-. now apply IH.
    - intros ns' H. now inversion H.
    - intros p ps n ns H IH Hs IHs ns' K. inversion K; subst. f_equal; auto. }
  intros p n n' H K. exact (proj1 G p n H n' K).
Qed.
