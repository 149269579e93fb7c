(** Code accepted by the checker of GoCheck.v does what the machine of Peg.v does. *)
From Coq Require Import Lia.
From Verif Require Import Base Peg GoStmt GoCheck.

Ltac bsplit := repeat match goal with
  | H : _ && _ = true |- _ => apply andb_prop in H; destruct H
  | H : negb _ = true |- _ => apply negb_true_iff in H
  | H : Nat.eqb _ _ = true |- _ => apply Nat.eqb_eq in H; subst
  | H : N.eqb _ _ = true |- _ => apply N.eqb_eq in H; subst
  | H : Nat.ltb _ _ = true |- _ => apply Nat.ltb_lt in H
  end.
Ltac dest H := repeat match type of H with
  | context [match ?x with _ => _ end] => destruct x eqn:?; try discriminate H
  end.

(** ** Labels *)

Definition suffix (c body : list stmt) : Prop := exists p, body = p ++ c.

Lemma suffix_refl : forall c, suffix c c.
Proof. intros c. now exists []. Qed.
Lemma suffix_app : forall p c body, suffix (p ++ c) body -> suffix c body.
Proof. intros p c body [q ->]. exists (q ++ p). now rewrite app_assoc. Qed.
Lemma suffix_cons : forall s c body, suffix (s :: c) body -> suffix c body.
Proof. intros s c body H. now apply (suffix_app [s]). Qed.
Lemma suffix_trans : forall a b c, suffix a b -> suffix b c -> suffix a c.
Proof. intros a b c [p ->] H. now apply suffix_app in H. Qed.

Lemma memn_in : forall x l, memn x l = true <-> In x l.
Proof.
  induction l as [|y l IH]; cbn; [easy|].
  rewrite orb_true_iff, Nat.eqb_eq, IH. intuition.
Qed.
Lemma nodupb_ok : forall l, nodupb l = true -> NoDup l.
Proof.
  induction l as [|x l IH]; cbn; intros H; [constructor|].
  bsplit. constructor; [|auto]. intros Hi. apply memn_in in Hi. congruence.
Qed.

Lemma after_none : forall l b, memn l (labels b) = false -> after l b = None.
Proof.
  induction b as [|s b IH]; cbn; intros H; [easy|].
  destruct s; cbn in *; auto.
  apply orb_false_iff in H as [H1 H2]. rewrite H1. auto.
Qed.

Lemma after_suffix : forall l r body,
  NoDup (labels body) -> suffix (SLabel l :: r) body -> after l body = Some r.
Proof.
  intros l r body Hn [p ->]. induction p as [|s p IH]; cbn in *.
  - now rewrite Nat.eqb_refl.
  - destruct s; cbn in *; auto.
    inversion Hn as [|? ? Hi Hn']; subst.
    destruct (Nat.eqb_spec l l0) as [->|_]; [|auto].
    exfalso. apply Hi. unfold labels. rewrite flat_map_app. apply in_app_iff. right. now left.
Qed.

(** ** What the checker says of each construct *)

Lemma chk_PChar : forall b x k c r, chk MPlain b (PChar x) k c = Some r -> c = SIfNot x k :: SInc :: r.
Proof. intros b x k c r H. cbn in H. dest H. bsplit. congruence. Qed.
Lemma chk_PRange : forall b x y k c r, chk MPlain b (PRange x y) k c = Some r -> c = SIfNotIn x y k :: SInc :: r.
Proof. intros b x y k c r H. cbn in H. dest H. bsplit. congruence. Qed.
Lemma chk_PDot : forall b k c r, chk MPlain b PDot k c = Some r -> c = SIfNotDot k :: r.
Proof. intros b k c r H. cbn in H. dest H. bsplit. congruence. Qed.
Lemma chk_PSeq : forall b x y k c r, chk MPlain b (PSeq x y) k c = Some r ->
  exists c2, chk MPlain b x k c = Some c2 /\ chk MPlain b y k c2 = Some r.
Proof. intros b x y k c r H. cbn [chk] in H. destruct (chk MPlain b x k c) eqn:E; [|discriminate]. eauto. Qed.
Lemma chk_PAct : forall b n k c r, chk MPlain b (PAct n) k c = Some r -> c = SCall (TAct n) k :: r /\ n < 30.
Proof. intros b n k c r H. cbn [chk] in H. dest H. subst. injection H as <-. bsplit. easy. Qed.
Lemma chk_PRule : forall b n k c r, chk MPlain b (PRule n) k c = Some r -> c = SCall (TRule n) k :: r.
Proof. intros b n k c r H. cbn [chk] in H. dest H. subst. injection H as <-. bsplit. easy. Qed.

Lemma chk_PStar : forall b a k c r, chk MPlain b (PStar a) k c = Some r ->
  exists l n i, c = SLabel l :: SBlock (SSave n :: i) :: r /\ b < n /\ NoDup (labels i) /\
    memn l (labels i) = false /\ chk MPlain n a n i = Some [SGoto l; SLabel n; SRestore n].
Proof.
  intros b a k c r H. cbn [chk] in H. dest H. bsplit.
  eexists _, _, _. repeat split; eauto using nodupb_ok. congruence.
Qed.
Lemma chk_POpt : forall b a k c r, chk MPlain b (POpt a) k c = Some r ->
  exists l n i, c = SBlock (SSave n :: i) :: SLabel l :: r /\ b < n /\ NoDup (labels i) /\
    memn l (labels i) = false /\ chk MPlain n a n i = Some [SGoto l; SLabel n; SRestore n].
Proof.
  intros b a k c r H. cbn [chk] in H. dest H. bsplit.
  eexists _, _, _. repeat split; eauto using nodupb_ok. congruence.
Qed.
Lemma chk_PNot : forall b a k c r, chk MPlain b (PNot a) k c = Some r ->
  exists n i, c = SBlock (SSave n :: i) :: r /\ b < n /\ NoDup (labels i) /\
    memn k (labels i) = false /\ chk MPlain n a n i = Some [SGoto k; SLabel n; SRestore n].
Proof.
  intros b a k c r H. cbn [chk] in H. dest H. bsplit.
  eexists _, _. repeat split; eauto using nodupb_ok. congruence.
Qed.
Lemma chk_PCap : forall b a k c r, chk MPlain b (PCap a) k c = Some r ->
  exists n i, c = SBlock (SSavePos n :: i) :: r /\ b < n /\ NoDup (labels i) /\
    memn k (labels i) = false /\ chk MPlain n a k i = Some [SAdd TPegText n].
Proof.
  intros b a k c r H. cbn [chk] in H. dest H. bsplit.
  eexists _, _. repeat split; eauto using nodupb_ok. congruence.
Qed.

Definition alts_ok (n : nat) (a1 a2 : pexp) (k : nat) (c r : list stmt) : Prop :=
  exists l c2, chk MPlain n a1 l c = Some (SGoto n :: SLabel l :: SRestore n :: c2) /\
    chk (MAlt n) n a2 k c2 = Some r.

Lemma chk_PAlt : forall b a1 a2 k c r, chk MPlain b (PAlt a1 a2) k c = Some r ->
  exists n i, c = SBlock (SSave n :: i) :: SLabel n :: r /\ b < n /\ NoDup (labels i) /\
    memn n (labels i) = false /\ memn k (labels i) = false /\ alts_ok n a1 a2 k i [].
Proof.
  intros b a1 a2 k c r H. cbn [chk] in H. dest H. bsplit.
  match goal with H1 : _ = Some [] |- _ => dest H1 end. bsplit.
  injection H as <-.
  eexists _, _. split; [reflexivity|]. do 4 (split; [eauto using nodupb_ok|]).
  eexists _, _. eauto.
Qed.

Lemma chk_MAlt : forall n b e k c r, chk (MAlt n) b e k c = Some r ->
  (exists a1 a2, e = PAlt a1 a2 /\ alts_ok n a1 a2 k c r) \/ (chk MPlain b e k c = Some [] /\ r = []).
Proof.
  intros n b e k c r H. destruct e.
  5: { left. cbn [chk] in H. dest H. bsplit. eexists _, _. split; [reflexivity|]. eexists _, _. eauto. }
  all: right; cbn [chk] in *;
    match type of H with
    | match ?x with _ => _ end = _ => destruct x as [[|? ?]|] eqn:E; try discriminate H
    end; injection H as <-; now split.
Qed.

Definition case_ok (b : nat) (a : pexp) (k : nat) (c : list stmt) : Prop :=
  NoDup (labels c) /\ memn k (labels c) = false /\
  (chk MPlain b a k c = Some [] \/ chk MPlain b a k c = Some [SBreak]).

Lemma listN_eqb_ok : forall a b, listN_eqb a b = true -> a = b.
Proof. intros a b. unfold listN_eqb. now destruct (list_eq_dec N.eq_dec a b). Qed.

Lemma case_inv : forall b a k c,
  nodupb (labels c) && negb (memn k (labels c)) &&
    match chk MPlain b a k c with Some [] | Some [SBreak] => true | _ => false end = true ->
  case_ok b a k c.
Proof.
  intros b a k c H. bsplit. repeat split; auto using nodupb_ok.
  dest H0; auto.
Qed.

Lemma chk_PSw : forall b cs a d k c r, chk MPlain b (PSw cs a d) k c = Some r ->
  exists c1 cases dflt r', c = SBlock [SSwitch ((cs, c1) :: cases) dflt] :: r /\ case_ok b a k c1 /\
    chk MCases b d k [SSwitch cases dflt] = Some r'.
Proof.
  intros b cs a d k c r H. cbn [chk] in H.
  destruct c as [|s c]; [discriminate|]. destruct s; try discriminate.
  destruct b0 as [|s b0]; [discriminate|]. destruct s; try discriminate.
  destruct cases as [|[cs1 c1] cases]; [discriminate|].
  destruct b0; [|discriminate].
  destruct (listN_eqb cs cs1) eqn:E1; [|discriminate]. apply listN_eqb_ok in E1 as <-.
  rewrite andb_true_l in H.
  match type of H with (if ?x then _ else _) = _ => destruct x eqn:E2; [|discriminate] end.
  apply case_inv in E2.
  match type of H with match ?x with _ => _ end = _ => destruct x as [r'|] eqn:E3; [|discriminate] end.
  injection H as <-. exists c1, cases, d0, r'. auto.
Qed.

Lemma chk_MCases : forall b e k cases dflt r, chk MCases b e k [SSwitch cases dflt] = Some r ->
  (cases = [] /\ case_ok b e k dflt) \/
  (exists cs a d c1 cases', e = PSw cs a d /\ cases = (cs, c1) :: cases' /\ case_ok b a k c1 /\
     chk MCases b d k [SSwitch cases' dflt] = Some r).
Proof.
  intros b e k cases dflt r H. destruct cases as [|[cs1 c1] cases].
  - left. split; [easy|]. apply case_inv.
    destruct e; cbn [chk] in H |- *;
      match type of H with (if ?x then _ else _) = _ => destruct x eqn:E2; [|discriminate] end;
      reflexivity.
  - right. destruct e; try discriminate. cbn [chk] in H.
    destruct (listN_eqb cs cs1) eqn:E1; [|discriminate]. apply listN_eqb_ok in E1 as <-.
    rewrite andb_true_l in H.
    match type of H with (if ?x then _ else _) = _ => destruct x eqn:E2; [|discriminate] end.
    apply case_inv in E2. exists cs, e1, e2, c1, cases. auto.
Qed.

Lemma chk_suffix : forall e b k c r, chk MPlain b e k c = Some r -> suffix r c.
Proof.
  induction e as [c|lo hi| | | | | | | |n|r0|cs a1 ? d ?]; intros b k cd r H.
  - apply chk_PChar in H as ->. now exists [SIfNot c k; SInc].
  - apply chk_PRange in H as ->. now exists [SIfNotIn lo hi k; SInc].
  - apply chk_PDot in H as ->. now exists [SIfNotDot k].
  - apply chk_PSeq in H as (c2 & H1 & H2). eapply suffix_trans; eauto.
  - apply chk_PAlt in H as (n & i & -> & _). now exists [SBlock (SSave n :: i); SLabel n].
  - apply chk_PStar in H as (l & n & i & -> & _). now exists [SLabel l; SBlock (SSave n :: i)].
  - apply chk_POpt in H as (l & n & i & -> & _). now exists [SBlock (SSave n :: i); SLabel l].
  - apply chk_PNot in H as (n & i & -> & _). now exists [SBlock (SSave n :: i)].
  - apply chk_PCap in H as (n & i & -> & _). now exists [SBlock (SSavePos n :: i)].
  - apply chk_PAct in H as (-> & _). now exists [SCall (TAct n) k].
  - apply chk_PRule in H as ->. now exists [SCall (TRule r0) k].
  - apply chk_PSw in H as (c1 & cases & dflt & r' & -> & _). now exists [SBlock [SSwitch ((cs, c1) :: cases) dflt]].
Qed.

(** ** Running *)

Section Run.
  Variable constants : list tokrule.
  Variable rules : list (option (list stmt)).
  Variable buf : list N.
  Notation exec := (exec constants rules buf).
  Notation run := (run constants rules buf).
  Notation rule_code := (rule_code constants rules).

  Lemma exec_mono : forall R R',
    (forall b c g, R b c g <> RFuel -> R' b c g = R b c g) ->
    forall s g, exec R s g <> RFuel -> exec R' s g = exec R s g.
  Proof.
    intros R R' HR s g H. destruct s; cbn [GoStmt.exec] in *; try reflexivity.
    - destruct (rule_code r) as [c|]; [|reflexivity].
      rewrite (HR c c); [reflexivity|]. intros E. now rewrite E in H.
    - apply HR, H.
    - destruct (nth_error buf (mpos (gm g))) as [x|]; [|reflexivity].
      rewrite (HR (pick x cases d)); [reflexivity|]. intros E. now rewrite E in H.
  Qed.

  Lemma run_cons : forall f body s rest g, run (S f) body (s :: rest) g =
    match exec (run f) s g with
    | RFall g' => run f body rest g'
    | RJump l g' => match after l body with Some r => run f body r g' | None => RJump l g' end
    | r => r
    end.
  Proof. reflexivity. Qed.

  Lemma run_S : forall f body rest g, run f body rest g <> RFuel -> run (S f) body rest g = run f body rest g.
  Proof.
    induction f as [|f IH]; intros body rest g H; [easy|].
    destruct rest as [|s rest]; [reflexivity|].
    rewrite run_cons in H. rewrite !run_cons.
    assert (He : exec (run f) s g <> RFuel) by (intros E; now rewrite E in H).
    rewrite (exec_mono (run f) (run (S f))); auto.
    destruct (exec (run f) s g); auto.
    destruct (after l body); auto.
  Qed.
  Lemma run_mono : forall f f' body rest g, f <= f' ->
    run f body rest g <> RFuel -> run f' body rest g = run f body rest g.
  Proof.
    intros f f' body rest g Hle H. induction Hle as [|f' Hle IH]; [easy|].
    rewrite run_S; [exact IH|]. now rewrite IH.
  Qed.

  Definition ev (body rest : list stmt) (g : gstate) (r : gres) : Prop :=
    exists f, run f body rest g = r /\ r <> RFuel.
  Definition does (s : stmt) (g : gstate) (r : gres) : Prop :=
    exists f, exec (run f) s g = r /\ r <> RFuel.
  Definition jumps (body : list stmt) (l : nat) (g : gstate) (r : gres) : Prop :=
    match after l body with
    | Some c => ev body c g r
    | None => r = RJump l g
    end.

  Lemma ev_nil : forall body g, ev body [] g (RFall g).
  Proof. intros. exists 1. now split. Qed.

  Lemma ev_cons : forall s body rest g r1 r, does s g r1 ->
    match r1 with
    | RFall g' => ev body rest g' r
    | RJump l g' => jumps body l g' r
    | _ => r = r1
    end -> ev body (s :: rest) g r.
  Proof.
    intros s body rest g r1 r (f1 & E1 & N1) H.
    assert (Hm : forall f, f1 <= f -> exec (run f) s g = r1).
    { intros f Hf. rewrite (exec_mono (run f1) (run f)); [exact E1| |now rewrite E1].
      intros. now apply run_mono. }
    assert (Hc : forall f2 c g', run f2 body c g' = r -> r <> RFuel -> run (f1 + f2) body c g' = r).
    { intros f2 c g' E2 N2. rewrite (run_mono f2); [exact E2|lia|now rewrite E2]. }
    destruct r1; try (now elim N1); try (now subst; exists (S f1); rewrite run_cons, (Hm f1) by lia; split).
    - destruct H as (f2 & E2 & N2). exists (S (f1 + f2)).
      rewrite run_cons, Hm by lia. split; auto.
    - unfold jumps in H. destruct (after l body) as [c|] eqn:Ea.
      + destruct H as (f2 & E2 & N2). exists (S (f1 + f2)).
        rewrite run_cons, Hm, Ea by lia. split; auto.
      + subst. exists (S f1). rewrite run_cons, Hm, Ea by lia. now split.
  Qed.

  Lemma does_simple : forall s g r, (forall R, exec R s g = r) -> r <> RFuel -> does s g r.
  Proof. intros s g r H N. exists 0. auto. Qed.
  Lemma does_block : forall b g r, ev b b g r -> does (SBlock b) g r.
  Proof. intros b g r (f & E & N). exists f. auto. Qed.

  Lemma ev_label : forall l body c g r, ev body (SLabel l :: c) g r <-> ev body c g r.
  Proof.
    intros l body c g r. split.
    - intros ([|f] & E & N); [now subst; elim N|]. exists f. auto.
    - intros (f & E & N). exists (S f). auto.
  Qed.

  Lemma ev_fun : forall body c g r1 r2, ev body c g r1 -> ev body c g r2 -> r1 = r2.
  Proof.
    intros body c g r1 r2 (f1 & E1 & N1) (f2 & E2 & N2).
    rewrite <- E1, <- E2.
    rewrite <- (run_mono f1 (f1 + f2)), <- (run_mono f2 (f1 + f2)); auto; try lia; congruence.
  Qed.

  (** Local variables up to [b] are as before. *)
  Definition keeps (b : nat) (g g' : gstate) : Prop := forall i, i <= b ->
    local i (gpos g') = local i (gpos g) /\ local i (gtok g') = local i (gtok g).

  Lemma keeps_refl : forall b g, keeps b g g.
  Proof. now intros b g i _. Qed.
  Lemma keeps_trans : forall b g1 g2 g3, keeps b g1 g2 -> keeps b g2 g3 -> keeps b g1 g3.
  Proof. intros b g1 g2 g3 H1 H2 i Hi. destruct (H1 i Hi), (H2 i Hi). split; congruence. Qed.
  Lemma keeps_le : forall b b' g g', b <= b' -> keeps b' g g' -> keeps b g g'.
  Proof. intros b b' g g' Hb H i Hi. apply H. lia. Qed.
  Lemma keeps_set : forall b g g' m, keeps b g g' -> keeps b g (set_m m g').
  Proof. intros b g g' m H i Hi. exact (H i Hi). Qed.

  Definition save (n : nat) (g : gstate) : gstate :=
    GS (gm g) ((n, mpos (gm g)) :: gpos g) ((n, mtidx (gm g)) :: gtok g).
  Definition savepos (n : nat) (g : gstate) : gstate :=
    GS (gm g) ((n, mpos (gm g)) :: gpos g) (gtok g).
  Lemma keeps_save : forall b n g, b < n -> keeps b g (save n g).
  Proof.
    intros b n g Hb i Hi. cbn. destruct (Nat.eqb_spec i n); [lia|]. easy.
  Qed.
  Lemma keeps_savepos : forall b n g, b < n -> keeps b g (savepos n g).
  Proof.
    intros b n g Hb i Hi. cbn. destruct (Nat.eqb_spec i n); [lia|]. easy.
  Qed.

  Lemma does_save : forall n g, does (SSave n) g (RFall (save n g)).
  Proof. intros. now apply does_simple. Qed.
  Lemma does_savepos : forall n g, does (SSavePos n) g (RFall (savepos n g)).
  Proof. intros. now apply does_simple. Qed.

  Lemma does_goto : forall l g, does (SGoto l) g (RJump l g).
  Proof. intros. now apply does_simple. Qed.
  Lemma does_break : forall g, does SBreak g (RBreak g).
  Proof. intros. now apply does_simple. Qed.
  Lemma does_return : forall b g, does (SReturn b) g (RRet b g).
  Proof. intros. now apply does_simple. Qed.
  Lemma does_inc : forall g, does SInc g (RFall (set_m (madv (gm g)) g)).
  Proof. intros. now apply does_simple. Qed.

  (** After [save n g] and code that keeps it, restore n goes back. *)
  Lemma does_restore : forall n g0 g, local n (gpos g) = Some (mpos g0) -> local n (gtok g) = Some (mtidx g0) ->
    does (SRestore n) g (RFall (set_m (mrestore g0 (gm g)) g)).
  Proof. intros n g0 g H1 H2. apply does_simple; [|easy]. intros R. cbn. now rewrite H1, H2. Qed.
  Lemma saved : forall n g g', keeps n (save n g) g' ->
    local n (gpos g') = Some (mpos (gm g)) /\ local n (gtok g') = Some (mtidx (gm g)).
  Proof.
    intros n g g' H. destruct (H n (Nat.le_refl n)) as [H1 H2]. cbn in *. rewrite Nat.eqb_refl in *. auto.
  Qed.
  Lemma savedpos : forall n g g', keeps n (savepos n g) g' -> local n (gpos g') = Some (mpos (gm g)).
  Proof.
    intros n g g' H. destruct (H n (Nat.le_refl n)) as [H1 _]. cbn in *. now rewrite Nat.eqb_refl in *.
  Qed.

  Lemma does_switch : forall cases d g x r, nth_error buf (mpos (gm g)) = Some x ->
    ev (pick x cases d) (pick x cases d) g r ->
    does (SSwitch cases d) g (match r with RBreak g' => RFall g' | r => r end).
  Proof.
    intros cases d g x r Hx (f & E & N). exists f. cbn. rewrite Hx, E. destruct r; split; try easy; now elim N.
  Qed.

  Section Sound.
    Variable G : rule -> pexp.
    Hypothesis Hrule : forall r, exists c, rule_code (TRule r) = Some c /\ chk_rule r (G r) c = true.
    Hypothesis Hact : forall n, n < 30 -> exists c, rule_code (TAct n) = Some c /\ chk_act n c = true.
    Notation mrun := (mrun G buf).

    Definition P1 (f : nat) : Prop := forall e b k c r body g,
      chk MPlain b e k c = Some r -> suffix c body -> NoDup (labels body) ->
      match mrun f e (gm g) with
      | MFuel => True
      | MPanic => ev body c g RPanic
      | MR true s => exists g', gm g' = s /\ keeps b g g' /\ forall x, ev body r g' x -> ev body c g x
      | MR false s => exists g', gm g' = s /\ keeps b g g' /\ forall x, jumps body k g' x -> ev body c g x
      end.

    Definition P2 (f : nat) : Prop := forall e n k c r body g,
      chk (MAlt n) n e k c = Some r -> suffix c body -> NoDup (labels body) ->
      after n body = None -> after k body = None ->
      local n (gpos g) = Some (mpos (gm g)) -> local n (gtok g) = Some (mtidx (gm g)) ->
      match mrun f e (gm g) with
      | MFuel => True
      | MPanic => ev body c g RPanic
      | MR true s => exists g', gm g' = s /\ keeps n g g' /\
          ((ev body c g (RFall g') /\ r = []) \/ ev body c g (RJump n g'))
      | MR false s => exists g', gm g' = s /\ keeps n g g' /\ ev body c g (RJump k g')
      end.

    Definition P3 (f : nat) : Prop := forall e b k cases dflt r g x,
      chk MCases b e k [SSwitch cases dflt] = Some r -> nth_error buf (mpos (gm g)) = Some x ->
      match mrun f e (gm g) with
      | MFuel => True
      | MPanic => does (SSwitch cases dflt) g RPanic
      | MR true s => exists g', gm g' = s /\ keeps b g g' /\ does (SSwitch cases dflt) g (RFall g')
      | MR false s => exists g', gm g' = s /\ keeps b g g' /\ does (SSwitch cases dflt) g (RJump k g')
      end.

    (** Code that is a list of its own: a case of a switch. *)
    Lemma case_sound : forall f, P1 f -> forall b a k c g, case_ok b a k c ->
      match mrun f a (gm g) with
      | MFuel => True
      | MPanic => ev c c g RPanic
      | MR true s => exists g', gm g' = s /\ keeps b g g' /\ (ev c c g (RFall g') \/ ev c c g (RBreak g'))
      | MR false s => exists g', gm g' = s /\ keeps b g g' /\ ev c c g (RJump k g')
      end.
    Proof.
      intros f IH b a k c g (Hn & Hk & Hc).
      assert (Ha : after k c = None) by now apply after_none.
      destruct Hc as [Hc|Hc]; specialize (IH a b k c _ c g Hc (suffix_refl c) Hn);
        destruct (mrun f a (gm g)) as [| |[|] s]; auto;
        destruct IH as (g' & E & K & H); exists g'; (split; [easy|]); (split; [easy|]).
      - left. apply H, ev_nil.
      - apply H. unfold jumps. now rewrite Ha.
      - right. apply H. eapply ev_cons; [apply does_break|]. reflexivity.
      - apply H. unfold jumps. now rewrite Ha.
    Qed.

    (** A block that saves, runs code for [a] with the block's own failure label, and ends with
        goto l; ln: restore. *)
    Lemma block_sound : forall f, P1 f -> forall b a n l i g,
      b < n -> NoDup (labels i) -> memn l (labels i) = false ->
      chk MPlain n a n i = Some [SGoto l; SLabel n; SRestore n] ->
      match mrun f a (gm g) with
      | MFuel => True
      | MPanic => does (SBlock (SSave n :: i)) g RPanic
      | MR true s => exists g', gm g' = s /\ keeps b g g' /\ does (SBlock (SSave n :: i)) g (RJump l g')
      | MR false s => exists g', gm g' = mrestore (gm g) s /\ keeps b g g' /\
          does (SBlock (SSave n :: i)) g (RFall g')
      end.
    Proof.
      intros f IH b a n l i g Hb Hn Hl Hc.
      pose proof (chk_suffix _ _ _ _ _ Hc) as Hs.
      assert (Hs' : suffix i (SSave n :: i)) by now exists [SSave n].
      assert (Hl' : after l (SSave n :: i) = None) by now apply after_none.
      assert (Hn' : after n (SSave n :: i) = Some [SRestore n]).
      { apply after_suffix; [exact Hn|]. apply suffix_cons with (s := SGoto l).
        eapply suffix_trans; eauto. }
      specialize (IH a n n i _ (SSave n :: i) (save n g) Hc Hs' Hn).
      change (gm (save n g)) with (gm g) in IH.
      assert (Hsave : forall x, ev (SSave n :: i) i (save n g) x -> does (SBlock (SSave n :: i)) g x).
      { intros x Hx. apply does_block. eapply ev_cons; [apply does_save|]. exact Hx. }
      destruct (mrun f a (gm g)) as [| |[|] s]; auto; destruct IH as (g' & E & K & H).
      - exists g'. split; [easy|]. split.
        { eapply keeps_trans; [now apply (keeps_save b n)|]. eapply keeps_le; [|exact K]. lia. }
        apply Hsave, H. eapply ev_cons; [apply does_goto|]. unfold jumps. now rewrite Hl'.
      - destruct (saved _ _ _ K) as [L1 L2].
        exists (set_m (mrestore (gm g) s) g'). split; [easy|]. split.
        + apply keeps_set. eapply keeps_trans; [now apply (keeps_save b n)|].
          eapply keeps_le; [|exact K]; lia.
        + apply Hsave, H. unfold jumps. rewrite Hn'.
          eapply ev_cons; [apply (does_restore _ (gm g)); auto|]. rewrite E. apply ev_nil.
    Qed.

    Lemma alts_sound : forall f, P1 f -> P2 f -> forall n a1 a2 k c r body g,
      alts_ok n a1 a2 k c r -> suffix c body -> NoDup (labels body) ->
      after n body = None -> after k body = None ->
      local n (gpos g) = Some (mpos (gm g)) -> local n (gtok g) = Some (mtidx (gm g)) ->
      match (match mrun f a1 (gm g) with
             | MR false s1 => mrun f a2 (mrestore (gm g) s1)
             | x => x
             end) with
      | MFuel => True
      | MPanic => ev body c g RPanic
      | MR true s => exists g', gm g' = s /\ keeps n g g' /\
          ((ev body c g (RFall g') /\ r = []) \/ ev body c g (RJump n g'))
      | MR false s => exists g', gm g' = s /\ keeps n g g' /\ ev body c g (RJump k g')
      end.
    Proof.
      intros f IH1 IH2 n a1 a2 k c r body g (l & c2 & Hc1 & Hc2) Hs Hn Hnn Hnk L1 L2.
      pose proof (chk_suffix _ _ _ _ _ Hc1) as Hs1.
      assert (Hs2 : suffix (SLabel l :: SRestore n :: c2) body).
      { apply suffix_cons with (s := SGoto n). eapply suffix_trans; eauto. }
      assert (Hl : after l body = Some (SRestore n :: c2)) by now apply after_suffix.
      specialize (IH1 a1 n l c _ body g Hc1 Hs Hn).
      destruct (mrun f a1 (gm g)) as [| |[|] s1]; auto.
      - destruct IH1 as (g1 & E1 & K1 & H1). exists g1. split; [easy|]. split; [easy|].
        right. apply H1. eapply ev_cons; [apply does_goto|]. unfold jumps. now rewrite Hnn.
      - destruct IH1 as (g1 & E1 & K1 & H1).
        destruct (K1 n (Nat.le_refl n)) as [M1 M2].
        set (g2 := set_m (mrestore (gm g) s1) g1).
        assert (H2 : forall x, ev body c2 g2 x -> ev body c g x).
        { intros x Hx. apply H1. unfold jumps. rewrite Hl.
          eapply ev_cons; [apply (does_restore _ (gm g)); congruence|]. now rewrite E1. }
        assert (Hs3 : suffix c2 body) by now do 2 apply suffix_cons in Hs2.
        specialize (IH2 a2 n k c2 r body g2 Hc2 Hs3 Hn Hnn Hnk).
        cbn in IH2. rewrite M1, M2, L1, L2 in IH2. specialize (IH2 eq_refl eq_refl).
        assert (K2 : keeps n g g2) by now apply keeps_set.
        unfold g2 in IH2 at 1. cbn [gm set_m] in IH2.
        destruct (mrun f a2 (mrestore (gm g) s1)) as [| |[|] s2]; auto.
        + destruct IH2 as (g3 & E3 & K3 & H3). exists g3. split; [easy|].
          split; [eapply keeps_trans; eauto|]. destruct H3 as [[H3 H4]|H3]; auto.
        + destruct IH2 as (g3 & E3 & K3 & H3). exists g3. split; [easy|].
          split; [eapply keeps_trans; eauto|]. auto.
    Qed.

    Lemma does_test : forall s ok l g x, nth_error buf (mpos (gm g)) = Some x ->
      (forall R, exec R s g = test buf ok l g) ->
      does s g (if ok x then RFall g else RJump l g).
    Proof.
      intros s ok l g x Hx H. apply does_simple; [|now destruct (ok x)].
      intros R. rewrite H. unfold test. now rewrite Hx.
    Qed.

    (** Tests of one rune followed by position++. *)
    Lemma test_sound : forall s ok b k r body g,
      (forall R g, exec R s g = test buf ok k g) ->
      match (match nth_error buf (mpos (gm g)) with
             | None => MPanic
             | Some x => if ok x then MR true (madv (gm g)) else MR false (gm g)
             end) with
      | MFuel => True
      | MPanic => ev body (s :: SInc :: r) g RPanic
      | MR true m => exists g', gm g' = m /\ keeps b g g' /\ forall x, ev body r g' x -> ev body (s :: SInc :: r) g x
      | MR false m => exists g', gm g' = m /\ keeps b g g' /\ forall x, jumps body k g' x -> ev body (s :: SInc :: r) g x
      end.
    Proof.
      intros s ok b k r body g Hs. destruct (nth_error buf (mpos (gm g))) as [x|] eqn:Hx.
      - pose proof (does_test s ok k g x Hx (fun R => Hs R g)) as D. destruct (ok x).
        + exists (set_m (madv (gm g)) g). split; [easy|]. split; [apply keeps_set, keeps_refl|].
          intros y Hy. eapply ev_cons; [exact D|]. cbn beta iota. eapply ev_cons; [apply does_inc|]. exact Hy.
        + exists g. split; [easy|]. split; [apply keeps_refl|].
          intros y Hy. eapply ev_cons; [exact D|]. exact Hy.
      - apply ev_cons with (r1 := RPanic); [|reflexivity].
        apply does_simple; [|easy]. intros R. rewrite Hs. unfold test. now rewrite Hx.
    Qed.

    Lemma sure_true : forall f e s s', sure e = true -> mrun f e s <> MR false s'.
    Proof.
      induction f as [|f IH]; intros e s s' He; [easy|].
      destruct e; cbn in He; try discriminate; cbn [Peg.mrun].
      - bsplit. destruct (mrun f e1 s) as [| |[|] s1] eqn:E1; try easy; [now apply IH|].
        now apply IH in E1.
      - destruct (mrun f e1 s) as [| |[|] s1] eqn:E1; try easy. now apply IH.
      - destruct (mrun f e s) as [| |[|] s1] eqn:E1; try easy. now apply IH.
      - now destruct (mrun f e s) as [| |[|] s1] eqn:E1.
      - destruct (mrun f e s) as [| |[|] s1] eqn:E1; try easy. now apply IH in E1.
    Qed.

    (** A block [{ positionN := position; code of a; add(t, positionN) }]. *)
    Lemma capture_sound : forall f, P1 f -> forall b a n k t i g,
      b < n -> NoDup (labels i) -> memn k (labels i) = false \/ sure a = true ->
      chk MPlain n a k i = Some [SAdd t n] ->
      match mrun f a (gm g) with
      | MFuel => True
      | MPanic => does (SBlock (SSavePos n :: i)) g RPanic
      | MR true s => exists g', gm g' = madd t (mpos (gm g)) s /\ keeps b g g' /\
          does (SBlock (SSavePos n :: i)) g (RFall g')
      | MR false s => exists g', gm g' = s /\ keeps b g g' /\
          does (SBlock (SSavePos n :: i)) g (RJump k g')
      end.
    Proof.
      intros f IH b a n k t i g Hb Hn Hk Hc.
      pose proof (chk_suffix _ _ _ _ _ Hc) as Hs.
      assert (Hs' : suffix i (SSavePos n :: i)) by now exists [SSavePos n].
      specialize (IH a n k i _ (SSavePos n :: i) (savepos n g) Hc Hs' Hn).
      change (gm (savepos n g)) with (gm g) in IH.
      assert (Hsave : forall x, ev (SSavePos n :: i) i (savepos n g) x -> does (SBlock (SSavePos n :: i)) g x).
      { intros x Hx. apply does_block. eapply ev_cons; [apply does_savepos|]. exact Hx. }
      pose proof (sure_true f a (gm g)) as Hsure.
      destruct (mrun f a (gm g)) as [| |[|] s]; auto; destruct IH as (g' & E & K & H).
      - pose proof (savedpos _ _ _ K) as L.
        exists (set_m (madd t (mpos (gm g)) s) g'). split; [easy|]. split.
        { apply keeps_set. eapply keeps_trans; [now apply (keeps_savepos b n)|].
          eapply keeps_le; [|exact K]. lia. }
        apply Hsave, H. eapply ev_cons.
        { apply does_simple; [|shelve]. intros R. cbn. rewrite L. reflexivity. Unshelve. easy. }
        cbn beta iota. rewrite E. apply ev_nil.
      - exists g'. split; [easy|]. split.
        { eapply keeps_trans; [now apply (keeps_savepos b n)|]. eapply keeps_le; [|exact K]. lia. }
        apply Hsave, H. unfold jumps.
        destruct Hk as [Hk|Hk]; [|now elim (Hsure s Hk)].
        now rewrite (after_none k (SSavePos n :: i) Hk).
    Qed.

    (** A rule function. *)
    Lemma rule_sound : forall f, P1 f -> forall r c m, chk_rule r (G r) c = true ->
      match mrun f (G r) m with
      | MFuel => True
      | MPanic => ev c c (GS m [] []) RPanic
      | MR true s => exists g', gm g' = madd (TRule r) (mpos m) s /\ ev c c (GS m [] []) (RRet true g')
      | MR false s => exists g', gm g' = mrestore m s /\ ev c c (GS m [] []) (RRet false g')
      end.
    Proof.
      intros f IH r c m H.
      assert (Hc : (exists n0 n1 i, c = [SSave n0; SBlock (SSavePos n1 :: i); SReturn true; SLabel n0; SRestore n0; SReturn false]
                    /\ n0 < n1 /\ NoDup (labels i) /\ memn n0 (labels i) = false /\
                    chk MPlain n1 (G r) n0 i = Some [SAdd (TRule r) n1]) \/
                   (exists n1 i, c = [SBlock (SSavePos n1 :: i); SReturn true] /\ 0 < n1 /\ sure (G r) = true /\
                    NoDup (labels i) /\ chk MPlain n1 (G r) 0 i = Some [SAdd (TRule r) n1])).
      { unfold chk_rule in H. dest H; bsplit; try discriminate; subst.
        all: first [left; eexists _, _, _; split; [reflexivity|]; now auto using nodupb_ok
                   |right; eexists _, _; split; [reflexivity|]; now auto using nodupb_ok]. }
      clear H. destruct Hc as [(n0 & n1 & i & -> & Hlt & Hn & Hm & Hc)|(n1 & i & -> & Hlt & Hsu & Hn & Hc)].
      - set (body := [SSave n0; _; _; _; _; _]).
        pose proof (capture_sound f IH n0 (G r) n1 n0 (TRule r) i (save n0 (GS m [] [])) Hlt Hn (or_introl Hm) Hc) as C.
        change (gm (save n0 (GS m [] []))) with m in C.
        assert (Hb : forall x, ev body (tl body) (save n0 (GS m [] [])) x -> ev body body (GS m [] []) x).
        { intros x Hx. eapply ev_cons; [apply does_save|]. exact Hx. }
        assert (Ha : after n0 body = Some [SRestore n0; SReturn false]) by (cbn; now rewrite Nat.eqb_refl).
        destruct (mrun f (G r) m) as [| |[|] s]; auto.
        + apply Hb. eapply ev_cons; [exact C|]. reflexivity.
        + destruct C as (g1 & E & K & D). exists g1. split; [easy|]. apply Hb.
          eapply ev_cons; [exact D|]. cbn beta iota. eapply ev_cons; [apply does_return|]. reflexivity.
        + destruct C as (g1 & E & K & D).
          destruct (saved n0 (GS m [] []) g1 K) as [L1 L2].
          exists (set_m (mrestore m s) g1). split; [easy|]. apply Hb.
          eapply ev_cons; [exact D|]. unfold jumps. rewrite Ha.
          eapply ev_cons; [apply (does_restore _ m); auto|]. cbn beta iota. rewrite E.
          eapply ev_cons; [apply does_return|]. reflexivity.
      - set (body := [_; _]).
        pose proof (capture_sound f IH 0 (G r) n1 0 (TRule r) i (GS m [] []) Hlt Hn (or_intror Hsu) Hc) as C.
        change (gm (GS m [] [])) with m in C.
        pose proof (sure_true f (G r) m) as Hs.
        destruct (mrun f (G r) m) as [| |[|] s]; auto.
        + eapply ev_cons; [exact C|]. reflexivity.
        + destruct C as (g1 & E & K & D). exists g1. split; [easy|].
          eapply ev_cons; [exact D|]. cbn beta iota. eapply ev_cons; [apply does_return|]. reflexivity.
        + now elim (Hs s Hsu).
    Qed.

    Lemma does_call : forall t c l g r, rule_code t = Some c -> ev c c (GS (gm g) [] []) r ->
      does (SCall t l) g
        (match r with
         | RRet true g' => RFall (set_m (gm g') g)
         | RRet false g' => RJump l (set_m (gm g') g)
         | RFuel => RFuel
         | RPanic => RPanic
         | _ => RStuck
         end).
    Proof.
      intros t c l g r Hc (f & E & N). exists f. cbn [GoStmt.exec]. rewrite Hc, E. split; [easy|].
      now destruct r as [| | | | | |[|]].
    Qed.

    Lemma act_sound : forall n c m, chk_act n c = true ->
      exists g', gm g' = madd (TAct n) (mpos m) m /\ ev c c (GS m [] []) (RRet true g').
    Proof.
      intros n c m H. unfold chk_act in H. dest H. subst.
      exists (set_m (madd (TAct n) (mpos m) m) (GS m [] [])). split; [easy|].
      eapply ev_cons.
      - apply does_block. apply ev_cons with (r1 := RFall (set_m (madd (TAct n) (mpos m) m) (GS m [] []))).
        { now apply does_simple. }
        apply ev_nil.
      - cbn beta iota. eapply ev_cons; [apply does_return|]. reflexivity.
    Qed.

    Lemma P1_step : forall f, P1 f -> P2 f -> P3 f -> P1 (S f).
    Proof.
      intros f IH1 IH2 IH3 e b k c r body g Hc Hs Hn. destruct e; cbn [Peg.mrun].
      - apply chk_PChar in Hc as ->. now apply (test_sound _ (fun x => (x =? c0)%N)).
      - apply chk_PRange in Hc as ->.
        pose proof (test_sound (SIfNotIn lo hi k) (fun x => negb ((x <? lo)%N || (hi <? x)%N)) b k r body g
                      (fun R g => eq_refl)) as T.
        destruct (nth_error buf (mpos (gm g))) as [x|]; auto.
        cbn beta in T. destruct ((x <? lo)%N || (hi <? x)%N); exact T.
      - apply chk_PDot in Hc as ->. destruct (nth_error buf (mpos (gm g))) as [x|] eqn:Hx.
        + destruct (x =? endSymbol)%N eqn:Ex.
          * exists g. split; [easy|]. split; [apply keeps_refl|]. intros y Hy.
            eapply ev_cons; [apply does_simple with (r := RJump k g); [|easy]; intros R; cbn; now rewrite Hx, Ex|]. exact Hy.
          * exists (set_m (madv (gm g)) g). split; [easy|]. split; [apply keeps_set, keeps_refl|]. intros y Hy.
            eapply ev_cons; [apply does_simple with (r := RFall (set_m (madv (gm g)) g)); [|easy]; intros R; cbn; now rewrite Hx, Ex|].
            exact Hy.
        + eapply ev_cons; [apply does_simple with (r := RPanic); [|easy]; intros R; cbn; now rewrite Hx|]. reflexivity.
      - apply chk_PSeq in Hc as (c2 & H1 & H2).
        pose proof (IH1 e1 b k c c2 body g H1 Hs Hn) as A.
        destruct (mrun f e1 (gm g)) as [| |[|] s1]; auto.
        destruct A as (g1 & E1 & K1 & A).
        assert (Hs2 : suffix c2 body) by (eapply suffix_trans; [eapply chk_suffix; eauto|auto]).
        pose proof (IH1 e2 b k c2 r body g1 H2 Hs2 Hn) as B. rewrite E1 in B.
        destruct (mrun f e2 s1) as [| |[|] s2]; auto;
          destruct B as (g2 & E2 & K2 & B); exists g2; (split; [easy|]); (split; [eapply keeps_trans; eauto|]); auto.
      - apply chk_PAlt in Hc as (n & i & -> & Hb & Hni & Hm & Hk & Ha).
        set (blk := SSave n :: i).
        pose proof (alts_sound f IH1 IH2 n e1 e2 k i [] blk (save n g) Ha (ex_intro _ [SSave n] eq_refl) Hni
                      (after_none n blk Hm) (after_none k blk Hk)) as A.
        cbn [save gpos gtok local gm] in A. rewrite Nat.eqb_refl in A. specialize (A eq_refl eq_refl).
        change (GS (gm g) ((n, mpos (gm g)) :: gpos g) ((n, mtidx (gm g)) :: gtok g)) with (save n g) in A.
        assert (Hb1 : forall x, ev blk i (save n g) x -> does (SBlock blk) g x).
        { intros x Hx. apply does_block. eapply ev_cons; [apply does_save|]. exact Hx. }
        assert (Hl : after n body = Some r).
        { apply after_suffix; auto. now apply suffix_cons in Hs. }
        assert (Hkeep : forall g', keeps n (save n g) g' -> keeps b g g').
        { intros g' K. eapply keeps_trans; [now apply (keeps_save b n)|]. eapply keeps_le; [|exact K]. lia. }
        destruct (match mrun f e1 (gm g) with MR false s1 => _ | x => x end) as [| |[|] s1]; auto.
        + eapply ev_cons; [apply Hb1, A|]. reflexivity.
        + destruct A as (g1 & E1 & K1 & A). exists g1. split; [easy|]. split; [auto|]. intros x Hx.
          destruct A as [[A _]|A]; apply Hb1 in A; (eapply ev_cons; [exact A|]); cbn beta iota.
          * now apply ev_label.
          * unfold jumps. now rewrite Hl.
        + destruct A as (g1 & E1 & K1 & A). exists g1. split; [easy|]. split; [auto|]. intros x Hx.
          apply Hb1 in A. eapply ev_cons; [exact A|]. exact Hx.
      - pose proof Hc as Hc0. apply chk_PStar in Hc as (l & n & i & -> & Hb & Hni & Hm & Ha).
        pose proof (block_sound f IH1 b e n l i g Hb Hni Hm Ha) as A.
        assert (Hl : after l body = Some (SBlock (SSave n :: i) :: r)) by now apply after_suffix.
        destruct (mrun f e (gm g)) as [| |[|] s1]; auto.
        + apply ev_label. eapply ev_cons; [exact A|]. reflexivity.
        + destruct A as (g1 & E1 & K1 & A).
          pose proof (IH1 (PStar e) b k _ r body g1 Hc0 Hs Hn) as B. rewrite E1 in B.
          assert (Hx : forall x, ev body (SLabel l :: SBlock (SSave n :: i) :: r) g1 x ->
                                 ev body (SLabel l :: SBlock (SSave n :: i) :: r) g x).
          { intros x Hx. apply (proj1 (ev_label _ _ _ _ _)) in Hx. apply ev_label.
            eapply ev_cons; [exact A|]. unfold jumps. now rewrite Hl. }
          destruct (mrun f (PStar e) s1) as [| |[|] s2]; auto;
            destruct B as (g2 & E2 & K2 & B); exists g2; (split; [easy|]); (split; [eapply keeps_trans; eauto|]); auto.
        + destruct A as (g1 & E1 & K1 & A). exists g1. split; [easy|]. split; [easy|]. intros x Hx.
          apply ev_label. eapply ev_cons; [exact A|]. exact Hx.
      - apply chk_POpt in Hc as (l & n & i & -> & Hb & Hni & Hm & Ha).
        pose proof (block_sound f IH1 b e n l i g Hb Hni Hm Ha) as A.
        assert (Hl : after l body = Some r) by (apply after_suffix; auto; now apply suffix_cons in Hs).
        destruct (mrun f e (gm g)) as [| |[|] s1]; auto.
        + eapply ev_cons; [exact A|]. reflexivity.
        + destruct A as (g1 & E1 & K1 & A). exists g1. split; [easy|]. split; [easy|]. intros x Hx.
          eapply ev_cons; [exact A|]. unfold jumps. now rewrite Hl.
        + destruct A as (g1 & E1 & K1 & A). exists g1. split; [easy|]. split; [easy|]. intros x Hx.
          eapply ev_cons; [exact A|]. cbn beta iota. now apply ev_label.
      - apply chk_PNot in Hc as (n & i & -> & Hb & Hni & Hm & Ha).
        pose proof (block_sound f IH1 b e n k i g Hb Hni Hm Ha) as A.
        destruct (mrun f e (gm g)) as [| |[|] s1]; auto.
        + eapply ev_cons; [exact A|]. reflexivity.
        + destruct A as (g1 & E1 & K1 & A). exists g1. split; [easy|]. split; [easy|]. intros x Hx.
          eapply ev_cons; [exact A|]. exact Hx.
        + destruct A as (g1 & E1 & K1 & A). exists g1. split; [easy|]. split; [easy|]. intros x Hx.
          eapply ev_cons; [exact A|]. exact Hx.
      - apply chk_PCap in Hc as (n & i & -> & Hb & Hni & Hm & Ha).
        pose proof (capture_sound f IH1 b e n k TPegText i g Hb Hni (or_introl Hm) Ha) as A.
        destruct (mrun f e (gm g)) as [| |[|] s1]; auto.
        + eapply ev_cons; [exact A|]. reflexivity.
        + destruct A as (g1 & E1 & K1 & A). exists g1. split; [easy|]. split; [easy|]. intros x Hx.
          eapply ev_cons; [exact A|]. exact Hx.
        + destruct A as (g1 & E1 & K1 & A). exists g1. split; [easy|]. split; [easy|]. intros x Hx.
          eapply ev_cons; [exact A|]. exact Hx.
      - apply chk_PAct in Hc as (-> & Hlt). destruct (Hact n Hlt) as (cd & Hcd & Hok).
        destruct (act_sound n cd (gm g) Hok) as (g1 & E1 & A).
        exists (set_m (gm g1) g). split; [easy|]. split; [apply keeps_set, keeps_refl|]. intros x Hx.
        eapply ev_cons; [exact (does_call _ _ k g _ Hcd A)|]. exact Hx.
      - apply chk_PRule in Hc as ->. destruct (Hrule r0) as (cd & Hcd & Hok).
        pose proof (rule_sound f IH1 r0 cd (gm g) Hok) as A.
        destruct (mrun f (G r0) (gm g)) as [| |[|] s1]; auto.
        + eapply ev_cons; [exact (does_call _ _ k g _ Hcd A)|]. reflexivity.
        + destruct A as (g1 & E1 & A). exists (set_m (gm g1) g). split; [easy|].
          split; [apply keeps_set, keeps_refl|]. intros x Hx.
          eapply ev_cons; [exact (does_call _ _ k g _ Hcd A)|]. exact Hx.
        + destruct A as (g1 & E1 & A). exists (set_m (gm g1) g). split; [easy|].
          split; [apply keeps_set, keeps_refl|]. intros x Hx.
          eapply ev_cons; [exact (does_call _ _ k g _ Hcd A)|]. exact Hx.
      - apply chk_PSw in Hc as (c1 & cases & dflt & r' & -> & Hc1 & Hd).
        set (sw := SSwitch ((cs, c1) :: cases) dflt).
        assert (Hblk : forall y, does sw g y -> (forall l g', y = RJump l g' -> l = k) ->
                  does (SBlock [sw]) g y).
        { intros y Hy Hj. apply does_block. eapply ev_cons; [exact Hy|].
          destruct y; auto; [apply ev_nil|]. rewrite (Hj l g0 eq_refl). reflexivity. }
        destruct (nth_error buf (mpos (gm g))) as [x|] eqn:Hx.
        2: { eapply ev_cons; [apply Hblk; [apply does_simple with (r := RPanic); [|easy]; intros R; cbn; now rewrite Hx|easy]|]. reflexivity. }
        assert (Hres : match (if mem x cs then mrun f e1 (gm g) else mrun f e2 (gm g)) with
          | MFuel => True
          | MPanic => does sw g RPanic
          | MR true s => exists g', gm g' = s /\ keeps b g g' /\ does sw g (RFall g')
          | MR false s => exists g', gm g' = s /\ keeps b g g' /\ does sw g (RJump k g')
          end).
        { destruct (mem x cs) eqn:Hm.
          - pose proof (case_sound f IH1 b e1 k c1 g Hc1) as A.
            assert (Hsw : forall y, ev c1 c1 g y -> does sw g (match y with RBreak g' => RFall g' | r => r end)).
            { intros y Hy. apply (does_switch _ _ _ x _ Hx). cbn [pick]. now rewrite Hm. }
            destruct (mrun f e1 (gm g)) as [| |[|] s1]; auto.
            + exact (Hsw _ A).
            + destruct A as (g1 & E1 & K1 & A). exists g1. split; [easy|]. split; [easy|].
              destruct A as [A|A]; exact (Hsw _ A).
            + destruct A as (g1 & E1 & K1 & A). exists g1. split; [easy|]. split; [easy|]. exact (Hsw _ A).
          - pose proof (IH3 e2 b k cases dflt r' g x Hd Hx) as A.
            assert (Hsw : forall y, does (SSwitch cases dflt) g y -> does sw g y).
            { intros y (f' & E & N). exists f'. split; [|easy]. rewrite <- E. cbn [GoStmt.exec sw]. rewrite Hx.
              cbn [pick]. now rewrite Hm. }
            destruct (mrun f e2 (gm g)) as [| |[|] s1]; auto;
              destruct A as (g1 & E1 & K1 & A); exists g1; auto. }
        destruct (if mem x cs then mrun f e1 (gm g) else mrun f e2 (gm g)) as [| |[|] s1]; auto.
        + eapply ev_cons; [apply Hblk; [exact Hres|easy]|]. reflexivity.
        + destruct Hres as (g1 & E1 & K1 & A). exists g1. split; [easy|]. split; [easy|]. intros y Hy.
          eapply ev_cons; [apply Hblk; [exact A|easy]|]. exact Hy.
        + destruct Hres as (g1 & E1 & K1 & A). exists g1. split; [easy|]. split; [easy|]. intros y Hy.
          eapply ev_cons; [apply Hblk; [exact A|congruence]|]. exact Hy.
    Qed.

    Lemma P2_step : forall f, P1 f -> P2 f -> P1 (S f) -> P2 (S f).
    Proof.
      intros f IH1 IH2 IHS e n k c r body g Hc Hs Hn Hnn Hnk L1 L2.
      apply chk_MAlt in Hc as [(a1 & a2 & -> & Ha)|[Hc ->]].
      - exact (alts_sound f IH1 IH2 n a1 a2 k c r body g Ha Hs Hn Hnn Hnk L1 L2).
      - specialize (IHS e n k c [] body g Hc Hs Hn).
        destruct (mrun (S f) e (gm g)) as [| |[|] s]; auto; destruct IHS as (g1 & E1 & K1 & A);
          exists g1; (split; [easy|]); (split; [easy|]).
        + left. split; [|easy]. apply A, ev_nil.
        + apply A. unfold jumps. now rewrite Hnk.
    Qed.

    Lemma P3_step : forall f, P1 f -> P3 f -> P1 (S f) -> P3 (S f).
    Proof.
      intros f IH1 IH3 IHS e b k cases dflt r g x Hc Hx.
      apply chk_MCases in Hc as [[-> Hc]|(cs & a & d & c1 & cases' & -> & -> & Hc1 & Hd)].
      - pose proof (case_sound (S f) IHS b e k dflt g Hc) as A.
        assert (Hsw : forall y, ev dflt dflt g y -> does (SSwitch [] dflt) g (match y with RBreak g' => RFall g' | r => r end)).
        { intros y Hy. now apply (does_switch _ _ _ x _ Hx). }
        destruct (mrun (S f) e (gm g)) as [| |[|] s1]; auto.
        + exact (Hsw _ A).
        + destruct A as (g1 & E1 & K1 & A). exists g1. split; [easy|]. split; [easy|].
          destruct A as [A|A]; exact (Hsw _ A).
        + destruct A as (g1 & E1 & K1 & A). exists g1. split; [easy|]. split; [easy|]. exact (Hsw _ A).
      - cbn [Peg.mrun]. rewrite Hx. destruct (mem x cs) eqn:Hm.
        + pose proof (case_sound f IH1 b a k c1 g Hc1) as A.
          assert (Hsw : forall y, ev c1 c1 g y -> does (SSwitch ((cs, c1) :: cases') dflt) g (match y with RBreak g' => RFall g' | r => r end)).
          { intros y Hy. apply (does_switch _ _ _ x _ Hx). cbn [pick]. now rewrite Hm. }
          destruct (mrun f a (gm g)) as [| |[|] s1]; auto.
          * exact (Hsw _ A).
          * destruct A as (g1 & E1 & K1 & A). exists g1. split; [easy|]. split; [easy|].
            destruct A as [A|A]; exact (Hsw _ A).
          * destruct A as (g1 & E1 & K1 & A). exists g1. split; [easy|]. split; [easy|]. exact (Hsw _ A).
        + pose proof (IH3 d b k cases' dflt r g x Hd Hx) as A.
          assert (Hsw : forall y, does (SSwitch cases' dflt) g y -> does (SSwitch ((cs, c1) :: cases') dflt) g y).
          { intros y (f' & E & N). exists f'. split; [|easy]. rewrite <- E. cbn [GoStmt.exec]. rewrite Hx.
            cbn [pick]. now rewrite Hm. }
          destruct (mrun f d (gm g)) as [| |[|] s1]; auto;
            destruct A as (g1 & E1 & K1 & A); exists g1; auto.
    Qed.

    Lemma all_sound : forall f, P1 f /\ P2 f /\ P3 f.
    Proof.
      induction f as [|f (IH1 & IH2 & IH3)].
      - split; [|split]; red; intros; exact I.
      - assert (A : P1 (S f)) by now apply P1_step.
        split; [exact A|]. split; [now apply P2_step|now apply P3_step].
    Qed.

    (** The function of a rule does what the machine of Peg.v does for the rule. *)
    Lemma rule_runs : forall f r m, exists c, rule_code (TRule r) = Some c /\
      match mrun (S f) (PRule r) m with
      | MFuel => True
      | MPanic => ev c c (GS m [] []) RPanic
      | MR b s => exists g', gm g' = s /\ ev c c (GS m [] []) (RRet b g')
      end.
    Proof.
      intros f r m. destruct (Hrule r) as (c & Hc & Hok). exists c. split; [exact Hc|].
      pose proof (rule_sound f (proj1 (all_sound f)) r c m Hok) as A. cbn [Peg.mrun].
      destruct (mrun f (G r) m) as [| |[|] s]; exact A.
    Qed.
  End Sound.
End Run.
