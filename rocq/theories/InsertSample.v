(** Samples for C85: a template, queries for it, and what happens without the
    conditions. *)
From Verif Require Import Base Peg Grammar Node Vocab Tree Parse Syntax ParseProofs ParserMain Unique Reader InsertSpec Insert InsertFacts.

Fixpoint starts (x s : list N) : bool :=
  match x, s with [], _ => true | c :: x', d :: s' => (c =? d)%N && starts x' s' | _, [] => false end.
Fixpoint count (x s : list N) : nat := (if starts x s then 1 else 0) + match s with [] => 0 | _ :: t => count x t end.
Lemma starts_app : forall x v, starts x (x ++ v) = true.
Proof. induction x as [|c x IH]; intros v; [reflexivity|]. cbn. now rewrite N.eqb_refl, IH. Qed.
Lemma starts_split : forall x s, starts x s = true -> exists v, s = x ++ v.
Proof.
  induction x as [|c x IH]; intros [|d s] H; cbn in H; try discriminate; try (now eexists).
  apply andb_true_iff in H as [E%N.eqb_eq H]. destruct (IH s H) as (v & ->). subst. now exists v.
Qed.
Lemma count_app : forall x u v, 1 <= count x (u ++ x ++ v).
Proof.
  induction u as [|c u IH]; intros v; cbn [app].
  - pose proof (starts_app x v) as H. destruct (x ++ v); cbn [count]; rewrite H; lia.
  - cbn [count]. specialize (IH v). lia.
Qed.
Lemma count_once : forall x s, count x s = 1 -> once x s.
Proof.
  induction s as [|c t IH]; cbn [count]; intros H; destruct (starts x _) eqn:S.
  - exists []. split; [now apply starts_split|]. intros u' v' E. destruct u'; [reflexivity|discriminate E].
  - discriminate H.
  - exists []. split; [now apply starts_split|]. intros [|d u'] v' E; [reflexivity|]. injection E as _ ->.
    pose proof (count_app x u' v'). lia.
  - destruct (IH H) as (u & (v & ->) & U). exists (c :: u). split; [now exists v|]. intros [|d u'] v' E.
    + exfalso. cbn [app] in E. rewrite E, starts_app in S. discriminate.
    + injection E as -> E. f_equal. exact (U u' v' E).
Qed.

(** a = 1 and (u) and not v > 2 *)
Definition h8 : list (list N) := [#"a = 1 and ("; #") and not "].
Definition b8 : list N := #" > 2".
Definition xs8 : list (list N) := [#"u"; #"v"].
Definition a1 : expr := ECmp (EName #"a") #"=" (EVal (VLit (LInt #"1"))).
Definition v2 : expr := ECmp (EName #"v") #">" (EVal (VLit (LInt #"2"))).
Definition e8 : expr := ELogic (ELogic a1 #"and" (EParen (EName #"u"))) #"and" (ENot v2).
(** two queries for u, a query in parentheses and a function for v *)
Definition q8 : list N := #"b = 2 or c = 3 -- both" ++ [10%N].
Definition qs8 : list (list N) := [q8; #" date(c)"].
Definition d8 : expr := ELogic (ECmp (EName #"b") #"=" (EVal (VLit (LInt #"2")))) #"or" (ECmp (EName #"c") #"=" (EVal (VLit (LInt #"3")))).
Definition ds8 : list expr := [d8; ECall #"date" [EName #"c"]].
Ltac named_once := repeat (apply Forall_cons; [split; [apply count_once; vm_compute; reflexivity|cbn; tauto]|]); apply Forall_nil.
Lemma accepts8 : accepts h8 b8 xs8 e8 ds8.
Proof.
  constructor; try reflexivity.
  - apply read_of_reads. vm_compute. reflexivity.
  - named_once.
  - apply Forall_cons; [|apply Forall_cons; [reflexivity|apply Forall_nil]]. cbn. intros [E|[E|[]]]; discriminate E.
  - now left.
Qed.
Lemma reads8 : Forall2 reads qs8 ds8.
Proof. repeat constructor; apply read_of_reads; vm_compute; reflexivity. Qed.

(** The conditions cannot be dropped. *)
Lemma differs : forall q e e', read_of q = Some e -> e <> e' -> ~ reads q e'.
Proof. intros q e e' H N R. apply N. exact (reads_unique q e e' (read_of_reads _ _ H) R). Qed.
Lemma operand_refuted : exists h b xs e ds qs, length h = length xs /\ length ds = length xs /\ reads (insert h b xs) e /\
  Forall (fun x => once x (insert h b xs) /\ In x (mentions e)) xs /\ bracketless e = true /\ Forall2 reads qs ds /\
  ~ reads (insert h b qs) (swap (combine xs ds) e).
Proof.
  exists [#"a = "], [], [#"x"], (ECmp (EName #"a") #"=" (EName #"x")), [ELogic (EName #"b") #"or" (EName #"c")], [#"b or c"].
  repeat split; try reflexivity.
  - apply read_of_reads. vm_compute. reflexivity.
  - named_once.
  - repeat constructor. apply read_of_reads. vm_compute. reflexivity.
  - eapply differs; [vm_compute; reflexivity|discriminate].
Qed.
Lemma clash_refuted : exists h b xs e ds qs, length h = length xs /\ length ds = length xs /\ reads (insert h b xs) e /\
  Forall (fun x => once x (insert h b xs) /\ In x (mentions e)) xs /\ Forall (fun p => In (fst p) (operands_of e) -> level (snd p) = 0) (combine xs ds) /\ Forall2 reads qs ds /\
  ~ reads (insert h b qs) (swap (combine xs ds) e).
Proof.
  exists [#"a between [1, 2] and ("], #")", [#"x"],
    (ELogic (EBetween (EName #"a") #"between" true (VLit (LInt #"1")) (VLit (LInt #"2"))) #"and" (EParen (EName #"x"))), [EVal (VLit (LInt #"5"))], [#"5"].
  repeat split; try reflexivity.
  - apply read_of_reads. vm_compute. reflexivity.
  - named_once.
  - repeat constructor.
  - repeat constructor. apply read_of_reads. vm_compute. reflexivity.
  - eapply differs; [vm_compute; reflexivity|discriminate].
Qed.
(** A text that is no query, put into a template: whatever the guard [p] says,
    [y] alone is enough. *)
Lemma foreign_refuted : exists h b x e q e', accepts h b [x] e [EName x] /\ (forall d, ~ reads q d) /\ reads (insert h b [q]) e' /\
  forall d, e' <> swap [(x, d)] e.
Proof.
  exists [#"a = 1 and ("], #")", #"x", (ELogic a1 #"and" (EParen (EName #"x"))), #"b) or (c",
    (ELogic (ELogic a1 #"and" (EParen (EName #"b"))) #"or" (EParen (EName #"c"))). split; [|split; [|split]].
  - constructor; try reflexivity.
    + apply read_of_reads. vm_compute. reflexivity.
    + named_once.
    + repeat constructor.
    + now left.
  - apply read_of_none. vm_compute. reflexivity.
  - apply read_of_reads. vm_compute. reflexivity.
  - intros d. discriminate.
Qed.
