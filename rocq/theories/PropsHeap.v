(** Property C64: the slices of tree.go share memory safely.  Statements only;
    proofs are in HeapProofs.v. *)
From Verif Require Import Base Peg Grammar Node Vocab Tree Parse Heap HeapSpec HeapProofs.
Strategy expand [parse_machine].
Strategy 1000 [parse_fuel mrun].

(** [holds m p n] (HeapSpec.v): [p] leads to the tree [n] in memory [m].
    [grow] is what append adds to the capacity of a full slice: any policy. *)
(** ** C64 *)
(** Parse with pointers and shared arrays returns the tree (or the error) of
    the model without them. *)
Theorem C64_parse : forall grow lo q,
  match parse lo q, hparse grow lo q with
  | Ok n, Ok (p, h) => holds (hMem h) p n
  | Err e, Err e' => e = e'
  | Panic, Panic => True
  | _, _ => False
  end.
Proof. exact hparse_rel. Qed.
(** The same for any sequence of actions, also those no query gives rise to. *)
Theorem C64_actions : forall grow lo acts,
  match steps_of (run_action lo) acts tree0, steps_of (hrun_action grow lo) acts htree0 with
  | Some t, Some h => (exists ps, elements (hStack h) h = Some ps /\ holds_list (hMem h) ps (tStack t)) /\
      hErrors h = tErrors t /\ hMarks h = tMarks t
  | None, None => True
  | _, _ => False
  end.
Proof. exact actions_rel. Qed.
(** No later action changes what is reached from a node on the stack, nor what
    is reached from a tree that Parse returned. *)
Theorem C64_stable : forall grow lo acts acts' t h ps i p n h',
  steps_of (run_action lo) acts tree0 = Some t -> steps_of (hrun_action grow lo) acts htree0 = Some h ->
  elements (hStack h) h = Some ps -> nth_error ps i = Some p -> nth_error (tStack t) i = Some n ->
  steps_of (hrun_action grow lo) acts' h = Some h' -> holds (hMem h') p n.
Proof. exact stable_rel. Qed.
Theorem C64_returned : forall grow lo q n p h acts h', parse lo q = Ok n -> hparse grow lo q = Ok (p, h) ->
  steps_of (hrun_action grow lo) acts h = Some h' -> holds (hMem h') p n.
Proof. exact parsed_stable. Qed.
(** A pointer stands for one tree only. *)
Theorem C64_one : forall m p n n', holds m p n -> holds m p n' -> n' = n.
Proof. exact holds_det. Qed.
Definition lo64 (c : N) : N := c.
Example C64_ex :
  match hparse (fun n => n) lo64 #"f([1,2], a.b) and not c in (3)" with
  | Ok (Some a, h) => a = 16 /\ hStack h = Sl 4 0 /\ length (mNodes (hMem h)) = 17 /\
      nth_error (mArrs (hMem h)) 5 = Some [Some 4; Some 5]
  | _ => False
  end.
Proof. vm_compute. repeat split. Qed.
Example C64_ex_stable : let acts := [(14, #"f"); (10, []); (25, #"1"); (25, #"2"); (11, [])] in let acts' := [(27, []); (27, [])] in
  exists t h h', steps_of (run_action lo64) acts tree0 = Some t /\ steps_of (hrun_action (fun _ => 3) lo64) acts htree0 = Some h /\
    steps_of (hrun_action (fun _ => 3) lo64) acts' h = Some h' /\ length (tStack t) = 2 /\ sArr (hStack h) = sArr (hStack h').
Proof. cbv zeta. do 3 eexists. do 3 (split; [vm_compute; reflexivity|]). split; reflexivity. Qed.

Print Assumptions C64_parse. Print Assumptions C64_actions. Print Assumptions C64_stable. Print Assumptions C64_returned. Print Assumptions C64_one.
