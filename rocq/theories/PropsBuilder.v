(** Property C96: one builder of entql used for many queries.  Statements only;
    proofs are in BuilderFacts.v. *)
From Verif Require Import Base Peg Node Vocab Tree Parse Syntax ParserMain Build Gorm GormSpec GormSample EntQL EntQLSpec Builder BuilderSpec BuilderFacts.
Strategy expand [parse_machine].
Strategy 1000 [parse_fuel mrun].

(** ** C96 *)
(** Each call gives what a new builder gives, whatever came before; what is left of
    failed queries piles up, and the message is logged by that. *)
Theorem C96_session : forall lo qs s, Forall (fun q => valid_runes q /\ steady lo q) qs ->
  snd (builds lo qs s) = concat (rev (map (leftover lo) qs)) ++ s /\ length (fst (builds lo qs s)) = length qs /\
  forall i q, nth_error qs i = Some q -> nth_error (fst (builds lo qs s)) i =
    Some (alone lo q, message lo q (length (concat (map (leftover lo) (firstn i qs))) + length s)).
Proof. exact session. Qed.
(** Which queries without function calls this is about (see also C37_nil for those
    that give nil). *)
Theorem C96_steady : forall lo q n, valid_runes q -> parse lo q = Ok (Some n) -> calls n = 0 ->
  steady lo q <-> forall e, fate_of n <> Wrong e None true.
Proof. exact steady_iff. Qed.
(** The others: a new builder panics, a used one gives an error. *)
Theorem C96_rescued_refuted : forall lo q n e x s, valid_runes q -> parse lo q = Ok (Some n) -> calls n = 0 -> fate_of n = Wrong e None true -> is_predicate x ->
  alone lo q = Panicked true /\ exists u, rbuild lo q (x :: s) = (Failed e, None, u :: s).
Proof. exact rescued. Qed.
(** A new builder never logs. *)
Theorem C96_new : forall lo q, valid_runes q -> snd (fst (rbuild lo q [])) = None.
Proof. exact new_silent. Qed.
(** What one call adds is bounded by the query, what many add is not bounded. *)
Theorem C96_size : forall lo q s, valid_runes q -> length (snd (rbuild lo q s)) <= length s + 2 * length q.
Proof. exact leftover_size. Qed.
Theorem C96_bounded_refuted : forall lo q e x k, valid_runes q -> alone lo q = Failed e -> leftover lo q = [x] -> forall s,
  builds lo (repeat q k) s = (repeat (Failed e, None) k, repeat x k ++ s).
Proof. exact grows. Qed.
(** It is the model of C37 and C51, with the message and the stack of a panic. *)
Theorem C96_same : forall lo q s, ebuild lo q s =
  match rbuild lo q s with (Returned p, _, s') => Ok (p, s') | (Failed e, _, s') => Err (e, s') | (Panicked _, _, _) => Panic end.
Proof. exact rbuild_ebuild. Qed.

Example C96_ex : let a1 := XBinary EEQ (XField #"a") (XValue (GInt 1)) in
  let q := #"a = 1 and b like ""x""" in
  alone lo2 q = Failed (XOp #"like") /\ leftover lo2 q = [a1] /\ alone lo2 #"a" = Panicked false /\ leftover lo2 #"a = 1 and b is null" = [a1] /\
  Forall (fun q => valid_runes q /\ steady lo2 q) [q; #"a = 1"; #""; q; #"a"; #"a = 1"; #"a = 1 and b is null"; #"a = 1"] /\
  builds lo2 [q; #"a = 1"; #""; q; #"a"; #"a = 1"; #"a = 1 and b is null"; #"a = 1"] [] =
    ([(Failed (XOp #"like"), None); (Returned (Some a1), None); (Returned None, None); (Failed (XOp #"like"), None); (Panicked false, None);
      (Returned (Some a1), Some 2); (Panicked false, None); (Returned (Some a1), Some 3)], [a1; a1; a1]).
Proof.
  intros a1 q.
  split; [vm_compute; reflexivity|]. split; [vm_compute; reflexivity|]. split; [vm_compute; reflexivity|]. split; [vm_compute; reflexivity|].
  split; [|vm_compute; reflexivity].
  assert (S : forall p r, valid_runes p -> alone lo2 p = r -> r <> Panicked true -> (r = Returned None -> p = []) -> valid_runes p /\ steady lo2 p)
    by (intros p r H <- H1 H2; now repeat split).
  repeat (apply Forall_cons; [eapply S; [apply valid_runesb_spec; reflexivity|vm_compute; reflexivity|discriminate|first [discriminate|reflexivity]]|]). constructor.
Qed.
Example C96_rescued_ex : let a1 := XBinary EEQ (XField #"a") (XValue (GInt 1)) in
  (exists n, parse lo2 #"not (c.d = 2)" = Ok (Some n) /\ calls n = 0 /\ fate_of n = Wrong (XType NReference) None true) /\
  rbuild lo2 #"not (c.d = 2)" [] = (Panicked true, None, []) /\
  rbuild lo2 #"not (c.d = 2)" [a1] = (Failed (XType NReference), None, [XUnary ENotOp a1]).
Proof. cbv zeta. split; [eexists; split; [vm_compute; reflexivity|split; reflexivity]|split; vm_compute; reflexivity]. Qed.

Print Assumptions C96_session. Print Assumptions C96_steady. Print Assumptions C96_rescued_refuted. Print Assumptions C96_new.
Print Assumptions C96_size. Print Assumptions C96_bounded_refuted. Print Assumptions C96_same.
