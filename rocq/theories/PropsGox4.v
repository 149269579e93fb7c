(** C104: the methods of entmq's MiniQLToEntQLBuilder statement by statement. *)
From Verif Require Import Base Peg Node Tree Parse EntQL Gox GoxNodeProofs GoxEntQL GoxEntQLLib GoxEntQLProofs GoxEntQLBuild.
Strategy expand [parse_machine]. Strategy 1000 [parse_fuel mrun].
Open Scope string_scope.

(** ** C104 *)

(** pop and push: the end of the slice is the top; pop of an empty stack panics. *)
Theorem C104_stack : forall lo F h q s x, 1 < F ->
  ent_call lo F (WMeth builder "pop") [] (St _ h (EW q [])) = Panics /\
  ent_call lo F (WMeth builder "pop") [] (St _ h (EW q (s ++ [x])%list)) = Ret (WX (VExpr x)) (St _ h (EW q s)) /\
  ent_call lo F (WMeth builder "push") [WX (VExpr x)] (St _ h (EW q s)) = Ret WNil (St _ h (EW q (s ++ [x])%list)).
Proof.
  intros lo F h q s x HF. split; [exact (pop_ok lo F h q [] HF)|]. split.
  - pose proof (pop_ok lo F h q (x :: rev s) HF) as P. unfold at_e in P. cbn [rev] in P. now rewrite rev_involutive in P.
  - pose proof (push_ok lo F h q (rev s) x HF) as P. unfold at_e in P. cbn [rev] in P. now rewrite rev_involutive in P.
Qed.

(** visit, with pop, push, entqlOpMap and Node.Value: for every node whatever its fields and
    every stack, running the statements returns nil where EntQL.v's [evisit] succeeds, its
    error where it fails, and panics where it does; the stack is as there, also after an
    error. *)
Theorem C104_visit : forall lo F n h q s, ndepth n + 3 < F ->
  ent_call lo F (WMeth builder "visit") [WNode (Some n)] (at_e h q s) =
    match evisit n s with
    | XOk s' => Ret WNil (at_e h q s')
    | XErr e s' => Ret (WX (VErr e)) (at_e h q s')
    | XPanic => Panics
    end.
Proof. intros lo F n h q s HF. exact (xvisit_ok lo (ndepth n) (Some n) F h q s (le_n _) HF). Qed.
Theorem C104_nil : forall lo F h q s, 3 < F ->
  ent_call lo F (WMeth builder "visit") [WNode None] (at_e h q s) = Panics.
Proof. intros lo F h q s HF. exact (xvisit_ok lo 0 None F h q s (le_n _) HF). Qed.

(** Build, on every query and every stack the builder may have been left with. *)
Theorem C104_build : forall lo F h q s, 5 < F -> (forall n, parse lo q = Ok (Some n) -> ndepth n + 4 < F) ->
  ent_call lo F (WMeth builder "Build") [] (at_e h q s) =
    match ebuild lo q s with
    | Ok (p, s') => Ret (WList [match p with Some x => WX (VExpr x) | None => WNil end; WNil]) (at_e h q s')
    | Err (e, s') => Ret (WList [WNil; WX (VErr e)]) (at_e h q s')
    | Panic => Panics
    end.
Proof.
  intros lo F h q s HF Hn. rewrite xbuild_ok by assumption. unfold bout.
  now destruct (ebuild lo q s) as [[[x|] s']|[e s']|].
Qed.

Definition c104_run (q : list N) (s : list eexpr) := ent_call (fun c => c) 30 (WMeth builder "Build") [] (St _ [] (EW q s)).
Example C104_example :
  c104_run #"a = 1 and b not between 2 and [3,null]" [] =
    Ret (WList [WX (VExpr (XBinary EAnd (XBinary EEQ (XField #"a") (XValue (GInt 1)))
          (XBinary EAnd (XBinary ELT (XField #"b") (XValue (GInt 2))) (XBinary EGT (XField #"b") (XValue (GArr [GInt 3; GNil])))))); WNil])
      (St _ [] (EW #"a = 1 and b not between 2 and [3,null]" [])) /\
  c104_run #"not (a = 1)" [XField #"z"] =
    Ret (WList [WX (VExpr (XBinary EEQ (XField #"a") (XValue (GInt 1)))); WNil]) (St _ [] (EW #"not (a = 1)" [XField #"z"])) /\
  c104_run #"" [XField #"z"] = Ret (WList [WNil; WNil]) (St _ [] (EW #"" [XField #"z"])) /\
  c104_run #"a like 'x'" [] = Ret (WList [WNil; WX (VErr (XOp #"like"))]) (St _ [] (EW #"a like 'x'" [])) /\
  c104_run #"not (a = 1 and b like 'x')" [] =
    Ret (WList [WNil; WX (VErr (XOp #"like"))]) (St _ [] (EW #"not (a = 1 and b like 'x')" [XUnary ENotOp (XBinary EEQ (XField #"a") (XValue (GInt 1)))])) /\
  c104_run #"a is null" [] = Panics /\
  c104_run #"f(a) = 1" [] = Panics.
Proof. repeat split; vm_compute; reflexivity. Qed.

Print Assumptions C104_stack. Print Assumptions C104_visit. Print Assumptions C104_nil. Print Assumptions C104_build.
