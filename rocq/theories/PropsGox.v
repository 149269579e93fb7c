(** C101: tree.go and parse.go statement by statement. *)
From Verif Require Import Base Peg Node Tree Parse Ast MachineProofs PegSpec GoStmt GoRules GoParse Build Gox GoxMini GoxMiniLib
  GoxTreeProofs GoxParse GoxParseProofs.
Strategy expand [parse_machine]. Strategy 1000 [parse_fuel mrun].
Open Scope string_scope.

(** ** C101 *)

(** The methods of Tree that the grammar calls, on every tree and with every text: running
    the statements of tree.go ends with the tree that Tree.v has for the method, or panics
    where it has none; nothing else happens (no step that is not Go, no endless run, no
    change of a builder). *)
Theorem C101_methods : forall lo is_print fmt_float F h name arg m s t, 3 < F ->
  assoc name (go_methods lo) = Some (arg, m) ->
  mini_call lo is_print fmt_float F (WMeth "Tree" (name_of name)) (if arg : bool then [WStr s] else []) (St _ h t) =
    match m s t with Some t' => Ret WNil (St _ h t') | None => Panics end.
Proof. exact gox_methods_ok. Qed.

(** The methods these call. *)
Theorem C101_stack : forall lo is_print fmt_float F h t, 2 < F ->
  let mcall := mini_call lo is_print fmt_float F in
  (forall n, mcall (WMeth "Tree" "Push") [WNode n] (St _ h t) = Ret WNil (St _ h (push n t))) /\
  (exists v, mcall (WMeth "Tree" "Pop") [] (St _ h t) = Ret v (St _ h (snd (pop t))) /\ as_node _ v = Some (fst (pop t))) /\
  (forall e, mcall (WMeth "Tree" "AddError") [error_val e] (St _ h t) = Ret WNil (St _ h (add_error e t))) /\
  mcall (WMeth "Tree" "PopMark") [] (St _ h t) =
    match pop_mark t with Some (n, t') => Ret (WInt (Z.of_nat n)) (St _ h t') | None => Panics end /\
  mcall (WMeth "Tree" "popMarked") [] (St _ h t) =
    match pop_marked t with Some (l, t') => Ret (WList (map WNode l)) (St _ h t') | None => Panics end.
Proof.
  intros lo is_print fmt_float F h t HF mcall. repeat split; intros.
  - apply push_ok; [reflexivity|lia].
  - exists (pop_val t). split; [apply pop_ok; lia|apply pop_val_node].
  - apply add_error_ok; lia.
  - apply pop_mark_ok; lia.
  - apply pop_marked_ok; lia.
Qed.

(** NormalizeOperation, with the map of tree.go:23-41. *)
Theorem C101_normalize : forall lo is_print fmt_float F t s, 1 < F ->
  mini_call lo is_print fmt_float F (WFun "NormalizeOperation") [WStr t] s = Ret (WStr (normalize_operation lo t)) s.
Proof. exact normalize_ok. Qed.

(** Parse: parse.go, the generated file and tree.go together, all of them statement by
    statement, return for every query what Parse.v's [parse] says. *)
Theorem C101_parse : forall lo is_print fmt_float F q, 3 < F -> valid_runes q ->
  exists f0, forall f, f0 <= f -> gox_parse lo is_print fmt_float F f q = Some (parse lo q).
Proof. exact gox_parse_all. Qed.
Theorem C101_parse_only : forall lo is_print fmt_float F f q r, 3 < F -> valid_runes q ->
  gox_parse lo is_print fmt_float F f q = Some r -> r = parse lo q.
Proof. exact gox_parse_only. Qed.

Definition lo0 : N -> N := fun c => c.
Definition pr0 : N -> bool := fun _ => true.
Definition ff0 : Z -> list N := fun _ => [].
Example C101_example :
  gox_parse lo0 pr0 ff0 4 2000 #"a.b not in [1,2] and not (f(c) like 'x%' or d is null)" =
    Some (parse lo0 #"a.b not in [1,2] and not (f(c) like 'x%' or d is null)") /\
  gox_parse lo0 pr0 ff0 4 2000 #"a = 1 and" = Some (Err (PESyntax 6 9)) /\
  gox_parse lo0 pr0 ff0 4 2000 #"a = 99999999999999999999" = Some (Err (PERange #"99999999999999999999")) /\
  gox_parse lo0 pr0 ff0 2 2000 #"a = 1" = None.
Proof. repeat split; vm_compute; reflexivity. Qed.
(** PopFunction on a stack without a name, PopIdentifierReference with a nil node. *)
Example C101_methods_example :
  let t0 := add_null (add_mark (add_name #"x" tree0)) in
  let t1 := push None (add_mark tree0) in
  mini_call lo0 pr0 ff0 4 (WMeth "Tree" "PopFunction") [] (St _ [#"b"] t0) =
    Ret WNil (St _ [#"b"] (Tree [] [PEFunction] [1])) /\
  mini_call lo0 pr0 ff0 4 (WMeth "Tree" "PopArray") [] (St _ [] t0) =
    Ret WNil (St _ [] (match pop_array t0 with Some t => t | None => tree0 end)) /\
  mini_call lo0 pr0 ff0 4 (WMeth "Tree" "PopIdentifierReference") [] (St _ [] t1) = Panics /\
  mini_call lo0 pr0 ff0 4 (WMeth "Tree" "PopArray") [] (St _ [] tree0) = Panics.
Proof. repeat split; vm_compute; reflexivity. Qed.

Print Assumptions C101_methods. Print Assumptions C101_stack. Print Assumptions C101_normalize.
Print Assumptions C101_parse. Print Assumptions C101_parse_only.
