(** C102: node.go and join.go statement by statement. *)
From Verif Require Import Base Peg Node Tree Parse Build Gox GoxMini GoxMiniLib GoxNodeProofs GoxStringProofs GoxBuildProofs GoxJoinProofs.
Strategy expand [parse_machine]. Strategy 1000 [parse_fuel mrun].
Open Scope string_scope.

(** ** C102 *)

(** The methods of Node that read it, on every node whatever its fields: Value, IsValue,
    IsExpression.  [as_gval] reads an interpreter value as a Go value; [ndepth] is the height
    of the node. *)
Theorem C102_value : forall lo is_print fmt_float F n s, ndepth n + 1 < F ->
  match value n with
  | Some v => exists x, mini_call lo is_print fmt_float F (WFun "Node.Value") [WNode (Some n)] s = Ret x s /\ as_gval x = Some v
  | None => mini_call lo is_print fmt_float F (WFun "Node.Value") [WNode (Some n)] s = Panics
  end.
Proof.
  intros lo is_print fmt_float F n s HF. pose proof (value_ok lo is_print fmt_float n F s HF) as H.
  destruct (value n) as [v|]; [|exact H]. exists (gv v). split; [exact H|apply as_gval_gv].
Qed.
Theorem C102_is : forall lo is_print fmt_float F n s, 0 < F ->
  mini_call lo is_print fmt_float F (WFun "Node.IsValue") [WNode (Some n)] s = Ret (WBool (isValue n)) s /\
  mini_call lo is_print fmt_float F (WFun "Node.IsExpression") [WNode (Some n)] s = Ret (WBool (isExpression n)) s.
Proof. intros lo is_print fmt_float F n s HF. split; [now apply is_value_ok|now apply is_expression_ok]. Qed.

(** String: the text of Build.v's [node_string], or a panic where it has none.  The builders
    already in use are left as they are. *)
Theorem C102_string : forall lo is_print fmt_float F n h w, ndepth n + 2 < F ->
  exists g, mini_call lo is_print fmt_float F (WFun "Node.String") [WNode (Some n)] (St _ h w) =
    match node_string fmt_float n with
    | Some s => Ret (WStr s) (St _ (h ++ g)%list w)
    | None => Panics
    end.
Proof. intros lo is_print fmt_float F n h w. exact (str_ok lo is_print fmt_float n F h w). Qed.

(** Build, with its closure visit, buildValue and printPretty. *)
Theorem C102_build : forall lo is_print fmt_float F n h w, 2 * ndepth n + 4 < F ->
  mini_call lo is_print fmt_float F (WFun "Build") [WNode (Some n)] (St _ h w) =
    match build is_print fmt_float (Some n) with
    | Some s => Ret (WStr s) (St _ (h ++ [s])%list w)
    | None => Panics
    end.
Proof. exact build_ok. Qed.
Theorem C102_pretty : forall lo is_print fmt_float F t s, 0 < F ->
  mini_call lo is_print fmt_float F (WFun "printPretty") [WStr t] s = Ret (WStr (print_pretty t)) s.
Proof. exact pretty_ok. Qed.

(** Join, on every list of texts. *)
Theorem C102_join : forall lo is_print fmt_float F l h w, 2 < F -> exists g,
  mini_call lo is_print fmt_float F (WFun "Join") [WList (map WStr l)] (St _ h w) = Ret (WStr (join l)) (St _ (h ++ g)%list w).
Proof. intros lo is_print fmt_float F l h w HF. exists (join_heap l). now apply join_ok. Qed.

(** A nil node: each of them panics. *)
Theorem C102_nil : forall lo is_print fmt_float F f h w, 2 < F ->
  In f ["Node.Value"; "Node.IsValue"; "Node.IsExpression"; "Node.String"; "Build"] ->
  mini_call lo is_print fmt_float F (WFun f) [WNode None] (St _ h w) = Panics.
Proof. exact nil_ok. Qed.

Definition lo0 : N -> N := fun c => c.
Definition pr0 : N -> bool := fun _ => true.
Definition ff0 : Z -> list N := fun _ => [].
Definition q0 (q : list N) : option node := match parse lo0 q with Ok n => n | _ => None end.
Definition run0 (f : string) (p : option node) : option (list N) :=
  match mini_call lo0 pr0 ff0 30 (WFun f) [WNode p] (St _ [#"kept"] tree0) with Ret (WStr s) (St _ (k :: _) _) => if streq k #"kept" then Some s else None | _ => None end.
Example C102_example :
  run0 "Build" (q0 #"not ( a.b in [1, null, 'x y'] ) and c between 1 and 2") = Some #"not (a.b in [1,null,""x y""]) && c between 1 and 2" /\
  run0 "Build" (q0 #"f(1) = g(2,'x')") = Some #"(1) == (2,""x"")" /\
  run0 "Node.String" (q0 #"f(a.b, [1,2]) = true") = Some #"compare(function(f,reference(a.b),value([1 2])),operation(eq),value(true))".
Proof. repeat split; vm_compute; reflexivity. Qed.
(** Between with one bound, and an array with a nil: both panic; one with a nil Right does not. *)
Definition c102_between : node :=
  Node NBetween VNone 0 false [] 0 [] [] [] [] None (Some (node0 NReference)) (Some (node0 NOperation)) None [Some (node0 NReference)].
Definition c102_array : node := Node NValue VArray 0 false [] 0 [None] [] [] [] None None None None [].
Definition c102_isnull : node := Node NPredicates VNone 0 false [] 0 [] #"isnull" [] [] None (Some (node0 NReference)) (Some (node0 NOperation)) None [].
Example C102_panics :
  (forall f, In f ["Build"; "Node.String"] -> mini_call lo0 pr0 ff0 12 (WFun f) [WNode (Some c102_between)] (St _ [] tree0) = Panics) /\
  mini_call lo0 pr0 ff0 12 (WFun "Node.Value") [WNode (Some c102_array)] (St _ [] tree0) = Panics /\
  run0 "Build" (Some c102_isnull) = Some #" " /\ run0 "Node.String" (Some c102_isnull) = Some #"predicates(isnull)".
Proof. split; [intros f [<-|[<-|[]]]; vm_compute; reflexivity|repeat split; vm_compute; reflexivity]. Qed.
Example C102_join_example :
  let l := [#"a = 1"; #"  "; #""; #"b = 2 or c"] in
  mini_call lo0 pr0 ff0 4 (WFun "Join") [WList (map WStr l)] (St _ [] tree0) = Ret (WStr #"(a = 1) and (b = 2 or c)") (St _ [#"(a = 1) and (b = 2 or c)"] tree0).
Proof. vm_compute. reflexivity. Qed.

Print Assumptions C102_value. Print Assumptions C102_is. Print Assumptions C102_string. Print Assumptions C102_build.
Print Assumptions C102_pretty. Print Assumptions C102_join. Print Assumptions C102_nil.
