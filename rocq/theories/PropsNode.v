(** Statements about nodes, Build, String, Join and the visitor (C18, C20-C25, C49).
    [lo], [ip], [ff] stand for unicode.ToLower above 127, strconv.IsPrint and
    the fmt of a float64: arbitrary functions. *)
From Verif Require Import Base Node Vocab Tree Parse Syntax Blank NormProofs ParserFacts ParserFacts2 ParserMain
  Build BuildProofs Visitor VisitorProofs NodeFacts.

Definition lo1 (c : N) : N := c.
Definition ip1 (c : N) : bool := ((32 <=? c) && (c <=? 126))%N.
Definition ff1 (z : Z) : list N := print_int z.

(** ** C18: Build and String *)
Theorem C18_build : forall ip ff n, safe n -> exists t, build ip ff (Some n) = Some t.
Proof. exact safe_build_root. Qed.
Theorem C18_string : forall ff n, safe n -> exists t, node_string ff n = Some t.
Proof. exact safe_string. Qed.
Theorem C18_reachable : forall n m, reach n m -> safe n -> safe m.
Proof. exact safe_reach. Qed.
Example C18_build_ex : exists n, parse lo1 #"not f(a.b, [1,'x']) between 1 and (2,)" = Ok (Some n) /\
  build ip1 ff1 (Some n) = Some #"not (a.b,[1,""x""]) between 1 and [2]" /\
  node_string ff1 n = Some #"not(between(value(1),value([2])))".
Proof. eexists. split; [vm_compute; reflexivity|]. split; vm_compute; reflexivity. Qed.

(** ** C20 *)
(** For a query without -> path whose tree is printable (operators from the
    closed vocabulary, functions named like the root, strings that need no
    escape): building and parsing again gives the same tree. *)
Theorem C20_roundtrip : forall lo ip ff q e n, valid_runes q -> reads q e -> json_free e = true ->
  parse lo q = Ok (Some n) -> printable ip n ->
  exists t, build ip ff (Some n) = Some t /\ parse lo t = Ok (Some n).
Proof. exact build_parse. Qed.
Theorem C20_injective : forall lo ip ff q1 e1 n1 q2 e2 n2 t, valid_runes q1 -> valid_runes q2 -> reads q1 e1 -> reads q2 e2 ->
  json_free e1 = true -> json_free e2 = true -> parse lo q1 = Ok (Some n1) -> parse lo q2 = Ok (Some n2) ->
  printable ip n1 -> printable ip n2 -> build ip ff (Some n1) = Some t -> build ip ff (Some n2) = Some t -> n1 = n2.
Proof. exact build_inj. Qed.
(** Without the three conditions the claim is false. *)
Theorem C20_escape_refuted : forall lo ip ff s t, ~ plain ip s -> valid_runes t ->
  build ip ff (Some (mk_string s)) = Some t -> parse lo t <> Ok (Some (mk_string s)).
Proof. exact escaped_lost. Qed.
Theorem C20_nested_call_refuted : forall lo ip ff, exists q e n t, valid_runes q /\ reads q e /\ json_free e = true /\
  parse lo q = Ok (Some n) /\ build ip ff (Some n) = Some t /\ parse lo t <> Ok (Some n).
Proof. exact nested_call_lost. Qed.
Theorem C20_call_names_refuted : forall ip ff f g args op r,
  build ip ff (Some (mk_compare (Some (mk_function f args)) op r)) = build ip ff (Some (mk_compare (Some (mk_function g args)) op r)).
Proof. reflexivity. Qed.
Theorem C20_comment_refuted : forall lo ip ff, exists q n t, valid_runes q /\ parse lo q = Ok (Some n) /\
  build ip ff (Some n) = Some t /\ parse lo t <> Ok (Some n).
Proof. exact comment_op_lost. Qed.
Example C20_ex : exists n, parse lo1 #"(a.b  NOT
 LIKE 'x' Or b in (1,'y')) and not c between [1,2]" = Ok (Some n) /\
  build ip1 ff1 (Some n) = Some #"(a.b not like ""x"" || b in [1,""y""]) && not c between 1 and 2" /\
  parse lo1 #"(a.b not like ""x"" || b in [1,""y""]) && not c between 1 and 2" = Ok (Some n).
Proof. eexists. split; [vm_compute; reflexivity|]. split; vm_compute; reflexivity. Qed.
Example C20_ex_printable : exists n, parse lo1 #"a isnull or b = 'x'" = Ok (Some n) /\ printable ip1 n.
Proof.
  eexists. split; [vm_compute; reflexivity|]. unfold printable. cbn [nName].
  repeat (apply pu_node; [split; [|split]; cbn; intros; try discriminate; try (vm_compute; tauto); repeat constructor; vm_compute; congruence
    |unfold children; cbn [nArray nExpression nLeft nOp nRight nParams app]; repeat apply Forall_cons; try apply Forall_nil; intros k Hk; try discriminate; injection Hk as <-]).
Qed.
Example C20_ex_escape : build ip1 ff1 (Some (mk_string #"a\b")) = Some #"""a\\b""" /\ ~ plain ip1 #"a\b".
Proof. split; [reflexivity|]. intro H. inversion_clear H as [|? ? _ H']. inversion_clear H' as [|? ? K _]. destruct K as (_ & _ & K). now apply K. Qed.

(** ** C21 *)
Theorem C21_conjunction : forall lo x y l v vs n ns, Forall valid_runes (v :: vs) ->
  filter (fun v => negb (blank_entry v)) (x :: y :: l) = v :: vs ->
  Forall2 (member lo) (v :: vs) (n :: ns) ->
  parse lo (join (x :: y :: l)) = Ok (conj_tree (Some (mk_paren n)) (map (fun m => Some (mk_paren m)) ns)).
Proof.
  intros lo x y l v vs n ns Hv Hf HM. destruct (join_shape x y l) as (us & -> & ->). rewrite Hf.
  exact (join_parse lo v vs n ns Hv HM).
Qed.
Theorem C21_all_blank : forall x y l, forallb blank_entry (x :: y :: l) = true -> join (x :: y :: l) = [].
Proof.
  intros x y l H. destruct (join_shape x y l) as (us & Hus & ->).
  assert (K : us = []); [|now rewrite K]. rewrite Hus. clear Hus us. induction (x :: y :: l) as [|z k IH]; [reflexivity|].
  cbn [forallb filter] in *. apply andb_true_iff in H as [-> H]. exact (IH H).
Qed.
Theorem C21_single : forall x, join [x] = x.
Proof. reflexivity. Qed.
Theorem C21_none : join [] = [].
Proof. reflexivity. Qed.
(** -> paths break it: the operator of the conjunction is lost *)
Theorem C21_json_refuted : forall lo, exists l, Forall (fun q => exists n, parse lo q = Ok (Some n)) l /\ exists op l' r,
  parse lo (join l) = Ok (Some (mk_logic l' (Some op) r)) /\ nType op <> NOperation.
Proof. exact join_json. Qed.
Example C21_ex : join [#"a=1"; #"  "; #"b=2 or c"; #"d"] = #"(a=1) and (b=2 or c) and (d)" /\
  exists a b c, parse lo1 #"a=1" = Ok a /\ parse lo1 #"b=2 or c" = Ok b /\ parse lo1 #"d" = Ok c /\
  parse lo1 (join [#"a=1"; #"  "; #"b=2 or c"; #"d"]) =
    Ok (Some (mk_logic (Some (mk_logic (Some (mk_paren a)) (Some (mk_op #"and")) (Some (mk_paren b)))) (Some (mk_op #"and")) (Some (mk_paren c)))).
Proof.
  split; [reflexivity|]. do 3 eexists. split; [vm_compute; reflexivity|]. split; [vm_compute; reflexivity|].
  split; [vm_compute; reflexivity|]. vm_compute. reflexivity.
Qed.

(** ** C22 *)
(** Whatever is joined in front: an entry of the form  x) or (y  is no query,
    yet the whole parses and the first condition no longer guards y. *)
Theorem C22_escape_refuted : forall lo p np x nx y ny, valid_runes p -> valid_runes x -> valid_runes y ->
  member lo p np -> member lo x nx -> member lo y ny ->
  parse lo (join [p; x ++ #") or (" ++ y]) =
    Ok (Some (mk_logic (Some (mk_logic (Some (mk_paren np)) (Some (mk_op #"and")) (Some (mk_paren nx))))
                       (Some (mk_op #"or")) (Some (mk_paren ny)))).
Proof. exact join_escape. Qed.
Theorem C22_isolation_refuted : forall lo, exists l n, parse lo (join l) = Ok (Some n) /\
  exists q b e, In q l /\ parse lo q = Err (PESyntax b e).
Proof.
  intro lo. exists [#"owner=1"; #"a=1) or (b=2"]. eexists. split; [vm_compute; reflexivity|].
  exists #"a=1) or (b=2", 2, 3. split; [right; left; reflexivity|]. vm_compute. reflexivity.
Qed.

(** ** C23 *)
Theorem C23_classify : forall lo q n m, valid_runes q -> parse lo q = Ok (Some n) -> reach n m ->
  (isValue m = true <-> nType m = NValue) /\
  (isExpression m = true <-> ~ In (nType m) [NValue; NOperation; NIdentifier; NReference]).
Proof. intros lo q n m Hq Hp Hr. apply classify. eapply safe_reach; [exact Hr|]. eapply parse_safe; eassumption. Qed.
Theorem C23_value : forall lo q n m, valid_runes q -> parse lo q = Ok (Some n) -> reach n m -> nType m = NValue ->
  exists v, value m = Some v /\ go_value m v.
Proof. intros lo q n m Hq Hp Hr. apply safe_go. eapply safe_reach; [exact Hr|]. eapply parse_safe; eassumption. Qed.
Example C23_ex : exists n, parse lo1 #"[1,'a',null,true]" = Ok (Some n) /\ value n = Some (GArr [GInt 1; GStr #"a"; GNil; GBool true]).
Proof. eexists. split; vm_compute; reflexivity. Qed.

(** ** C24 *)
Theorem C24_dispatch : forall St Er bad (v : visitor St Er) n s h, nType n <> NFunction -> documented St Er v (nType n) = Some h ->
  visit bad v (Some n) s = match h with Some f => f (Some n) s | None => Panic end.
Proof. exact dispatch. Qed.
Theorem C24_function_refuted : forall St Er bad (v : visitor St Er) n s, nType n = NFunction ->
  visit bad v (Some n) s = match vBetween _ _ v with Some f => f (Some n) s | None => Panic end.
Proof. exact dispatch_function. Qed.
Theorem C24_reference_refuted : forall St Er bad (v : visitor St Er) n s, documented St Er v (nType n) = None ->
  visit bad v (Some n) s = Err (bad (nType n)).
Proof. exact dispatch_other. Qed.
Theorem C24_unused_hooks : forall St Er bad (v w : visitor St Er) n s, same_but_unused St Er v w -> visit bad v n s = visit bad w n s.
Proof. exact unused_hooks. Qed.
Definition tag (k : nat) : vfunc (list nat) ntype := fun _ s => Ok (k :: s).
Definition tags : visitor (list nat) ntype := Visitor _ _ (Some (tag 0)) (Some (tag 1)) (Some (tag 2)) (Some (tag 3)) (Some (tag 4))
  (Some (tag 5)) (Some (tag 6)) (Some (tag 7)) (Some (tag 8)) (Some (tag 9)) (Some (tag 10)).
Example C24_ex : visit (fun t => t) tags (Some (mk_logic None None None)) [] = Ok [1] /\
  visit (fun t => t) tags (Some (mk_function #"f" [])) [] = Ok [2] /\
  visit (fun t => t) tags (Some (mk_reference [#"a"; #"b"])) [] = Err NReference.
Proof. repeat split. Qed.

(** ** C25 *)
Theorem C25_init_refuted : forall St Er bad (v : visitor St Er) n s, used St Er v (nType n) = Some None ->
  visit bad (init bad v) (Some n) s = Panic.
Proof. exact init_useless. Qed.
Theorem C25_init_no_effect : forall St Er bad (v : visitor St Er), init bad v = v.
Proof. exact init_same. Qed.
(** What the discarded copy would do: the leaf hooks in order ... *)
Theorem C25_copy_defaults : forall St Er bad (fi fo : vfunc St Er) n l, walk (Some n) l -> forall s,
  visit bad (init_body St Er bad (leaf_visitor St Er fi fo)) (Some n) s = run_leaves St Er fi fo l s.
Proof.
  intros St Er bad fi fo n l Hw s. rewrite init_body_visit. exact (proj1 (local_default St Er bad fi fo) (Some n) l Hw s).
Qed.
(** ... but it panics on every function node *)
Theorem C25_copy_function_refuted : forall St Er bad (v : visitor St Er) n s, nType n = NFunction -> vBetween _ _ v = None -> nLeft n = None ->
  visit bad (init_body St Er bad v) (Some n) s = Panic.
Proof. exact local_function. Qed.
Definition collect : vfunc (list (list N)) ntype := fun n s => match n with Some m => Ok (s ++ [nName m ++ nOperation m]) | None => Panic end.
Example C25_ex : exists n, parse lo1 #"a=1 and b between 2 and 3" = Ok (Some n) /\
  visit (fun t => t) (leaf_visitor _ _ collect collect) (Some n) [] = Panic /\
  visit (fun t => t) (init_body _ _ (fun t => t) (leaf_visitor _ _ collect collect)) (Some n) [] = Ok [#"a"; #"eq"; #"and"; #"b"; #"between"].
Proof. eexists. split; [vm_compute; reflexivity|]. split; vm_compute; reflexivity. Qed.

(** ** C49 *)
Theorem C49_predicates_refuted : forall ff l op l' op', node_string ff (mk_predicate l op) = node_string ff (mk_predicate l' op').
Proof. reflexivity. Qed.
Theorem C49_between_refuted : forall ff l op l' op' a b, node_string ff (mk_between l op a b) = node_string ff (mk_between l' op' a b).
Proof. reflexivity. Qed.
Theorem C49_parsed_refuted : forall lo ff, exists q1 q2 n1 n2 t, parse lo q1 = Ok (Some n1) /\ parse lo q2 = Ok (Some n2) /\ n1 <> n2 /\
  node_string ff n1 = Some t /\ node_string ff n2 = Some t.
Proof.
  intros lo ff. exists #"a is null", #"b is not true". do 3 eexists. split; [vm_compute; reflexivity|]. split; [vm_compute; reflexivity|].
  split; [discriminate|]. split; vm_compute; reflexivity.
Qed.

Print Assumptions C18_build. Print Assumptions C18_string. Print Assumptions C18_reachable.
Print Assumptions C20_roundtrip. Print Assumptions C20_injective. Print Assumptions C20_escape_refuted.
Print Assumptions C20_nested_call_refuted. Print Assumptions C20_call_names_refuted. Print Assumptions C20_comment_refuted.
Print Assumptions C21_conjunction. Print Assumptions C21_all_blank. Print Assumptions C21_single. Print Assumptions C21_none.
Print Assumptions C21_json_refuted. Print Assumptions C22_escape_refuted. Print Assumptions C22_isolation_refuted.
Print Assumptions C23_classify. Print Assumptions C23_value.
Print Assumptions C24_dispatch. Print Assumptions C24_function_refuted. Print Assumptions C24_reference_refuted. Print Assumptions C24_unused_hooks.
Print Assumptions C25_init_refuted. Print Assumptions C25_init_no_effect. Print Assumptions C25_copy_defaults. Print Assumptions C25_copy_function_refuted.
Print Assumptions C49_predicates_refuted. Print Assumptions C49_between_refuted. Print Assumptions C49_parsed_refuted.
