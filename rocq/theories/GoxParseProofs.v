(** parse.go and tree.go do what Parse.v and Tree.v say. *)
From Verif Require Import Base Peg Node Tree Parse Ast MachineProofs GoStmt GoRules GoParse GoMain Build Gox GoxStep GoxMini GoxMiniLib GoxTreeProofs
  GoxParse.
Strategy expand [parse_machine]. Strategy 1000 [parse_fuel mrun].
Open Scope string_scope.

Lemma gox_methods_ok : forall lo is_print fmt_float F h name arg m s t, 3 < F ->
  assoc name (go_methods lo) = Some (arg, m) ->
  mini_call lo is_print fmt_float F (WMeth "Tree" (name_of name)) (if arg : bool then [WStr s] else []) (St _ h t) = as_said h (m s t).
Proof.
  intros lo is_print fmt_float F h name arg m s t HF H. unfold go_methods, assoc in H.
  repeat match type of H with (if streq ?x ?y then _ else _) = _ =>
    let E := fresh "E" in destruct (streq x y) eqn:E; [apply streq_eq in E; subst name; injection H as <- <-; clear -HF|clear E] end;
  [..|discriminate];
  match goal with |- context [name_of ?x] => let n := eval vm_compute in (name_of x) in change (name_of x) with n end; cbv beta iota;
  first [apply pop_logic_ok; lia | apply pop_not_ok; lia | apply pop_compare_ok; lia | apply pop_predicate_ok; lia | apply pop_between_ok; lia
        | apply pop_parentheses_ok; lia | apply pop_function_ok; lia | apply pop_array_ok; lia | apply pop_reference_ok; lia
        | apply add_mark_ok; lia | apply add_null_ok; lia | apply add_name_ok; lia | apply add_integer_ok; lia | apply add_boolean_ok; lia
        | apply add_string_ok; lia | apply add_operation_ok; [lia|cbn; tauto]].
Qed.

Lemma gox_cases : forall n name arg, case_of n go_actions = Some (name, arg) ->
  forall lo, exists m, assoc name (go_methods lo) = Some (arg, m).
Proof.
  intros n name arg H lo. unfold case_of, go_actions in H.
  repeat match type of H with (if Nat.eqb n ?y then _ else _) = _ => destruct (Nat.eqb n y); [injection H as <- <-; cbn; eexists; reflexivity|] end.
  discriminate.
Qed.

Section Peg.
  Variable lo : N -> N.
  Variable is_print : N -> bool.
  Variable fmt_float : Z -> list N.

  Lemma gox_execute_ok : forall F buf toks text t, 3 < F ->
    gox_execute lo is_print fmt_float F buf toks text t =
    match go_execute lo buf toks text t with Some t' => Ret tt t' | None => Panics end.
  Proof.
    intros F buf toks text t HF. revert text t. induction toks as [|tk toks IH]; intros text t; cbn [gox_execute go_execute]; [reflexivity|].
    destruct (trule tk) as [r| |n]; [apply IH| |].
    - destruct (slice_rng buf (tbegin tk) (tend tk)); [apply IH|reflexivity].
    - unfold go_action. destruct (case_of n go_actions) as [[name arg]|] eqn:E; [|apply IH].
      destruct (gox_cases _ _ _ E lo) as [m Em]. rewrite Em, Bool.eqb_reflx.
      rewrite (gox_methods_ok lo is_print fmt_float F [] name arg m text t HF Em).
      destruct (m text t) as [t'|]; cbn; [apply IH|reflexivity].
  Qed.

  Arguments go_machine : simpl never.
  Arguments go_execute : simpl never.
  Arguments gox_execute : simpl never.
  Arguments init_buffer : simpl never.
  Arguments peg_call : simpl never.
  Arguments streq : simpl never.
  Arguments tree0 : simpl never.
  Lemma peg_step : forall F f q k fn args s, peg_call lo is_print fmt_float F f q (S k) fn args s =
    call_with perr _ [("Parse", mini_Parse)] mini_consts mini_maps (fun _ => None) peg_field (fun _ _ _ _ => None)
      (peg_prim lo is_print fmt_float F f q) (peg_lit q) (fun _ _ => None) (peg_call lo is_print fmt_float F f q k) fn args s.
  Proof. reflexivity. Qed.
  Lemma zlen_cons : forall A (x : A) l, (zlen (x :: l) =? 0)%Z = false.
  Proof. intros. unfold zlen. apply Z.eqb_neq. cbn [length]. lia. Qed.
  Lemma zlen_nil : forall A, zlen (@nil A) = 0%Z.
  Proof. reflexivity. Qed.
  Ltac pgo := repeat first [step | progress cbn | rewrite streq_refl | rewrite zlen_nil
    | match goal with |- ?l = _ => let h := headof l in lazymatch h with peg_call _ _ _ _ _ _ _ _ _ _ => rewrite peg_step end end].
  Lemma gox_parse_ok : forall F f q, 3 < F -> gox_parse lo is_print fmt_float F f q = go_parse lo f q.
  Proof.
    intros F f q HF. unfold gox_parse, go_parse.
    assert (E : peg_call lo is_print fmt_float F f q 3 (WFun "Parse") [WStr q] (St _ [] ([], tree0)) = 
      match go_machine f q with
      | GoStmt.CFuel => NoFuel
      | GoStmt.CStuck => Stuck
      | GoStmt.CPanic => Panics
      | GoStmt.CRet false m => Ret (WList [WNil; WX (PESyntax (tbegin (mmax m)) (tend (mmax m)))]) (St _ [] ([], tree0))
      | GoStmt.CRet true m =>
          match go_execute lo (init_buffer q) (trim (mtree m) (mtidx m)) [] tree0 with
          | Some t => match tErrors t with
                      | e :: _ => Ret (WList [WNil; WX e]) (St _ [] (trim (mtree m) (mtidx m), t))
                      | [] => Ret (WList [pop_val t; WNil]) (St _ [] (trim (mtree m) (mtidx m), snd (pop t)))
                      end
          | None => Panics
          end
      end).
    { rewrite peg_step. cbn.
      pgo. destruct (go_machine f q) as [| | |[|] m]; [reflexivity..| |pgo; reflexivity]. pgo.
      rewrite gox_execute_ok by lia.
      destruct (go_execute lo (init_buffer q) (trim (mtree m) (mtidx m)) [] tree0) as [t|]; [|reflexivity]. pgo.
      destruct (tErrors t) as [|e es] eqn:Ee.
      - pgo. rewrite pop_ok by lia. pgo. reflexivity.
      - pgo. rewrite zlen_cons. pgo. rewrite Ee. pgo. reflexivity. }
    rewrite E. 
    destruct (go_machine f q) as [| | |[|] m]; try reflexivity.
    destruct (go_execute lo (init_buffer q) (trim (mtree m) (mtidx m)) [] tree0) as [t|]; [|reflexivity].
    destruct (tErrors t); [|reflexivity]. rewrite pop_val_node. now destruct (pop_val t).
  Qed.
  Lemma gox_parse_all : forall F q, 3 < F -> valid_runes q ->
    exists f0, forall f, f0 <= f -> gox_parse lo is_print fmt_float F f q = Some (parse lo q).
  Proof.
    intros F q HF Hq. destruct (go_parse_ok lo q Hq) as [f0 H]. exists f0. intros f Hf. rewrite gox_parse_ok by exact HF. now apply H.
  Qed.
  Lemma gox_parse_only : forall F f q r, 3 < F -> valid_runes q ->
    gox_parse lo is_print fmt_float F f q = Some r -> r = parse lo q.
  Proof. intros F f q r HF Hq H. rewrite gox_parse_ok in H by exact HF. now apply (go_parse_only lo q f r). Qed.
End Peg.
