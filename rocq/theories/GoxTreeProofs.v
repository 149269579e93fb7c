(** The statements of tree.go do what Tree.v says. *)
From Verif Require Import Base Node Tree Build TreeFacts Gox GoxStep GoxMini GoxMiniLib.
Open Scope string_scope.

Lemma as_nodes_map : forall l, as_nodes perr (map WNode l) = Some l.
Proof. induction l as [|n l IH]; cbn; [reflexivity|now rewrite IH]. Qed.
Lemma as_nodes_app : forall a b, as_nodes perr (a ++ b)%list =
  match as_nodes perr a, as_nodes perr b with Some x, Some y => Some (x ++ y)%list | _, _ => None end.
Proof.
  induction a as [|v a IH]; intros b; cbn [app as_nodes]; [now destruct (as_nodes _ b)|].
  rewrite IH. destruct (as_node _ v); [|reflexivity]. destruct (as_nodes _ a); [|reflexivity]. now destruct (as_nodes _ b).
Qed.
Lemma as_nodes_snoc : forall l v n, as_node _ v = Some n -> as_nodes perr (map WNode l ++ [v])%list = Some (l ++ [n])%list.
Proof. intros l v n H. rewrite as_nodes_app, as_nodes_map. cbn. now rewrite H. Qed.
Lemma as_errors_map : forall l, as_errors (map WX l) = Some l.
Proof. induction l as [|n l IH]; cbn; [reflexivity|now rewrite IH]. Qed.
Lemma as_errors_snoc : forall l e, as_errors (map WX l ++ [WX e])%list = Some (l ++ [e])%list.
Proof. intros l e. change [WX e] with (map (@WX perr) [e]). now rewrite <- map_app, as_errors_map. Qed.
Lemma as_marks_map : forall l, as_marks (map (fun n => WInt (Z.of_nat n)) l) = Some l.
Proof.
  induction l as [|n l IH]; cbn [map as_marks]; [reflexivity|].
  destruct (Z.ltb_spec (Z.of_nat n) 0); [lia|]. now rewrite IH, Nat2Z.id.
Qed.
Lemma as_strs_map : forall l, as_strs perr (map WStr l) = Some l.
Proof. induction l as [|n l IH]; cbn; [reflexivity|now rewrite IH]. Qed.
Lemma zlen_map : forall A B (f : A -> B) l, zlen (map f l) = zlen l.
Proof. intros. unfold zlen. now rewrite map_length. Qed.

Lemma zlen_snoc : forall A (m : list A) x, (zlen (m ++ [x])%list - 1)%Z = zlen m.
Proof. intros. unfold zlen. rewrite app_length. cbn. lia. Qed.
Lemma index_snoc : forall A (f : A -> mval) m x, index perr (map f (m ++ [x])%list) (zlen m) = Some (f x).
Proof.
  intros. unfold index, zlen. destruct (Z.ltb_spec (Z.of_nat (length m)) 0); [lia|]. rewrite Nat2Z.id.
  rewrite map_app, nth_error_app2 by (rewrite map_length; lia). now rewrite map_length, Nat.sub_diag.
Qed.
Lemma slice_ok : forall A (f : A -> mval) l lo hi, lo <= hi -> hi <= length l ->
  slice perr (map f l) (Z.of_nat lo) (Z.of_nat hi) = Some (map f (skipn lo (firstn hi l))).
Proof.
  intros A f l lo hi H1 H2. unfold slice. rewrite map_length.
  replace ((0 <=? Z.of_nat lo) && (Z.of_nat lo <=? Z.of_nat hi) && (Z.of_nat hi <=? Z.of_nat (length l)))%Z with true
    by (symmetry; apply andb_true_intro; split; [apply andb_true_intro; split|]; apply Z.leb_le; lia).
  now rewrite !Nat2Z.id, firstn_map, skipn_map.
Qed.
Lemma slice_snoc : forall A (f : A -> mval) m x, slice perr (map f (m ++ [x])%list) 0 (zlen m) = Some (map f m).
Proof.
  intros. change 0%Z with (Z.of_nat 0). unfold zlen. rewrite slice_ok by (rewrite ?app_length; cbn; lia).
  cbn [skipn]. now rewrite firstn_app, Nat.sub_diag, firstn_all, app_nil_r.
Qed.
Lemma snoc_cases : forall A (l : list A), l = [] \/ exists m x, l = (m ++ [x])%list.
Proof. intros A l. destruct l as [|a l] using rev_ind; [now left|right; eauto]. Qed.
Lemma zlen_neg : forall A (l : list A), (zlen l <? 0)%Z = false.
Proof. intros. unfold zlen. destruct (Z.ltb_spec (Z.of_nat (length l)) 0); [lia|reflexivity]. Qed.

#[global] Arguments mini_call : simpl never.
#[global] Arguments trim_space : simpl never.
#[global] Arguments collapse : simpl never.
#[global] Arguments atoi : simpl never.
#[global] Arguments parse_bool : simpl never.
#[global] Arguments zlen : simpl never.
#[global] Arguments index : simpl never.
#[global] Arguments slice : simpl never.
#[global] Arguments Z.sub : simpl never.
#[global] Arguments Z.ltb : simpl never.
#[global] Arguments Z.to_nat : simpl never.
#[global] Arguments pop : simpl never.
#[global] Arguments push : simpl never.

Section Tree.
  Variable lo : N -> N.
  Variable is_print : N -> bool.
  Variable fmt_float : Z -> list N.
  Notation mcall := (mini_call lo is_print fmt_float).

  Lemma mini_step : forall k f args s, mcall (S k) f args s =
    call_with perr tree mini_table mini_consts mini_maps (fun _ => None) mini_field mini_setfield
      (mini_prim lo is_print fmt_float) (fun _ _ => None) (fun _ _ => None) (mcall k) f args s.
  Proof. reflexivity. Qed.
  Ltac enter := intros; match goal with |- mini_call _ _ _ ?F _ _ _ = _ => destruct F as [|F]; [lia|]; rewrite mini_step; cbn; repeat first [step | progress cbn] end.

  (** library functions *)
  Lemma len_ok : forall F l s, 0 < F -> mcall F (WFun "len") [WList l] s = Ret (WInt (zlen l)) s.
  Proof. enter. reflexivity. Qed.
  Lemma append_ok : forall F l v s, 0 < F -> mcall F (WFun "append") [WList l; v] s = Ret (WList (l ++ [v])%list) s.
  Proof. enter. reflexivity. Qed.
  Lemma make_ok : forall F z s, 0 < F -> mcall F (WFun "make []*Node") [WInt z] s =
    if (z <? 0)%Z then Panics else Ret (WList (repeat (WNode None) (Z.to_nat z))) s.
  Proof. enter. reflexivity. Qed.
  Lemma makes_ok : forall F A (l : list A) s, 0 < F -> mcall F (WFun "make []string") [WInt 0; WInt (zlen l)] s = Ret (WList []) s.
  Proof. enter. unfold zlen. destruct (Z.ltb_spec (Z.of_nat (length l)) 0); [lia|reflexivity]. Qed.
  Lemma trim_ok : forall F t s, 0 < F -> mcall F (WFun "strings.TrimSpace") [WStr t] s = Ret (WStr (trim_space t)) s.
  Proof. enter. reflexivity. Qed.
  Lemma lower_ok : forall F t s, 0 < F -> mcall F (WFun "strings.ToLower") [WStr t] s = Ret (WStr (map (to_lower_rune lo) t)) s.
  Proof. enter. reflexivity. Qed.
  Lemma replace_ok : forall F t s, 0 < F ->
    mcall F (WFun "regSpace.ReplaceAllString") [WStr t; WStr #" "] s = Ret (WStr (collapse false t)) s.
  Proof. enter. reflexivity. Qed.
  Lemma atoi_ok : forall F t s, 0 < F ->
    mcall F (WFun "strconv.Atoi") [WStr t] s = Ret (WList [WInt (fst (atoi t)); error_val (snd (atoi t))]) s.
  Proof. enter. reflexivity. Qed.
  Lemma parse_bool_ok : forall F t s, 0 < F ->
    mcall F (WFun "strconv.ParseBool") [WStr t] s = Ret (WList [WBool (fst (parse_bool t)); error_val (snd (parse_bool t))]) s.
  Proof. enter. reflexivity. Qed.
  Lemma errorf_ok : forall F a b s, 0 < F ->
    mcall F (WFun "fmt.Errorf") [WStr #"invalid function exp %q %q"; a; b] s = Ret (WX PEFunction) s.
  Proof. enter. reflexivity. Qed.
  Hint Resolve len_ok append_ok make_ok makes_ok trim_ok lower_ok replace_ok atoi_ok parse_bool_ok errorf_ok : gox.
  Ltac go := repeat first [step | progress cbn | match goal with |- ?l = _ => let h := headof l in lazymatch h with mini_call _ _ _ _ _ _ _ => known h end end].

  (** NormalizeOperation *)
  Lemma normalize_ok : forall F t s, 1 < F ->
    mcall F (WFun "NormalizeOperation") [WStr t] s = Ret (WStr (normalize_operation lo t)) s.
  Proof.
    enter. go. unfold normalize_operation. remember (collapse false (map (to_lower_rune lo) (trim_space t))) as k.
    unfold normalize_map. cbn.
    repeat match goal with |- context [streq k ?x] => destruct (streq k x); [reflexivity|] end. reflexivity.
  Qed.

  (** Push, Pop *)
  Lemma push_ok : forall F h t v n, as_node _ v = Some n -> 1 < F ->
    mcall F (WMeth "Tree" "Push") [v] (St _ h t) = Ret WNil (St _ h (push n t)).
  Proof. enter. go. rewrite (as_nodes_snoc _ _ _ H). reflexivity. Qed.
  Definition pop_val (t : tree) : mval := match tStack t with [] => WNil | _ => WNode (fst (pop t)) end.
  Lemma pop_val_node : forall t, as_node _ (pop_val t) = Some (fst (pop t)).
  Proof. intros t. unfold pop_val, pop. now destruct (tStack t). Qed.
  Lemma pop_ok : forall F h t, 1 < F ->
    mcall F (WMeth "Tree" "Pop") [] (St _ h t) = Ret (pop_val t) (St _ h (snd (pop t))).
  Proof.
    enter. go. rewrite zlen_map. destruct t as [l es ms]. cbn.
    destruct (snoc_cases _ l) as [->|(m & x & ->)]; [reflexivity|].
    rewrite zlen_snoc, zlen_neg. go. rewrite index_snoc. go. rewrite slice_snoc. go. rewrite as_nodes_map. go.
    unfold pop_val, pop. cbn. rewrite last_last, removelast_last. now destruct m.
  Qed.
  Hint Resolve normalize_ok pop_ok : gox.

  (** AddError, AddMark, PopMark, popMarked *)
  Lemma add_error_ok : forall F h t e, 1 < F ->
    mcall F (WMeth "Tree" "AddError") [error_val e] (St _ h t) = Ret WNil (St _ h (add_error e t)).
  Proof. enter. destruct e as [e|]; go; [|reflexivity]. rewrite as_errors_snoc. reflexivity. Qed.
  Lemma add_error_x : forall F h t e, 1 < F ->
    mcall F (WMeth "Tree" "AddError") [WX e] (St _ h t) = Ret WNil (St _ h (add_error (Some e) t)).
  Proof. intros F h t e. exact (add_error_ok F h t (Some e)). Qed.
  Lemma add_mark_ok : forall F h t, 1 < F ->
    mcall F (WMeth "Tree" "AddMark") [] (St _ h t) = Ret WNil (St _ h (add_mark t)).
  Proof.
    enter. go. rewrite zlen_map. unfold zlen. change [WInt (Z.of_nat (length (tStack t)))] with (map (fun n => @WInt perr (Z.of_nat n)) [length (tStack t)]).
    rewrite <- map_app, as_marks_map. reflexivity.
  Qed.
  Lemma pop_mark_ok : forall F h t, 1 < F ->
    mcall F (WMeth "Tree" "PopMark") [] (St _ h t) =
      match pop_mark t with Some (n, t') => Ret (WInt (Z.of_nat n)) (St _ h t') | None => Panics end.
  Proof.
    enter. go. rewrite zlen_map. destruct t as [l es ms]. cbn.
    destruct (snoc_cases _ ms) as [->|(m & x & ->)]; [reflexivity|].
    rewrite zlen_snoc, index_snoc. go. go. rewrite zlen_map, zlen_snoc, slice_snoc. go. rewrite as_marks_map. go.
    unfold pop_mark. cbn. rewrite last_last, removelast_last. now destruct m.
  Qed.
  Lemma pop_marked_ok : forall F h t, 2 < F ->
    mcall F (WMeth "Tree" "popMarked") [] (St _ h t) =
      match pop_marked t with Some (l, t') => Ret (WList (map WNode l)) (St _ h t') | None => Panics end.
  Proof.
    enter. rewrite pop_mark_ok by lia. unfold pop_marked. destruct (pop_mark t) as [[n t1]|]; go; [|reflexivity].
    go. rewrite zlen_map.
    destruct (Nat.leb_spec n (length (tStack t1))) as [Hn|Hn]; unfold zlen.
    - destruct (Z.ltb_spec (Z.of_nat (length (tStack t1)) - Z.of_nat n) 0); [lia|]. go. go.
      rewrite zlen_map. unfold zlen. rewrite slice_ok by lia. go. rewrite firstn_all.
      change (Z.of_nat 0) with 0%Z.
      replace (slice perr (map WNode (tStack t1)) 0 (Z.of_nat n)) with (Some (map (@WNode perr) (firstn n (tStack t1))))
        by (change 0%Z with (Z.of_nat 0); now rewrite slice_ok by lia).
      go. rewrite as_nodes_map. go.
      do 2 f_equal. rewrite repeat_length, map_length, skipn_length.
      replace (Z.to_nat (Z.of_nat (length (tStack t1)) - Z.of_nat n)) with (length (tStack t1) - n) by lia.
      rewrite (skipn_all2 (repeat (WNode None) _)) by (rewrite repeat_length; lia). rewrite app_nil_r. apply firstn_all2. rewrite map_length, skipn_length. lia.
    - destruct (Z.ltb_spec (Z.of_nat (length (tStack t1)) - Z.of_nat n) 0); [reflexivity|lia].
  Qed.
  Hint Resolve add_error_ok add_error_x add_mark_ok pop_mark_ok pop_marked_ok : gox.

  (** a method: what the model says, or a panic *)
  Definition as_said (h : list (list N)) (o : option tree) : res mst mval :=
    match o with Some t => Ret WNil (St _ h t) | None => Panics end.

  Ltac pushes := erewrite push_ok by (first [reflexivity|lia]); go.
  Ltac node_of := go; rewrite ?pop_val_node; go; rewrite ?as_nodes_map, ?as_strs_map; go.

  Ltac pops :=
    repeat match goal with
    | |- context [pop_val ?t] =>
        let n := fresh "n" in let t' := fresh "t" in let E := fresh "E" in let H := fresh "H" in
        pose proof (pop_val_node t) as H; destruct (pop t) as [n t'] eqn:E; cbn [fst snd] in *; revert H; generalize (pop_val t); intros ? H
    end.
  Ltac popped := repeat match goal with E : pop _ = _ |- _ => rewrite E; clear E; cbn end.
  Ltac fields := repeat match goal with H : as_node _ _ = Some _ |- _ => rewrite H; clear H end; go.

  Lemma pop_logic_ok : forall F h t, 2 < F -> mcall F (WMeth "Tree" "PopLogic") [] (St _ h t) = as_said h (pop_logic t).
  Proof. enter. go. unfold pop_logic. pops. unfold lit_node. go. fields. pushes. popped. reflexivity. Qed.
  Lemma pop_compare_ok : forall F h t, 2 < F -> mcall F (WMeth "Tree" "PopCompare") [] (St _ h t) = as_said h (pop_compare t).
  Proof. enter. go. unfold pop_compare. pops. unfold lit_node. go. fields. pushes. popped. reflexivity. Qed.
  Lemma pop_predicate_ok : forall F h t, 2 < F -> mcall F (WMeth "Tree" "PopPredicate") [] (St _ h t) = as_said h (pop_predicate t).
  Proof. enter. go. unfold pop_predicate. pops. unfold lit_node. go. fields. pushes. popped. reflexivity. Qed.
  Lemma pop_between_ok : forall F h t, 2 < F -> mcall F (WMeth "Tree" "PopBetween") [] (St _ h t) = as_said h (pop_between t).
  Proof. enter. go. unfold pop_between. pops. unfold lit_node. go. fields. pushes. popped. reflexivity. Qed.
  Lemma pop_parentheses_ok : forall F h t, 2 < F -> mcall F (WMeth "Tree" "PopParentheses") [] (St _ h t) = as_said h (pop_parentheses t).
  Proof. enter. go. unfold pop_parentheses. pops. unfold lit_node. go. fields. pushes. popped. reflexivity. Qed.
  Lemma pop_not_ok : forall F h t, 2 < F -> mcall F (WMeth "Tree" "PopNot") [] (St _ h t) = as_said h (pop_not t).
  Proof. enter. go. unfold pop_not. pops. unfold lit_node. go. fields. pushes. popped. reflexivity. Qed.
  Lemma pop_array_ok : forall F h t, 3 < F -> mcall F (WMeth "Tree" "PopArray") [] (St _ h t) = as_said h (pop_array t).
  Proof.
    enter. go. unfold pop_array. destruct (pop_marked t) as [[l t1]|]; go; [|reflexivity].
    unfold lit_node. go. rewrite as_nodes_map. go. pushes. reflexivity.
  Qed.
  Lemma pop_function_ok : forall F h t, 2 < F -> mcall F (WMeth "Tree" "PopFunction") [] (St _ h t) = as_said h (pop_function t).
  Proof.
    enter. go. unfold pop_function.
    assert (E : forall t, pop_val t = WNil /\ fst (pop t) = None \/ pop_val t = WNode (fst (pop t))).
    { intros t0. unfold pop_val, pop. destruct (tStack t0); [now left|now right]. }
    pose proof (E t) as Ea. destruct (pop t) as [a t1]. cbn [fst snd] in *. pose proof (E t1) as En. destruct (pop t1) as [n t2]. cbn [fst snd] in *.
    destruct Ea as [[-> ->]| ->]; [go; reflexivity|].
    destruct a as [a|]; [|go; reflexivity]. go.
    destruct En as [[-> ->]| ->]; [go; reflexivity|].
    destruct n as [n|]; [|go; reflexivity]. go.
    destruct (nType n) eqn:En; go; try reflexivity.
    destruct (nType a) eqn:Ea; go; try reflexivity.
    destruct (nVType a) eqn:Ev; go; try reflexivity.
    unfold lit_node. go. rewrite as_nodes_map. go. pushes. reflexivity.
  Qed.
  Lemma pop_reference_ok : forall F h t, 3 < F ->
    mcall F (WMeth "Tree" "PopIdentifierReference") [] (St _ h t) = as_said h (pop_identifier_reference t).
  Proof.
    enter. go. unfold pop_identifier_reference. destruct (pop_marked t) as [[l t1]|]; go; [|reflexivity]. rename l into l0.
    match goal with |- context [range perr tree ?a1 ?a2 ?a3 ?a4 ?a5 ?a6 ?a7 ?a8 ?rs ?i ?v ?b _ _ _ _] =>
      assert (L : forall l k acc, range perr tree a1 a2 a3 a4 a5 a6 a7 a8 rs i v b k (map WNode l)
          (("names", WList (map WStr acc)) :: [("nodes", WList (map WNode l0)); ("t", WObj "Tree")]) (St _ h t1) =
        match node_names l with
        | Some ns => Ret (CNext, ("names", WList (map WStr (acc ++ ns)%list)) :: [("nodes", WList (map WNode l0)); ("t", WObj "Tree")]) (St _ h t1)
        | None => Panics
        end)
    end.
    { clear - H. induction l as [|n l IH]; intros k acc.
      - go. now rewrite app_nil_r.
      - destruct n as [n|]; [|go; reflexivity]. cbn [map node_names]. go. 
        change [WStr (nName n)] with (map (@WStr perr) [nName n]). rewrite <- map_app, IH.
        destruct (node_names l) as [ns|]; [|reflexivity]. now rewrite <- app_assoc. }
    change (WList []) with (@WList perr (map WStr [])). rewrite (L l0 0%Z []). cbn [app].
    destruct (node_names l0) as [ns|]; [|reflexivity]. go. unfold lit_node. cbn. rewrite as_strs_map. go. pushes. reflexivity.
  Qed.

  (** AddOperation and the others *)
  Lemma add_operation_ok : forall F h t s m, 2 < F -> In m ["AddOperation"; "AddCompare"; "AddLogic"; "AddMatch"] ->
    mcall F (WMeth "Tree" m) [WStr s] (St _ h t) = Ret WNil (St _ h (add_operation lo s t)).
  Proof.
    intros F h t s m HF Hm. destruct F as [|F]; [lia|]. rewrite mini_step.
    repeat (destruct Hm as [<-|Hm]; [go; go; unfold lit_node; go; pushes; reflexivity|]). easy.
  Qed.
  Lemma add_name_ok : forall F h t s, 2 < F -> mcall F (WMeth "Tree" "AddName") [WStr s] (St _ h t) = Ret WNil (St _ h (add_name s t)).
  Proof. enter. unfold lit_node. go. pushes. reflexivity. Qed.
  Ltac snoc := erewrite as_nodes_snoc by reflexivity; reflexivity.
  Lemma add_string_ok : forall F h t s, 1 < F -> mcall F (WMeth "Tree" "AddString") [WStr s] (St _ h t) = Ret WNil (St _ h (add_string s t)).
  Proof. enter. unfold lit_node. go. go. snoc. Qed.
  Lemma add_null_ok : forall F h t, 1 < F -> mcall F (WMeth "Tree" "AddNull") [] (St _ h t) = Ret WNil (St _ h (add_null t)).
  Proof. enter. unfold lit_node. go. go. snoc. Qed.
  Lemma add_boolean_ok : forall F h t s, 2 < F -> mcall F (WMeth "Tree" "AddBoolean") [WStr s] (St _ h t) = Ret WNil (St _ h (add_boolean s t)).
  Proof.
    enter. go. unfold add_boolean. destruct (parse_bool s) as [b e]. go. unfold lit_node. go. go. snoc.
  Qed.
  Lemma add_integer_ok : forall F h t s, 2 < F -> mcall F (WMeth "Tree" "AddInteger") [WStr s] (St _ h t) = Ret WNil (St _ h (add_integer s t)).
  Proof.
    enter. go. unfold add_integer. destruct (atoi s) as [b e]. go. unfold lit_node. go. go. snoc.
  Qed.
End Tree.
