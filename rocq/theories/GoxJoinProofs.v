(** Build, node.go:140-197, and Join, join.go:5-25, over the visit of GoxBuildProofs.v *)
From Verif Require Import Base Node Tree Build TreeFacts Gox GoxStep GoxMini GoxMiniLib GoxTreeProofs GoxNodeProofs GoxBuildProofs.
Open Scope string_scope.

Section Build.
  Variable lo : N -> N.
  Variable is_print : N -> bool.
  Variable fmt_float : Z -> list N.
  Notation mcall := (mini_call lo is_print fmt_float).
  Hint Resolve len_ok append_ok trim_ok write_string_ok write_rune_ok string_ok builder_len_ok to_string_ok sjoin_ok fprint_ok fprintf_ok pretty_ok : gox.
  Hint Extern 0 (_ <= _) => lia : gox.
  Lemma strlen_ok : forall F l s, 0 < F -> mcall F (WFun "len") [WStr l] s = Ret (WInt (zlen l)) s.
  Proof. enter. reflexivity. Qed.
  Lemma visit_at : forall F h g w n b, 2 * ndepth n + 3 < F ->
    mcall F (visit_clo (length h) n) [WNode (Some n)] (St _ (h ++ b :: g)%list w) =
    visited h b g w (build_visit is_print fmt_float (nName n) n).
  Proof.
    intros F h g w n b HF. exact (visit_ok lo is_print fmt_float n (ndepth n) (Some n) F h b g w (le_n _) HF).
  Qed.
  Hint Resolve strlen_ok visit_at : gox.
  Arguments visited : simpl never.
  Arguments visit_clo : simpl never.

  (** ** Build, node.go:140-197 *)
  Lemma build_ok : forall F n h w, 2 * ndepth n + 4 < F ->
    mcall F (WFun "Build") [WNode (Some n)] (St _ h w) =
    match build is_print fmt_float (Some n) with
    | Some s => Ret (WStr s) (St _ (h ++ [s])%list w)
    | None => Panics
    end.
  Proof.
    intros F n h w HF. unfold build. enter.
    match goal with |- context [WClo "visit" ?a ?b ?c] => change (WClo "visit" a b c) with (visit_clo (length h) n) end.
    go. 
    unfold visited. destruct (build_visit is_print fmt_float (nName n) n); [|reflexivity]. go. reflexivity.
  Qed.
  Lemma clo_step : forall F b e v s, mcall (S F) (WClo "visit" ["node"] b e) [v] s =
    bind (execs perr tree mini_consts mini_maps (fun _ => None) mini_field mini_setfield (fun _ _ => None) (fun _ _ => None) (mcall F) [] b
      ([("node", v)] ++ ("visit", WClo "visit" ["node"] b e) :: e)%list s) (fun r s =>
      match fst r with CRet v => Ret v s | CNext => Ret WNil s | _ => Stuck end).
  Proof. reflexivity. Qed.
  Lemma build_nil : forall F h w, 2 < F -> mcall F (WFun "Build") [WNode None] (St _ h w) = Panics.
  Proof. enter. go. destruct F as [|F]; [lia|]. rewrite clo_step. cbn [app]. go. reflexivity. Qed.

  (** ** Join, join.go:5-25 *)
  Definition join_heap (l : list (list N)) : list (list N) := match l with [] | [_] => [] | _ => [join l] end.
  Lemma blank_zlen : forall v, (zlen (trim_space v) =? 0)%Z = is_blank v.
  Proof. intros v. unfold is_blank. destruct (trim_space v); reflexivity. Qed.
  Arguments Z.eqb : simpl never.
  Arguments is_blank : simpl never.
  Lemma join_ok : forall F l h w, 2 < F ->
    mcall F (WFun "Join") [WList (map WStr l)] (St _ h w) = Ret (WStr (join l)) (St _ (h ++ join_heap l)%list w).
  Proof.
    intros F l h w HF. destruct l as [|x [|y l]].
    - enter. go. unfold join_heap. now rewrite app_nil_r.
    - enter. go. unfold join_heap. now rewrite app_nil_r.
    - change (join (x :: y :: l)) with (fold_left join_step (x :: y :: l) []).
      change (join_heap (x :: y :: l)) with [fold_left join_step (x :: y :: l) []].
      assert (A0 : (zlen (map (@WStr perr) (x :: y :: l)) =? 0)%Z = false) by (apply Z.eqb_neq; unfold zlen; cbn; lia).
      assert (A1 : (zlen (map (@WStr perr) (x :: y :: l)) =? 1)%Z = false) by (apply Z.eqb_neq; unfold zlen; cbn; lia).
      revert A0 A1. generalize (x :: y :: l). clear x y l. intros l A0 A1.
      enter. go. rewrite A0. go. rewrite A1. go.
      match goal with |- context [range perr tree ?a1 ?a2 ?a3 ?a4 ?a5 ?a6 ?a7 ?a8 ?rs ?i ?v ?bd _ _ ?e _] =>
        assert (L : forall l z b0, range perr tree a1 a2 a3 a4 a5 a6 a7 a8 rs i v bd z (map WStr l) e (St _ (h ++ [b0])%list w) =
          Ret (CNext, e) (St _ (h ++ [fold_left join_step l b0])%list w))
      end.
      { clear - HF. intro l0; induction l0 as [|v l0 IHl]; intros z b0; cbn [map fold_left]; go; [reflexivity|].
        unfold join_step at 2. rewrite blank_zlen. destruct (is_blank v); go; [apply IHl|].
        destruct b0 as [|c b0]; go.
        - match goal with |- context [(zlen ?x =? 0)%Z] => change (zlen x =? 0)%Z with true end. go. rewrite IHl. norm.
        - replace (zlen (c :: b0) =? 0)%Z with false by (symmetry; apply Z.eqb_neq; unfold zlen; cbn; lia). go.
          rewrite IHl. norm. }
      rewrite L. go. reflexivity.
  Qed.

  Lemma nil_ok : forall F f h w, 2 < F -> In f ["Node.Value"; "Node.IsValue"; "Node.IsExpression"; "Node.String"; "Build"] ->
    mcall F (WFun f) [WNode None] (St _ h w) = Panics.
  Proof.
    intros F f h w HF [<-|[<-|[<-|[<-|[<-|[]]]]]]; [enter; go; reflexivity..|]. now apply build_nil.
  Qed.
End Build.
