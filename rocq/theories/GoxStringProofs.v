(** Node.String, node.go:91-138 *)
From Verif Require Import Base Node Tree Build TreeFacts Gox GoxStep GoxMini GoxMiniLib GoxTreeProofs GoxNodeProofs.
Open Scope string_scope.

Section String.
  Variable lo : N -> N.
  Variable is_print : N -> bool.
  Variable fmt_float : Z -> list N.
  Notation mcall := (mini_call lo is_print fmt_float).
  Hint Resolve len_ok append_ok trim_ok write_string_ok write_rune_ok string_ok builder_len_ok to_string_ok sjoin_ok fprint_ok fprintf_ok pretty_ok : gox.

  (** ** String *)
  Definition ostring (p : option node) : option (list N) := match p with Some m => node_string fmt_float m | None => None end.
  Fixpoint strings (l : list (option node)) : option (list N) :=
    match l with
    | [] => Some []
    | x :: l' => ocat (ostr #",") (ocat (ostring x) (strings l'))
    end.
  Lemma node_string_eq : forall n, node_string fmt_float n =
    ocat (ostr (type_name (nType n) ++ #"(")%list) (ocat
      match nType n with
      | NBetween => match nParams n with a :: b :: _ => ocat (ostring a) (ocat (ostr #",") (ostring b)) | _ => None end
      | NPredicates => ostr (nOperation n)
      | NLogic => ocat (ostring (nOp n)) (ocat (ostr #",") (ocat (ostring (nLeft n)) (ocat (ostr #",") (ostring (nRight n)))))
      | NCompare => ocat (ostring (nLeft n)) (ocat (ostr #",") (ocat (ostring (nOp n)) (ocat (ostr #",") (ostring (nRight n)))))
      | NParentheses | NNot => ostring (nExpression n)
      | NValue => match value n with Some v => Some (fprint fmt_float v) | None => None end
      | NOperation => ostr (nOperation n)
      | NIdentifier => ostr (nName n)
      | NReference => ostr (sjoin #"." (nNames n))
      | NFunction => ocat (ostr (nName n)) (strings (nParams n))
      | NOther => ostr #"unknown"
      end (ostr #")")).
  Proof.
    intros n. assert (L : forall l, (fix go (l : list (option node)) : option (list N) :=
                match l with
                | [] => Some []
                | x :: l' => ocat (ostr #",") (ocat (ostring x) (go l'))
                end) l = strings l) by (induction l as [|x l IH]; [reflexivity|cbn [strings]; now rewrite IH]).
    rewrite <- L. now destruct n.
  Qed.
  Arguments ostring : simpl never.

  Lemma fin : forall (a b : list N) h g (w : tree), a = b ->
    exists g', Ret (@WStr perr a) (St _ (h ++ a :: g)%list w) = Ret (WStr b) (St _ (h ++ g')%list w).
  Proof. intros a b h g w ->. now exists (b :: g). Qed.
  Lemma str_ok : forall n F h w, ndepth n + 2 < F ->
    exists g, mcall F (WFun "Node.String") [WNode (Some n)] (St _ h w) =
      match node_string fmt_float n with Some s => Ret (WStr s) (St _ (h ++ g)%list w) | None => Panics end.
  Proof.
    assert (A : forall k n F h w, ndepth n <= k -> k + 2 < F ->
      exists g, mcall F (WFun "Node.String") [WNode (Some n)] (St _ h w) =
        match node_string fmt_float n with Some s => Ret (WStr s) (St _ (h ++ g)%list w) | None => Panics end);
    [|intros n F h w H; now apply (A (ndepth n))].
    induction k as [|k IH]; intros n F h w Hn HF; [rewrite ndepth_eq in Hn; lia|].
    enter. rewrite node_string_eq. go. rewrite ndepth_eq in Hn.
    Ltac child IH := match goal with |- exists _, ?l = _ => let hd := headof l in
      match hd with
      | mini_call _ _ _ ?F (WFun "Node.String") [WNode (Some ?m)] (St _ ?H ?w) =>
          let g := fresh "g" in let E := fresh "E" in
          destruct (IH m F H w) as [g E]; [cbn [odepth ldepth] in *; lia|lia|]; rewrite E; clear E;
          change (ostring (Some m)) with (node_string fmt_float m);
          destruct (node_string fmt_float m); [rewrite <- ?app_assoc; cbn [app]|exists []; reflexivity]
      | match ?p with Some _ => _ | None => _ end =>
          lazymatch type of p with option node => destruct p; [|exists []; reflexivity] end
      end end.
    destruct (nType n) eqn:Et; go.
    - (* value *)
      rewrite value_ok by (rewrite ndepth_eq; lia). destruct (value n); [go; apply fin; norm|exists []; reflexivity].
    - apply fin; norm.
    - apply fin; norm.
    - apply fin; norm.
    - apply fin; norm.
    - repeat (child IH; go). apply fin; norm.
    - repeat (child IH; go). apply fin; norm.
    - repeat (child IH; go). apply fin; norm.
    - repeat (child IH; go). apply fin; norm.
    - destruct (nParams n) as [|x [|y ps]] eqn:Ep; cbn [map]; rewrite ?index_0, ?index_nil; [exists []; reflexivity| |].
      + go. repeat (child IH; go). rewrite Ep; cbn [map]; rewrite index_1n. exists []. go. reflexivity.
      + go. repeat (child IH; go). rewrite Ep; cbn [map]; rewrite index_1. go. repeat (child IH; go). apply fin; norm.
    - (* function *)
      match goal with |- context [range perr tree ?a1 ?a2 ?a3 ?a4 ?a5 ?a6 ?a7 ?a8 ?rs ?i ?v ?b _ _ ?e _] =>
        assert (L : forall l k' b0 g0, ldepth l <= k -> exists g,
          range perr tree a1 a2 a3 a4 a5 a6 a7 a8 rs i v b k' (map WNode l) e (St _ (h ++ b0 :: g0)%list w) =
          match strings l with
          | Some s => Ret (CNext, e) (St _ (h ++ (b0 ++ s)%list :: g)%list w)
          | None => Panics
          end)
      end.
      { clear - IH HF. induction l as [|p l IHl]; intros k' b0 g0 Hl; cbn [map strings]; go.
        - exists g0. now rewrite app_nil_r.
        - cbn [ldepth] in Hl. repeat (child IH; go). cbn [odepth] in Hl.
          match goal with |- exists _, range _ _ _ _ _ _ _ _ _ _ _ _ _ _ ?k1 _ _ (St _ (h ++ ?b1 :: ?g1) _) = _ => destruct (IHl k1 b1 g1 ltac:(lia)) as [g2 E] end.
          rewrite E. exists g2. destruct (strings l); [|reflexivity]. cbn. do 3 f_equal. norm. }
      match goal with |- exists _, ?l = _ => let hd := headof l in match hd with range _ _ _ _ _ _ _ _ _ _ _ _ _ _ ?k1 _ _ (St _ (h ++ [?b1]) _) =>
        destruct (L (nParams n) k1 b1 [] ltac:(lia)) as [g2 E] end end.
      rewrite E. clear E L. destruct (strings (nParams n)); [go; apply fin; norm|exists []; reflexivity].
    - apply fin; norm.
  Qed.
End String.
