(** Build, entmq/entql.go:47-63, does what EntQL.v says. *)
From Verif Require Import Base Peg Node Tree Parse Build EntQL TreeFacts Gox GoxStep GoxMini GoxMiniLib GoxTreeProofs GoxNodeProofs GoxEntQL GoxEntQLLib GoxEntQLProofs.
Strategy expand [parse_machine]. Strategy 1000 [parse_fuel mrun].
Open Scope string_scope.

Section Ent.
  Variable lower_hi : N -> N.
  Notation ecall := (ent_call lower_hi).
  Arguments ovis : simpl never.
  Arguments xout : simpl never.

  Ltac enter := intros; match goal with
    | |- ent_call _ ?F _ _ _ = _ => destruct F as [|F]; [lia|]; rewrite ent_step; cbn; repeat first [step | progress cbn]
    end.
  Ltac head_call := match goal with
    | |- ?l = _ => let h := headof l in lazymatch h with ent_call _ _ _ _ _ => known h end
    end.
  Ltac go := repeat first [step | progress cbn | rewrite stack_at | rewrite query_at | head_call].
  Hint Resolve xlen_ok pop_ok : gox.
  Hint Extern 0 (_ <= _) => lia : gox.

  Definition parsed (r : outcome perr (option node)) (s : est) : res est xval :=
    match r with
    | Ok n => Ret (WList [WNode n; WNil]) s
    | Err e => Ret (WList [WNode None; WX (VErr (XParse e))]) s
    | Panic => Panics
    end.
  Arguments parsed : simpl never.
  Lemma xparse_ok : forall F t s, 0 < F -> ecall F (WFun "Parse") [WStr t] s = parsed (parse lower_hi t) s.
  Proof. enter. reflexivity. Qed.
  Lemma xwith_ok : forall F l s, 0 < F -> ecall F (WFun "slog.With") l s = Ret (WObj "slog.Logger") s.
  Proof. enter. reflexivity. Qed.
  Lemma xerror_ok : forall F l s, 0 < F -> ecall F (WFun "slog.Error") l s = Ret WNil s.
  Proof. enter. reflexivity. Qed.
  Hint Resolve xparse_ok xwith_ok xerror_ok : gox.

  Definition bout (h : list (list N)) (q : list N) (r : outcome (eerr * list eexpr) (option eexpr * list eexpr)) : res est xval :=
    match r with
    | Ok (Some x, s) => Ret (WList [WX (VExpr x); WNil]) (at_e h q s)
    | Ok (None, s) => Ret (WList [WNil; WNil]) (at_e h q s)
    | Err (e, s) => Ret (WList [WNil; WX (VErr e)]) (at_e h q s)
    | Panic => Panics
    end.
  Lemma xbuild_ok : forall F h q s, 5 < F -> (forall n, parse lower_hi q = Ok (Some n) -> ndepth n + 4 < F) ->
    ecall F (WMeth builder "Build") [] (at_e h q s) = bout h q (ebuild lower_hi q s).
  Proof.
    intros F h q s HF Hn. destruct q as [|c q].
    - enter. go. reflexivity.
    - remember (c :: q) as t eqn:Et. unfold ebuild. rewrite Et at 3. cbv beta iota.
      enter. go. replace (streq t []) with false by now subst. go. unfold parsed.
      destruct (parse lower_hi t) as [p|e|]; go; [|reflexivity..].
      rewrite (xvisit_ok lower_hi (odepth p)) by (destruct p; cbn [odepth]; [specialize (Hn _ eq_refl)|]; lia).
      destruct p as [n|]; [|reflexivity]. change (ovis (Some n) s) with (evisit n s). unfold xout.
      destruct (evisit n s) as [s'|e s'|]; go; [|reflexivity..].
      destruct s' as [|x s']; [go; reflexivity|].
      match goal with |- context [(0 <? ?l)%Z] => replace (0 <? l)%Z with true by (symmetry; apply Z.ltb_lt; unfold zlen; rewrite map_length, rev_length; cbn [length]; lia) end.
      go. destruct (is_p x); go; [|reflexivity].
      match goal with |- context [(1 <? ?l)%Z] => destruct (1 <? l)%Z end; go; reflexivity.
  Qed.
End Ent.
