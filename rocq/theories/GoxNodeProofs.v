(** The statements of node.go and join.go do what Node.v and Build.v say. *)
From Verif Require Import Base Node Tree Build TreeFacts Gox GoxStep GoxMini GoxMiniLib GoxTreeProofs.
Open Scope string_scope.

(** how deep a node is *)
Fixpoint ndepth (n : node) : nat :=
  let od (p : option node) := match p with Some m => ndepth m | None => 0 end in
  let ld := fix go (l : list (option node)) := match l with [] => 0 | p :: l' => Nat.max (od p) (go l') end in
  S (Nat.max (od (nExpression n)) (Nat.max (od (nLeft n)) (Nat.max (od (nOp n)) (Nat.max (od (nRight n))
    (Nat.max (ld (nParams n)) (ld (nArray n))))))).
Definition odepth (p : option node) : nat := match p with Some m => ndepth m | None => 0 end.
Fixpoint ldepth (l : list (option node)) : nat := match l with [] => 0 | p :: l' => Nat.max (odepth p) (ldepth l') end.
Lemma ndepth_eq : forall n, ndepth n =
  S (Nat.max (odepth (nExpression n)) (Nat.max (odepth (nLeft n)) (Nat.max (odepth (nOp n)) (Nat.max (odepth (nRight n))
    (Nat.max (ldepth (nParams n)) (ldepth (nArray n))))))).
Proof.
  assert (L : forall l, (fix go (l : list (option node)) := match l with [] => 0 | p :: l' => Nat.max (match p with Some m => ndepth m | None => 0 end) (go l') end) l = ldepth l)
    by (induction l as [|p l IH]; [reflexivity|cbn [ldepth]; now rewrite <- IH]).
  intros n. rewrite <- !L. now destruct n.
Qed.

(** ** Value *)
Definition values : list (option node) -> option (list gval) :=
  fix go (l : list (option node)) : option (list gval) :=
    match l with
    | [] => Some []
    | None :: _ => None
    | Some v :: l' =>
        match value v, go l' with
        | Some x, Some xs => Some (x :: xs)
        | _, _ => None
        end
    end.
Lemma value_eq : forall n, value n =
  match nVType n with
  | VInt => Some (GInt (nInt n))
  | VString => Some (GStr (nStr n))
  | VFloat => Some (GFloat (nFloat n))
  | VBool => Some (GBool (nBool n))
  | VNull => Some GNil
  | VArray => match values (nArray n) with Some xs => Some (GArr xs) | None => None end
  | VNone => Some (GStr #"<unknown value>")
  end.
Proof. now destruct n. Qed.
Fixpoint gv (v : gval) : mval :=
  match v with
  | GInt z => WInt z
  | GStr s => WStr s
  | GFloat z => WFloat z
  | GBool b => WBool b
  | GNil => WNil
  | GArr l => WList (map gv l)
  end.
Lemma as_gval_gv : forall v, as_gval (gv v) = Some v.
Proof.
  fix IH 1. intros [z|s|z|b| |l]; try reflexivity. cbn [gv as_gval].
  assert (L : forall l, (fix go (l : list mval) : option (list gval) :=
     match l with
     | [] => Some []
     | x :: l' => match as_gval x, go l' with Some y, Some r => Some (y :: r) | _, _ => None end
     end) (map gv l) = Some l).
  { fix IHl 1. intros [|x l']; [reflexivity|]. cbn [map]. rewrite IH, IHl. reflexivity. }
  now rewrite L.
Qed.

#[global] Arguments streq : simpl nomatch.
#[global] Arguments write : simpl never.
#[global] Arguments as_gval : simpl never.
#[global] Arguments node_string : simpl never.
#[global] Arguments build_visit : simpl never.
#[global] Arguments value : simpl never.
#[global] Arguments ndepth : simpl never.
#[global] Arguments values : simpl never.
#[global] Arguments quoted : simpl never.
#[global] Arguments fprint : simpl never.
#[global] Arguments print_pretty : simpl never.
#[global] Arguments gv : simpl never.

Lemma index_0 : forall x l, index perr (x :: l) 0 = Some x. Proof. reflexivity. Qed.
Lemma index_1 : forall x y l, index perr (x :: y :: l) 1 = Some y. Proof. reflexivity. Qed.
Lemma index_1n : forall x, index perr [x] 1 = None. Proof. reflexivity. Qed.
Lemma index_nil : index perr [] 0 = None. Proof. reflexivity. Qed.
Ltac norm := cbn; repeat (rewrite <- app_assoc; cbn [app]); reflexivity.
Ltac enter := intros; match goal with
  | |- mini_call _ _ _ ?F _ _ _ = _ => destruct F as [|F]; [lia|]; rewrite mini_step; cbn; repeat first [step | progress cbn]
  | |- exists _, mini_call _ _ _ ?F _ _ _ = _ => destruct F as [|F]; [lia|]; rewrite mini_step; cbn; repeat first [step | progress cbn]
  end.
Ltac head_call := match goal with
  | |- ?l = _ => let h := headof l in lazymatch h with mini_call _ _ _ _ _ _ _ => known h end
  | |- exists _, ?l = _ => let h := headof l in lazymatch h with mini_call _ _ _ _ _ _ _ => known h end
  end.
Ltac go := repeat first [step | progress cbn | head_call].

Section Node.
  Variable lo : N -> N.
  Variable is_print : N -> bool.
  Variable fmt_float : Z -> list N.
  Notation mcall := (mini_call lo is_print fmt_float).
  Hint Resolve len_ok append_ok trim_ok : gox.
  Lemma is_value_ok : forall F n s, 0 < F -> mcall F (WFun "Node.IsValue") [WNode (Some n)] s = Ret (WBool (isValue n)) s.
  Proof. enter. unfold isValue. destruct (nVType n); reflexivity. Qed.
  Lemma is_expression_ok : forall F n s, 0 < F -> mcall F (WFun "Node.IsExpression") [WNode (Some n)] s = Ret (WBool (isExpression n)) s.
  Proof. enter. unfold isExpression. destruct (nType n); go; reflexivity. Qed.

  Lemma value_ok : forall n F s, ndepth n + 1 < F ->
    mcall F (WFun "Node.Value") [WNode (Some n)] s = match value n with Some v => Ret (gv v) s | None => Panics end.
  Proof.
    assert (A : forall k n F s, ndepth n <= k -> k + 1 < F ->
      mcall F (WFun "Node.Value") [WNode (Some n)] s = match value n with Some v => Ret (gv v) s | None => Panics end);
    [|intros n F s H; now apply (A (ndepth n))].
    induction k as [|k IH]; intros n F s Hn HF; [rewrite ndepth_eq in Hn; lia|].
    enter. rewrite value_eq. destruct (nVType n); go; try reflexivity.
    match goal with |- context [range perr tree ?a1 ?a2 ?a3 ?a4 ?a5 ?a6 ?a7 ?a8 ?rs ?i ?v ?b _ _ _ _] =>
      assert (L : forall l k' acc, ldepth l <= k -> range perr tree a1 a2 a3 a4 a5 a6 a7 a8 rs i v b k' (map WNode l)
          (("s", WList (map gv acc)) :: [("n", WNode (Some n))]) s =
        match values l with
        | Some ns => Ret (CNext, ("s", WList (map gv (acc ++ ns)%list)) :: [("n", WNode (Some n))]) s
        | None => Panics
        end)
    end.
    { clear - IH HF. induction l as [|p l IHl]; intros k' acc Hl.
      - go. change (values []) with (Some (@nil gval)). cbv iota. now rewrite app_nil_r.
      - destruct p as [p|]; [|go; reflexivity]. cbn [ldepth odepth] in Hl. cbn [map]. go.
        rewrite IH by lia. change (values (Some p :: l)) with (match value p, values l with Some x, Some xs => Some (x :: xs) | _, _ => None end).
        destruct (value p) as [x|]; [|reflexivity]. go.
        change [gv x] with (map gv [x]). rewrite <- map_app, IHl by lia.
        destruct (values l) as [ns|]; [|reflexivity]. now rewrite <- app_assoc. }
    rewrite ndepth_eq in Hn. change (WList []) with (@WList perr (map gv [])). rewrite (L (nArray n) 0%Z []) by lia. cbn [app].
    destruct (values (nArray n)); go; reflexivity.
  Qed.

  (** strings.Builder *)
  Lemma write_ok : forall h b g w t, write tree (length h) t (St _ (h ++ b :: g)%list w) = Some (St _ (h ++ (b ++ t)%list :: g)%list w).
  Proof.
    intros. unfold write. cbn [heap world]. rewrite nth_error_app2, Nat.sub_diag by lia. cbn [nth_error].
    rewrite firstn_app, Nat.sub_diag, firstn_all, app_nil_r. do 3 f_equal.
    replace (skipn (S (length h)) (h ++ b :: g)%list) with g; [reflexivity|].
    clear. induction h as [|x h IH]; [reflexivity|exact IH].
  Qed.
  Lemma write_string_ok : forall F h b g w t, 0 < F ->
    mcall F (WFun "Builder.WriteString") [WPtr (length h); WStr t] (St _ (h ++ b :: g)%list w) =
      Ret (WList [WNil; WNil]) (St _ (h ++ (b ++ t)%list :: g)%list w).
  Proof. enter. now rewrite write_ok. Qed.
  Lemma write_rune_ok : forall F h b g w t, 0 < F ->
    mcall F (WFun "Builder.WriteRune") [WPtr (length h); WStr t] (St _ (h ++ b :: g)%list w) =
      Ret (WList [WNil; WNil]) (St _ (h ++ (b ++ t)%list :: g)%list w).
  Proof. enter. now rewrite write_ok. Qed.
  Lemma string_ok : forall F h b g w, 0 < F ->
    mcall F (WFun "Builder.String") [WPtr (length h)] (St _ (h ++ b :: g)%list w) = Ret (WStr b) (St _ (h ++ b :: g)%list w).
  Proof. enter. rewrite nth_error_app2, Nat.sub_diag by lia. reflexivity. Qed.
  Lemma builder_len_ok : forall F h b g w, 0 < F ->
    mcall F (WFun "Builder.Len") [WPtr (length h)] (St _ (h ++ b :: g)%list w) = Ret (WInt (zlen b)) (St _ (h ++ b :: g)%list w).
  Proof. enter. rewrite nth_error_app2, Nat.sub_diag by lia. reflexivity. Qed.
  Lemma to_string_ok : forall F t s, 0 < F -> mcall F (WFun "string") [WStr t] s = Ret (WStr t) s.
  Proof. enter. reflexivity. Qed.
  Lemma sjoin_ok : forall F l t s, 0 < F -> mcall F (WFun "strings.Join") [WList (map WStr l); WStr t] s = Ret (WStr (sjoin t l)) s.
  Proof. enter. now rewrite as_strs_map. Qed.
  Lemma fprint_ok : forall F h b g w v, 0 < F ->
    mcall F (WFun "fmt.Fprint") [WPtr (length h); gv v] (St _ (h ++ b :: g)%list w) =
      Ret (WList [WNil; WNil]) (St _ (h ++ (b ++ fprint fmt_float v)%list :: g)%list w).
  Proof. enter. rewrite as_gval_gv. unfold wrote. now rewrite write_ok. Qed.
  Lemma fprintf_ok : forall F h b g w t, 0 < F ->
    mcall F (WFun "fmt.Fprintf") [WPtr (length h); WStr #"%q"; WStr t] (St _ (h ++ b :: g)%list w) =
      Ret (WList [WNil; WNil]) (St _ (h ++ (b ++ quoted is_print t)%list :: g)%list w).
  Proof. enter. unfold wrote. now rewrite write_ok. Qed.
  Hint Resolve write_string_ok write_rune_ok string_ok builder_len_ok to_string_ok sjoin_ok fprint_ok fprintf_ok : gox.

  Lemma pretty_ok : forall F t s, 0 < F -> mcall F (WFun "printPretty") [WStr t] s = Ret (WStr (print_pretty t)) s.
  Proof.
    enter. unfold print_pretty. cbn.
    repeat match goal with |- context [streq t ?x] => destruct (streq t x); [reflexivity|] end. reflexivity.
  Qed.
  Hint Resolve pretty_ok : gox.

End Node.
