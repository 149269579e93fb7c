(** Build and buildValue, node.go:140-221; Join, join.go:5-25 *)
From Verif Require Import Base Node Tree Build TreeFacts Gox GoxStep GoxMini GoxMiniLib GoxTreeProofs GoxNodeProofs.
Open Scope string_scope.

(** the closure visit *)
Definition visit_body : list stmt := match mini_Build with Fundef _ _ (_ :: _ :: SClosure _ _ b :: _) => b | _ => [] end.
Definition visit_clo (a : nat) (root : node) : mval :=
  WClo "visit" ["node"] visit_body [("visit", WNil); ("buf", WPtr a); ("n", WNode (Some root))].

Section Build.
  Variable lo : N -> N.
  Variable is_print : N -> bool.
  Variable fmt_float : Z -> list N.
  Notation mcall := (mini_call lo is_print fmt_float).
  Hint Resolve len_ok append_ok trim_ok write_string_ok write_rune_ok string_ok builder_len_ok to_string_ok sjoin_ok fprint_ok fprintf_ok pretty_ok : gox.
  Hint Extern 0 (_ <= _) => lia : gox.

  Definition ovisit (root : list N) (p : option node) : option (list N) :=
    match p with Some m => build_visit is_print fmt_float root m | None => None end.
  Fixpoint visits (root : list N) (l : list (option node)) : option (list N) :=
    match l with
    | [] => Some []
    | [x] => ovisit root x
    | x :: l' => ocat (ovisit root x) (ocat (ostr #",") (visits root l'))
    end.
  Lemma build_visit_eq : forall root n, build_visit is_print fmt_float root n =
    match nType n with
    | NNot => ocat (ostr #"not ") (ovisit root (nExpression n))
    | NBetween =>
        ocat (ovisit root (nLeft n)) (ocat (ostr #" ") (ocat (ovisit root (nOp n)) (ocat (ostr #" ")
          match nParams n with
          | a :: b :: _ => ocat (ovisit root a) (ocat (ostr #" and ") (ovisit root b))
          | _ => None
          end)))
    | NPredicates | NLogic | NCompare =>
        ocat (ovisit root (nLeft n)) (ocat (ostr #" ") (ocat (ovisit root (nOp n))
          match nRight n with
          | None => ostr []
          | Some _ => ocat (ostr #" ") (ovisit root (nRight n))
          end))
    | NParentheses => ocat (ostr #"(") (ocat (ovisit root (nExpression n)) (ostr #")"))
    | NOperation => ostr (print_pretty (nOperation n))
    | NIdentifier => ostr (nName n)
    | NReference => ostr (sjoin #"." (nNames n))
    | NFunction => ocat (ostr (root ++ #"(")%list) (ocat (visits root (nParams n)) (ostr #")"))
    | NValue =>
        match nVType n with
        | VArray => ocat (ostr #"[") (ocat (visits root (nArray n)) (ostr #"]"))
        | VString => ostr (quoted is_print (nStr n))
        | _ => match value n with
               | None => None
               | Some GNil => ostr #"null"
               | Some v => ostr (fprint fmt_float v)
               end
        end
    | NOther => ostr #"<unknown type>"
    end.
  Proof.
    intros root n. assert (L : forall l, (fix go (l : list (option node)) : option (list N) :=
        match l with
        | [] => Some []
        | [x] => ovisit root x
        | x :: l' => ocat (ovisit root x) (ocat (ostr #",") (go l'))
        end) l = visits root l).
    { induction l as [|x l IH]; [reflexivity|]. destruct l; [reflexivity|]. cbn [visits] in *. now rewrite IH. }
    rewrite <- !L. now destruct n.
  Qed.
  Lemma visits_0 : forall r, visits r [] = Some []. Proof. reflexivity. Qed.
  Lemma visits_1 : forall r x, visits r [x] = ovisit r x. Proof. reflexivity. Qed.
  Lemma visits_2 : forall r x y l, visits r (x :: y :: l) = ocat (ovisit r x) (ocat (ostr #",") (visits r (y :: l))). Proof. reflexivity. Qed.
  Arguments ovisit : simpl never.
  Arguments visits : simpl never.
  Arguments visit_clo : simpl never.
  Arguments Z.eqb : simpl never.

  (** what a visit does to the builder *)
  Definition visited (h : list (list N)) (b : list N) (g : list (list N)) (w : tree) (o : option (list N)) : res mst mval :=
    match o with Some s => Ret WNil (St _ (h ++ (b ++ s)%list :: g)%list w) | None => Panics end.
  Arguments visited : simpl never.
  Lemma visit_step : forall F a root p s, mcall (S F) (visit_clo a root) [p] s =
    bind (execs perr tree mini_consts mini_maps (fun _ => None) mini_field mini_setfield (fun _ _ => None) (fun _ _ => None) (mcall F) [] visit_body
      [("node", p); ("visit", visit_clo a root); ("visit", WNil); ("buf", WPtr a); ("n", WNode (Some root))] s) (fun r s =>
      match fst r with CRet v => Ret v s | CNext => Ret WNil s | _ => Stuck end).
  Proof. reflexivity. Qed.

  Ltac out := match goal with |- context [visited ?h ?b ?g ?w (ovisit ?r ?p)] =>
    unfold visited; destruct (ovisit r p); [|reflexivity] end.

  Arguments gv : simpl nomatch.
  Lemma fprint_int : forall F h b g w z, 0 < F -> mcall F (WFun "fmt.Fprint") [WPtr (length h); WInt z] (St _ (h ++ b :: g)%list w) =
    Ret (WList [WNil; WNil]) (St _ (h ++ (b ++ fprint fmt_float (GInt z))%list :: g)%list w).
  Proof. intros F h b g w z. exact (fprint_ok lo is_print fmt_float F h b g w (GInt z)). Qed.
  Lemma fprint_str : forall F h b g w z, 0 < F -> mcall F (WFun "fmt.Fprint") [WPtr (length h); WStr z] (St _ (h ++ b :: g)%list w) =
    Ret (WList [WNil; WNil]) (St _ (h ++ (b ++ fprint fmt_float (GStr z))%list :: g)%list w).
  Proof. intros F h b g w z. exact (fprint_ok lo is_print fmt_float F h b g w (GStr z)). Qed.
  Lemma fprint_float : forall F h b g w z, 0 < F -> mcall F (WFun "fmt.Fprint") [WPtr (length h); WFloat z] (St _ (h ++ b :: g)%list w) =
    Ret (WList [WNil; WNil]) (St _ (h ++ (b ++ fprint fmt_float (GFloat z))%list :: g)%list w).
  Proof. intros F h b g w z. exact (fprint_ok lo is_print fmt_float F h b g w (GFloat z)). Qed.
  Lemma fprint_bool : forall F h b g w z, 0 < F -> mcall F (WFun "fmt.Fprint") [WPtr (length h); WBool z] (St _ (h ++ b :: g)%list w) =
    Ret (WList [WNil; WNil]) (St _ (h ++ (b ++ fprint fmt_float (GBool z))%list :: g)%list w).
  Proof. intros F h b g w z. exact (fprint_ok lo is_print fmt_float F h b g w (GBool z)). Qed.
  Hint Resolve fprint_int fprint_str fprint_float fprint_bool : gox.
  Lemma visits_ne : forall r x l, l <> [] -> visits r (x :: l) = ocat (ovisit r x) (ocat (ostr #",") (visits r l)).
  Proof. intros r x [|y l] H; [easy|reflexivity]. Qed.
  Lemma last_or : forall (p : option node) l z (A : list (option node)), (z + zlen (p :: l) = zlen A)%Z ->
    l = [] /\ (z =? zlen (map (@WNode perr) A) - 1)%Z = true \/ l <> [] /\ (z =? zlen (map (@WNode perr) A) - 1)%Z = false.
  Proof.
    intros p l z A H. rewrite zlen_map. unfold zlen in *. destruct l as [|q l]; [left|right]; split; try easy.
    - apply Z.eqb_eq. cbn [length] in H. lia.
    - apply Z.eqb_neq. cbn [length] in H. lia.
  Qed.
  Ltac looping h g w k IH A root :=
    match goal with |- context [range perr tree ?a1 ?a2 ?a3 ?a4 ?a5 ?a6 ?a7 ?a8 ?rs ?i ?v ?bd _ _ ?e _] =>
      assert (L : forall l z b0, ldepth l <= k -> (z + zlen l = zlen A)%Z ->
        range perr tree a1 a2 a3 a4 a5 a6 a7 a8 rs i v bd z (map WNode l) e (St _ (h ++ b0 :: g)%list w) =
        match visits root l with
        | Some s => Ret (CNext, e) (St _ (h ++ (b0 ++ s)%list :: g)%list w)
        | None => Panics
        end)
    end;
    [ match goal with HF : _ < S _ |- _ => clear - IH HF end;
      let l := fresh "l" in intro l; induction l as [|? l IHl]; intros ? ? Hl Hlen; cbn [ldepth] in Hl; cbn [map]; go;
      [ rewrite visits_0; cbv iota; now rewrite app_nil_r
      | let E := fresh "E" in let N := fresh "N" in
        destruct (last_or _ _ _ _ Hlen) as [[-> E]|[N E]];
        [ rewrite visits_1; out; go; rewrite E; go; reflexivity
        | rewrite visits_ne by exact N; out; go; rewrite E; go;
          match goal with IHl : forall _ _, _ |- _ => rewrite IHl by (unfold zlen in *; cbn [length] in *; lia) end;
          match goal with |- context [visits ?r ?l] => destruct (visits r l); [|reflexivity] end; norm ] ]
    | ].
  Lemma build_value_ok : forall k root, (forall p F h b g w, odepth p <= k -> 2 * k + 3 < F ->
      mcall F (visit_clo (length h) root) [WNode p] (St _ (h ++ b :: g)%list w) = visited h b g w (ovisit (nName root) p)) ->
    forall n F h b g w, ndepth n <= S k -> nType n = NValue -> 2 * k + 4 < F ->
      mcall F (WFun "buildValue") [WPtr (length h); WNode (Some n); visit_clo (length h) root] (St _ (h ++ b :: g)%list w) =
      visited h b g w (build_visit is_print fmt_float (nName root) n).
  Proof.
    intros k root IH n F h b g w Hn Ht HF. rewrite build_visit_eq, Ht. pose proof Hn as Hd. rewrite ndepth_eq in Hd.
    enter. destruct (nVType n) eqn:Ev; go.
    all: try (rewrite value_ok by lia; rewrite value_eq, Ev; go; unfold visited; go; reflexivity).
    - unfold visited. reflexivity.
    - looping h g w k IH (nArray n) (nName root).
      rewrite (L (nArray n) 0%Z (b ++ [91%N])%list) by lia.
      destruct (visits (nName root) (nArray n)); [|reflexivity]. go. unfold visited. norm.
  Qed.

  Lemma visit_ok : forall root k p F h b g w, odepth p <= k -> 2 * k + 3 < F ->
    mcall F (visit_clo (length h) root) [WNode p] (St _ (h ++ b :: g)%list w) = visited h b g w (ovisit (nName root) p).
  Proof.
    intros root. induction k as [|k IH]; intros p F h b g w Hp HF.
    - destruct p as [p|]; [cbn [odepth] in Hp; rewrite ndepth_eq in Hp; lia|]. destruct F as [|F]; [lia|]. rewrite visit_step. unfold visit_body.
      cbn. go. reflexivity.
    - destruct F as [|F]; [lia|]. rewrite visit_step. unfold visit_body. cbn [mini_Build].
      destruct p as [n|]; [|go; reflexivity]. change (ovisit (nName root) (Some n)) with (build_visit is_print fmt_float (nName root) n).
      cbn [odepth] in Hp. pose proof Hp as Hd. rewrite ndepth_eq in Hd.
      assert (IH' : forall p F h b g w, odepth p <= k -> 2 * k + 3 < F ->
        mcall F (visit_clo (length h) root) [WNode p] (St _ (h ++ b :: g)%list w) = visited h b g w (ovisit (nName root) p)) by exact IH.
      go. destruct (nType n) eqn:Et; go.
      1: { rewrite (build_value_ok k root IH) by (assumption || lia).
        unfold visited. destruct (build_visit is_print fmt_float (nName root) n); [|reflexivity]. go. reflexivity. }
      all: rewrite build_visit_eq, Et; cbn.
      1-3: unfold visited; norm.
      1-3: do 2 (out; go); destruct (nRight n) as [r|] eqn:Er; go; [rewrite Er; go; out; unfold visited; norm | rewrite ?app_nil_r; norm].
      + out. go. unfold visited; norm.
      + out. unfold visited; norm.
      + repeat (out; go). destruct (nParams n) as [|x [|y ps]] eqn:Ep; cbn [map]; cbn [ldepth] in Hd; rewrite ?index_0, ?index_nil; [reflexivity| |].
        * go. out. go. rewrite Ep; cbn [map]; rewrite index_1n. go. reflexivity.
        * go. out. go. rewrite Ep; cbn [map]; rewrite index_1. go. out. unfold visited; norm.
      + looping h g w k IH (nParams n) (nName root).
        rewrite (L (nParams n) 0%Z ((b ++ nName root) ++ [40%N])%list) by lia.
        destruct (visits (nName root) (nParams n)); [|reflexivity]. go. unfold visited. norm.
      + unfold visited; norm.
  Qed.
End Build.
