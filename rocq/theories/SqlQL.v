(** Proofs for C86. *)
From Verif Require Import Base Peg Node Vocab Tree Parse Syntax Blank ParseProofs NormProofs Unique ParserFacts ParserFacts2 ParserMain Build BuildProofs NodeFacts SafeInd
  EntQL EntQLSpec EntQLProofs Gorm GormSpec GormProofs GormFacts GormFacts2 GormFacts3 GormFacts4 TreeFacts EntSQL EntSQLSpec EntSQLProofs EntSQLFacts EntSQLFacts2
  SqlSpec SqlSpecDb SqlSpecQL SqlSpecEntDb SqlSpecQL2 SqlProofs SqlProofs2 SqlGorm SqlEnt SqlAll SqlScope SqlEntDbFacts.
Require Import Lia.
Strategy expand [parse_machine rule_trace].
Strategy 1000 [parse_fuel mrun tok_trace].

(** ** The first and the last character of an operation's name *)
Lemma collapse_hd : forall c s, re_space c = false -> hd 0%N (collapse false (c :: s)) = c.
Proof. intros c s H. cbn [collapse]. now rewrite H. Qed.
Lemma collapse_last : forall s b, s <> [] -> re_space (last s 0%N) = false -> collapse b s <> [] /\ last (collapse b s) 0%N = last s 0%N.
Proof.
  induction s as [|c s IH]; intros b N H; [now elim N|]. destruct s as [|c' s].
  - cbn [last] in H. cbn [collapse]. rewrite H. split; [discriminate|reflexivity].
  - specialize (fun b => IH b ltac:(discriminate) H). change (last (c :: c' :: s) 0%N) with (last (c' :: s) 0%N). remember (c' :: s) as t eqn:E. clear E.
    cbn [collapse]. destruct (re_space c).
    + destruct (IH true) as [I1 I2]. destruct b; [now split|]. split; [discriminate|]. cbn [last]. destruct (collapse true t); [now elim I1|exact I2].
    + destruct (IH false) as [I1 I2]. split; [discriminate|]. cbn [last]. destruct (collapse false t); [now elim I1|exact I2].
Qed.
Section QL2.
  Variable lo : N -> N.
  Lemma name_ends : forall o, o <> [] -> edged o -> exists s, hd 0%N s = lower lo (hd 0%N o) /\ last s 0%N = lower lo (last o 0%N) /\
    op_name lo o = match find (fun k => streq (fst k) s) symbol_names with Some (_, n) => n | None => s end.
  Proof.
    intros o N [E1 E2]. destruct (edge_facts lo _ E1) as [_ W1]. destruct (edge_facts lo _ E2) as [_ W2]. destruct o as [|c o]; [now elim N|]. cbn [hd] in *.
    exists (collapse false (map (lower lo) (c :: o))). split; [cbn [map]; now apply collapse_hd|]. split.
    - rewrite <- last_map by discriminate. apply collapse_last; [discriminate|]. now rewrite last_map by discriminate.
    - unfold op_name. replace (join_with #" " (Vocab.pieces [] (map (lower lo) (c :: o)))) with (collapse false (map (lower lo) (c :: o))); [reflexivity|]. symmetry. cbn [map]. apply pieces_one; [exact W1|].
      rewrite ends_last by discriminate. change (lower lo c :: map (lower lo) o) with (map (lower lo) (c :: o)). rewrite last_map by discriminate. now rewrite W2.
  Qed.
  Lemma lower_small : forall c, (ascii_lower c < 123)%N -> lower lo c = ascii_lower c.
  Proof.
    intros c H. unfold lower. destruct (N.ltb_spec c 128); [reflexivity|]. unfold ascii_lower in H.
    destruct ((65 <=? c) && (c <=? 90))%N eqn:K; [|lia]. apply andb_true_iff in K as [_ K]. apply N.leb_le in K. lia.
  Qed.
  Lemma not_ends : forall x w o, not_then x o -> ci w x -> edged w -> (last w 0 < 123)%N -> w <> [] -> exists s, hd 0%N s = 110%N /\ last s 0%N = last w 0%N /\
    op_name lo o = match find (fun k => streq (fst k) s) symbol_names with Some (_, n) => n | None => s end.
  Proof.
    intros x w o H C E Hl N. assert (Ed : edged o) by (apply (edged_not _ _ H); now apply (edged_ci w)). assert (Nx : x <> []) by (intros ->; unfold ci in C; cbn in C; now subst).
    destruct H as (n & g & Hn & _ & ->). destruct n as [|c n]; [discriminate|].
    destruct (name_ends ((c :: n) ++ g ++ x) ltac:(discriminate) Ed) as (s & H1 & H2 & H3). exists s. split; [|split; [|exact H3]].
    - rewrite H1. cbn [app hd]. unfold ci in Hn. injection Hn as Hc _. rewrite lower_small; [exact Hc|]. rewrite Hc. reflexivity.
    - rewrite H2. replace (last ((c :: n) ++ g ++ x) 0%N) with (last x 0%N).
      + unfold ci in C. subst w. rewrite last_map in * by exact Nx. now apply lower_small.
      + rewrite (app_assoc (c :: n)). destruct (exists_last Nx) as (x' & k & ->). rewrite (app_assoc _ x' [k]), !last_last. reflexivity.
  Qed.
  Lemma sym_ends : forall s n, hd 0%N s = 110%N -> find (fun k => streq (fst k) s) symbol_names = Some n -> s = #"notnull".
  Proof.
    intros s [k n] H F. apply find_some in F as [I E]. cbn [fst] in E. apply streq_eq in E. subst k. unfold symbol_names in I. cbn [In] in I.
    decompose [or] I; try contradiction; match goal with K : (_, _) = (_, _) |- _ => injection K as <- <- end; try discriminate H; reflexivity.
  Qed.
  Lemma in_takes : forall o op, op_in o -> In (op_name lo o, op) ql_operators -> named lo in_ops o = true.
  Proof.
    intros o op H I. destruct H as [H|(x & Hx & H)].
    - unfold named, op_sql. rewrite <- norm_name by (now apply edged_in; left). now rewrite (norm_ci lo _ _ H).
    - destruct (not_ends x #"in" o H Hx) as (s & H1 & H2 & H3); [now split|reflexivity|discriminate|]. cbn [last] in H2.
      destruct (find _ symbol_names) as [k|] eqn:F in H3; [apply (sym_ends _ _ H1) in F; subst; discriminate H2|]. subst s. unfold named, op_sql. revert H1 H2 I. clear F. generalize (op_name lo o). intros n H1 H2 I.
      unfold ql_operators in I. cbn [In] in I. decompose [or] I; try contradiction; match goal with K : (_, _) = (_, _) |- _ => injection K as <- <- end; try discriminate H1; try discriminate H2; reflexivity.
  Qed.
  Lemma cmp_takes : forall o op, op_cmp o -> In (op_name lo o, op) ql_operators -> named lo cmp_syms o = true.
  Proof.
    intros o op H I. pose proof (edged_cmp o H) as Ed. destruct H as [H|[H|[H|[H|[H|[H|(x & Hx & H)]]]]]].
    - cbn in H. decompose [or] H; try contradiction; subst; reflexivity.
    - unfold named, op_sql. rewrite <- norm_name by exact Ed. now rewrite (norm_ci lo _ _ H).
    - unfold named, op_sql. rewrite <- norm_name by exact Ed. now rewrite (norm_ci lo _ _ H).
    - unfold named, op_sql. rewrite <- norm_name by exact Ed. now rewrite (norm_ci lo _ _ H).
    - unfold named, op_sql. rewrite <- norm_name by exact Ed. now rewrite (norm_ci lo _ _ H).
    - rewrite <- norm_name in I by exact Ed. rewrite (norm_ci lo _ _ H) in I. exfalso. change (normalize_operation lo #"like") with #"like" in I. unfold ql_operators in I. cbn [In] in I.
      decompose [or] I; try contradiction; match goal with K : (_, _) = (_, _) |- _ => discriminate K end.
    - destruct (not_ends x #"like" o H Hx) as (s & H1 & H2 & H3); [now split|reflexivity|discriminate|]. cbn [last] in H2.
      destruct (find _ symbol_names) as [k|] eqn:F in H3; [apply (sym_ends _ _ H1) in F; subst; discriminate H2|]. subst s. unfold named, op_sql. revert H1 H2 I. clear F. generalize (op_name lo o). intros n H1 H2 I.
      unfold ql_operators in I. cbn [In] in I. decompose [or] I; try contradiction; match goal with K : (_, _) = (_, _) |- _ => injection K as <- <- end; try discriminate H1; discriminate H2.
  Qed.

  (** ** Trees *)
  Ltac noval := match goal with K : go_value _ _ |- _ => apply go_value_type in K; discriminate K end.
  Lemma copies_between_inv : forall l k a b p, copies true (mk_between l (Some k) (Some a) (Some b)) p -> exists m x y z, l = Some m /\ copies true m x /\ copies true a y /\ copies true b z /\
    p = if streq (nOperation k) #"not between" then XBinary EAnd (XBinary ELT x y) (XBinary EGT x z) else XBinary EAnd (XBinary EGTE x y) (XBinary ELTE x z).
  Proof.
    intros l k a b p H. remember (mk_between l (Some k) (Some a) (Some b)) as n eqn:E. destruct H as [| | | | | |l' k' a' b' x y z O H1 H2 H3|l' k' a' b' x y z O H1 H2 H3]; try discriminate E; [subst; noval| |]; injection E as <- <- <- <-; exists l', x, y, z; repeat split; auto.
    - destruct (streq_spec (nOperation k') #"not between"); [contradiction|reflexivity].
    - now rewrite O.
  Qed.
  Definition fineT (e : expr) : Prop := forall n p, tree_of lo e = Some n -> copies true n p ->
    takes lo e = true /\ forall w row nm, (forall x, nm [x] = row x) -> ql_means w row p = Some (ql_value w lo nm e).
  Lemma between_sql : forall o, streq (op_name lo o) #"not between" = streq (op_sql lo o) #"not between".
  Proof.
    intro o. unfold op_sql. generalize (op_name lo o). intro n. destruct (find (fun k => streq (fst k) n) sql_word) as [[k x]|] eqn:F; [|reflexivity].
    apply find_some in F as [F E]. cbn [fst] in E. apply streq_eq in E. subst k. unfold sql_word in F. cbn [In] in F.
    decompose [or] F; try contradiction; match goal with K : (_, _) = (_, _) |- _ => injection K as <- <- end; reflexivity.
  Qed.
  Lemma cmp_in_ops : forall o op ls w, In (op_name lo o, op) ql_operators -> named lo ls o = true -> incl ls (in_ops ++ cmp_syms) -> eop_world w op = Some (wCmp w (op_sql lo o)).
  Proof.
    intros o op ls w I N L. assert (K : forall x, existsb (streq x) (in_ops ++ cmp_syms) = false -> ~ In x ls).
    { intros x H J. apply L in J. assert (E : existsb (streq x) (in_ops ++ cmp_syms) = true) by (apply existsb_exists; exists x; split; [exact J|apply streq_refl]). congruence. }
    apply (cmp_world lo o op ls w I N); apply K; reflexivity.
  Qed.
  Lemma all_fineT : forall e t, lay e t -> fineT e.
  Proof.
    assert (B : forall e o b x y, fineT e -> fineT (EBetween e o b x y)).
    { intros e o b x y IH n p T H. cbn [tree_of] in T. injection T as <-. apply copies_between_inv in H as (m & px & py & pz & T & H1 & H2 & H3 & ->). apply copies_val in H2, H3. subst py pz.
      destruct (IH m px T H1) as [K1 K2]. split; [exact K1|]. intros w row nm A. specialize (K2 w row nm A). cbn [ql_value nOperation mk_op]. rewrite between_sql.
      destruct (streq (op_sql lo o) #"not between"); cbn [ql_means eop_world]; now rewrite K2. }
    intros e t H. refine (lay_mind (fun e t _ => fineT e) (fun es t _ => True) _ _ _ _ _ _ _ _ _ _ _ _ _ _ _ _ _ _ e t H); clear e t H; try (intros; exact I);
      try (intros; intros nX pX TX HX; first [discriminate TX|injection TX as <-; inversion HX; noval]).
    - intros l t _ n p T H. injection T as <-. apply (copies_val (VLit l)) in H. subst. now split.
    - intros p0 c ls t _ _ n p T H. injection T as <-. apply (copies_val (VArr p0 ls)) in H. subst. now split.
    - intros x _ _ n p T H. injection T as <-. inversion H; subst; try noval. split; [reflexivity|]. intros w row nm A. cbn [ql_means ql_value]. now rewrite A.
    - intros e t w1 w2 _ IH _ _ n p T H. cbn [tree_of] in T. injection T as <-. inversion H; subst; try noval. exact (IH e0 p ltac:(congruence) ltac:(assumption)).
    - intros. now apply B.
    - intros. now apply B.
    - intros e te w1 o w2 p0 c ls ta _ _ IH _ OP _ _ _ n p T H. cbn [tree_of] in T. injection T as <-.
      destruct (tree_of lo e) as [m|] eqn:T; [|inversion H; noval]. apply copies_cmp_inv in H as (op & x & y & I & H1 & H2 & ->). cbn [nOperation mk_op] in I.
      pose proof (in_takes o op OP I) as N. apply (copies_val (VArr p0 ls)) in H2. subst y. destruct (IH m x T H1) as [K1 K2]. split; [cbn [takes]; now rewrite K1, N|].
      intros w row nm A. cbn [ql_means ql_value]. rewrite (cmp_in_ops o op in_ops w I N), (K2 w row nm A); [reflexivity|]. apply incl_appl, incl_refl.
    - intros l tl w1 o w2 r tr _ _ _ IH1 _ OP _ _ IH2 _ n p T H. cbn [tree_of] in T. injection T as <-.
      destruct (tree_of lo l) as [ml|] eqn:T1; [|inversion H; noval]. destruct (tree_of lo r) as [mr|] eqn:T2; [|inversion H; noval].
      apply copies_cmp_inv in H as (op & x & y & I & H1 & H2 & ->). cbn [nOperation mk_op] in I. pose proof (cmp_takes o op OP I) as N.
      destruct (IH1 ml x T1 H1) as [K1 K2]. destruct (IH2 mr y T2 H2) as [K3 K4]. split; [cbn [takes]; now rewrite K1, K3, N|].
      intros w row nm A. cbn [ql_means ql_value]. rewrite (cmp_in_ops o op cmp_syms w I N), (K2 w row nm A), (K4 w row nm A); [reflexivity|]. apply incl_appr, incl_refl.
    - intros k g e t _ _ _ _ IH n p T H. cbn [tree_of] in T. injection T as <-. destruct (tree_of lo e) as [m|] eqn:T; [|inversion H; noval].
      inversion H; subst; try noval. destruct (IH m p T ltac:(assumption)) as [K1 K2]. now split.
    - intros l tl w1 o w2 r tr _ _ IH1 _ OP _ _ IH2 _ _ n p T H. cbn [tree_of] in T. injection T as <-.
      destruct (tree_of lo l) as [ml|] eqn:T1; [|inversion H; noval]. destruct (tree_of lo r) as [mr|] eqn:T2; [|inversion H; noval].
      apply copies_logic_inv in H as (op & x & y & I & H1 & H2 & ->). cbn [nOperation mk_op] in I. pose proof (logic_op lo o OP) as E.
      assert (F : forall w, eop_world w op = Some (if is_or o then wOr w else wAnd w)).
      { intro w. clear - I E. unfold op_sql in E. revert I E. generalize (op_name lo o). intros n I E. unfold ql_operators in I. cbn [In] in I.
        decompose [or] I; try contradiction; match goal with K : (_, _) = (_, _) |- _ => injection K as <- <- end; destruct (is_or o); (reflexivity || (exfalso; vm_compute in E; discriminate E)). }
      destruct (IH1 ml x T1 H1) as [K1 K2]. destruct (IH2 mr y T2 H2) as [K3 K4]. split; [cbn [takes]; now rewrite K1, K3|].
      intros w row nm A. cbn [ql_means ql_value]. now rewrite F, (K2 w row nm A), (K4 w row nm A).
  Qed.
  (** the other way round: what [takes] says is taken *)
  Lemma takes_copies : forall e t, lay e t -> takes lo e = true -> exists n p, tree_of lo e = Some n /\ copies true n p.
  Proof.
    assert (B : forall e o b x y, (takes lo e = true -> exists n p, tree_of lo e = Some n /\ copies true n p) ->
      takes lo (EBetween e o b x y) = true -> exists n p, tree_of lo (EBetween e o b x y) = Some n /\ copies true n p).
    { intros e o b x y IH Hn. cbn [takes] in Hn. destruct (IH Hn) as (n & p & T & C). cbn [tree_of]. rewrite T. destruct (streq_spec (op_name lo o) #"not between") as [E|E].
      - do 2 eexists. split; [reflexivity|]. apply cop_not_between; [exact E|exact C|apply copies_of_val|apply copies_of_val].
      - do 2 eexists. split; [reflexivity|]. apply cop_between; [exact E|exact C|apply copies_of_val|apply copies_of_val]. }
    intros e t H. refine (lay_mind (fun e t _ => takes lo e = true -> exists n p, tree_of lo e = Some n /\ copies true n p) (fun es t _ => True) _ _ _ _ _ _ _ _ _ _ _ _ _ _ _ _ _ _ e t H); clear e t H; try (intros; exact I); try (intros; match goal with K : _ = true |- _ => discriminate K end).
    - intros l t _ _. do 2 eexists. split; [reflexivity|]. exact (copies_of_val (VLit l)).
    - intros p0 c ls t _ _ _. do 2 eexists. split; [reflexivity|]. exact (copies_of_val (VArr p0 ls)).
    - intros x _ _ _. do 2 eexists. split; [reflexivity|]. apply cop_name.
    - intros e t w1 w2 _ IH _ _ Hn. destruct (IH Hn) as (n & p & T & C). cbn [tree_of]. rewrite T. do 2 eexists. split; [reflexivity|]. exact (cop_paren true n p C).
    - intros. now apply B.
    - intros. now apply B.
    - intros e te w1 o w2 p0 c ls ta _ _ IH _ _ _ _ _ Hn. cbn [takes] in Hn. apply andb_prop in Hn as [Hn Ho]. destruct (IH Hn) as (n & p & T & C). destruct (named_op lo o (or_intror (or_introl Ho))) as (op & I). cbn [tree_of]. rewrite T.
      do 2 eexists. split; [reflexivity|]. apply (cop_compare true n _ (mk_op (op_name lo o)) op p (XValue (val_value (VArr p0 ls)))); [exact I|exact C|exact (copies_of_val (VArr p0 ls))].
    - intros l tl w1 o w2 r tr _ _ _ IH1 _ _ _ _ IH2 _ Hn. cbn [takes] in Hn. apply andb_prop in Hn as [Hn Ho]. apply andb_prop in Hn as [Hn1 Hn2]. destruct (IH1 Hn1) as (n1 & p1 & T1 & C1). destruct (IH2 Hn2) as (n2 & p2 & T2 & C2).
      destruct (named_op lo o (or_introl Ho)) as (op & I). cbn [tree_of]. rewrite T1, T2. do 2 eexists. split; [reflexivity|]. apply (cop_compare true n1 n2 (mk_op (op_name lo o)) op p1 p2); assumption.
    - intros k g e t _ _ _ _ IH Hn. destruct (IH Hn) as (n & p & T & C). cbn [tree_of]. rewrite T. do 2 eexists. split; [reflexivity|]. exact (cop_not true n p eq_refl C).
    - intros l tl w1 o w2 r tr _ _ IH1 _ OP _ _ IH2 _ _ Hn. cbn [takes] in Hn. apply andb_prop in Hn as [Hn1 Hn2]. destruct (IH1 Hn1) as (n1 & p1 & T1 & C1). destruct (IH2 Hn2) as (n2 & p2 & T2 & C2).
      destruct (named_op lo o (or_intror (or_intror OP))) as (op & I). cbn [tree_of]. rewrite T1, T2. do 2 eexists. split; [reflexivity|]. apply (cop_logic true n1 n2 (mk_op (op_name lo o)) op p1 p2); assumption.
  Qed.
  Lemma conditional_tree : forall e n, takes lo e = true -> tree_of lo e = Some n -> is_condition n = conditional e.
  Proof.
    fix IH 1. intros [[[]|]|x|xs|xs|f args|e|e o b x y|e o|e o p ls|l o r|e|l o r] n Hn T; cbn [tree_of val_node lit_node] in T; try discriminate Hn; try (injection T as <-; reflexivity);
    cbn [takes] in Hn; injection T as <-; cbn [conditional]; (destruct (tree_of lo e) as [m|] eqn:E; [rewrite <- (IH e m Hn E); reflexivity|destruct e; discriminate]).
  Qed.
  Lemma takes_json_free : forall e, takes lo e = true -> json_free e = true.
  Proof.
    fix IH 1. intros [v|x|xs|xs|f args|e|e o b x y|e o|e o p ls|l o r|e|l o r] H; cbn [takes json_free] in *; try reflexivity; try discriminate; try (now apply IH).
    - apply andb_prop in H as [H _]. now apply IH.
    - apply andb_prop in H as [H _]. apply andb_prop in H as [H1 H2]. now rewrite (IH _ H1), (IH _ H2).
    - apply andb_prop in H as [H1 H2]. now rewrite (IH _ H1), (IH _ H2).
  Qed.
  Lemma ql_accepts : forall q e, valid_runes q -> reads q e -> json_free e = true ->
    ((exists p, build_entql lo q = Ok (Some p)) <-> fits e = true /\ takes lo e = true /\ conditional e = true).
  Proof.
    intros q e Hq He Hj. split.
    - intros (p & H). apply (build_predicate lo q p Hq) in H as (n & Hp & K & C).
      assert (Hf : fits e = true) by (destruct (parse_ok_inv lo q _ Hq Hp) as (e2 & H2 & Hf & _); now rewrite (reads_unique _ _ _ He H2)).
      pose proof (parse_spec lo q e Hq He Hf Hj) as Hp'. rewrite Hp in Hp'. injection Hp' as Hp'. symmetry in Hp'. destruct He as (w1 & t & w2 & _ & _ & _ & Hl).
      destruct (all_fineT e t Hl n p Hp' K) as [T _]. rewrite (conditional_tree e n T Hp') in C. now repeat split.
    - intros (Hf & Ht & Hc). pose proof (parse_spec lo q e Hq He Hf Hj) as Hp. destruct He as (w1 & t & w2 & _ & _ & _ & Hl).
      destruct (takes_copies e t Hl Ht) as (n & p & T & C). exists p. apply (build_predicate lo q p Hq). exists n. rewrite T in Hp. split; [exact Hp|]. split; [exact C|]. now rewrite (conditional_tree e n Ht T).
  Qed.
  Lemma ql_exact_value : forall q e p, valid_runes q -> reads q e -> json_free e = true -> build_entql lo q = Ok (Some p) ->
    forall w row nm, (forall x, nm [x] = row x) -> ql_means w row p = Some (ql_value w lo nm e).
  Proof.
    intros q e p Hq He Hj H. apply (build_predicate lo q p Hq) in H as (n & Hp & K & C).
    assert (Hf : fits e = true) by (destruct (parse_ok_inv lo q _ Hq Hp) as (e2 & H2 & Hf & _); now rewrite (reads_unique _ _ _ He H2)).
    pose proof (parse_spec lo q e Hq He Hf Hj) as Hp'. rewrite Hp in Hp'. injection Hp' as Hp'. symmetry in Hp'. destruct He as (w1 & t & w2 & _ & _ & _ & Hl).
    now destruct (all_fineT e t Hl n p Hp' K) as [_ T].
  Qed.
End QL2.

(** ** Exactness *)
(** A lawful world that only sees whether something is negated. *)
Definition taint : world :=
  World bool (fun _ => false) (fun _ a b => a || b) (fun _ a => a) (fun neg a b c => neg || (a || b) || (a || c)) (fun a => a)
    (fun l => existsb (fun b => b) l) (fun _ => true) orb orb.
Lemma lawful_taint : lawful taint.
Proof.
  split; [reflexivity|]. split; [intros; apply Bool.orb_assoc|]. intro l. cbn. induction l as [|v l IH]; [reflexivity|exact IH].
Qed.
Section Exact.
  Variable lo : N -> N.
  Lemma taint_ql : forall e, takes lo e = true -> ql_value taint lo (fun _ => false) e = false.
  Proof.
    fix IH 1. intros [v|x|xs|xs|f args|e|e o b x y|e o|e o p ls|l o r|e|l o r] H; cbn [takes ql_value] in *; try reflexivity; try discriminate; try (now apply IH).
    - rewrite (IH e H). destruct (streq _ _); reflexivity.
    - apply andb_prop in H as [H _]. cbn. now rewrite (IH e H).
    - apply andb_prop in H as [H _]. apply andb_prop in H as [H1 H2]. cbn. now rewrite (IH l H1), (IH r H2).
    - apply andb_prop in H as [H1 H2]. destruct (is_or o); cbn; now rewrite (IH l H1), (IH r H2).
  Qed.
  Lemma taint_query : forall e, takes lo e = true -> query_means taint lo (fun _ => false) e = negb (affirmed lo e).
  Proof.
    fix IH 1. intros [v|x|xs|xs|f args|e|e o b x y|e o|e o p ls|l o r|e|l o r] H; cbn [takes query_means affirmed] in *; try reflexivity; try discriminate; try (now apply IH).
    - cbn [wBetween taint wVal]. rewrite (IH e H). destruct (affirmed lo e), (streq _ _); reflexivity.
    - apply andb_prop in H as [H _]. cbn. rewrite (IH e H). apply Bool.orb_false_r.
    - apply andb_prop in H as [H _]. apply andb_prop in H as [H1 H2]. cbn. rewrite (IH l H1), (IH r H2). now destruct (affirmed lo l), (affirmed lo r).
    - apply andb_prop in H as [H1 H2]. destruct (is_or o); cbn; rewrite (IH l H1), (IH r H2); now destruct (affirmed lo l), (affirmed lo r).
  Qed.
  Lemma affirmed_value : forall w nm, lawful w -> forall e, takes lo e = true -> affirmed lo e = true -> ql_value w lo nm e = query_means w lo nm e.
  Proof.
    intros w nm (W1 & _ & _). fix IH 1. intros [v|x|xs|xs|f args|e|e o b x y|e o|e o p ls|l o r|e|l o r] H A; cbn [takes query_means affirmed ql_value] in *; try reflexivity; try discriminate; try (now apply IH).
    - apply andb_prop in A as [A1 A2]. apply Bool.negb_true_iff in A2. rewrite A2, (IH e H A1), W1. reflexivity.
    - apply andb_prop in H as [H _]. now rewrite (IH e H A).
    - apply andb_prop in H as [H _]. apply andb_prop in H as [H1 H2]. apply andb_prop in A as [A1 A2]. now rewrite (IH l H1 A1), (IH r H2 A2).
    - apply andb_prop in H as [H1 H2]. apply andb_prop in A as [A1 A2]. rewrite (IH l H1 A1), (IH r H2 A2). now destruct (is_or o).
  Qed.
  Lemma ql_exact : forall e, takes lo e = true ->
    (affirmed lo e = true <-> forall w nm, lawful w -> ql_value w lo nm e = query_means w lo nm e).
  Proof.
    intros e H. split; [intros A w nm W; now apply affirmed_value|]. intro K. specialize (K taint (fun _ => false) lawful_taint). rewrite (taint_ql e H), (taint_query e H) in K. now destruct (affirmed lo e).
  Qed.

  (** ** Lists of queries *)
  Lemma ql_both : forall w nm es l, ql_value w lo nm (fold_left both es l) = fold_left (wAnd w) (map (ql_value w lo nm) es) (ql_value w lo nm l).
  Proof. intros w nm. induction es as [|e es IH]; intro l; [reflexivity|]. cbn [fold_left map]. now rewrite IH. Qed.
  Lemma json_both : forall es l, json_free l = true -> forallb json_free es = true -> json_free (fold_left both es l) = true.
  Proof. induction es as [|e es IH]; intros l L H; [exact L|]. cbn [fold_left forallb] in *. apply andb_prop in H as [H1 H2]. apply IH; [|exact H2]. cbn [both json_free]. now rewrite L, H1. Qed.
  Lemma fits_both : forall es l, fits l = true -> forallb fits es = true -> fits (fold_left both es l) = true.
  Proof. induction es as [|e es IH]; intros l L H; [exact L|]. cbn [fold_left forallb] in *. apply andb_prop in H as [H1 H2]. apply IH; [|exact H2]. cbn [both fits]. now rewrite L, H1. Qed.
  Lemma takes_both : forall es l, takes lo l = true -> forallb (takes lo) es = true -> takes lo (fold_left both es l) = true.
  Proof. induction es as [|e es IH]; intros l L H; [exact L|]. cbn [fold_left forallb] in *. apply andb_prop in H as [H1 H2]. apply IH; [|exact H2]. cbn [both takes]. now rewrite L, H1. Qed.
  Lemma conditional_both : forall es l, conditional l = true -> conditional (fold_left both es l) = true.
  Proof. induction es as [|e es IH]; intros l L; [exact L|]. cbn [fold_left]. now apply IH. Qed.

  Lemma ql_join : forall x y l e es p, Forall valid_runes (x :: y :: l) -> Forall2 reads (filter (fun v => negb (blank_entry v)) (x :: y :: l)) (e :: es) ->
    forallb json_free (e :: es) = true -> build_entql lo (Build.join (x :: y :: l)) = Ok (Some p) ->
    forall w row nm, (forall c, nm [c] = row c) -> ql_means w row p = Some (fold_left (wAnd w) (map (ql_value w lo nm) es) (ql_value w lo nm e)).
  Proof.
    intros x y l e es p V R J H w row nm A. cbn [forallb] in J. apply andb_prop in J as [J1 J2].
    rewrite (ql_exact_value lo (Build.join (x :: y :: l)) (fold_left both es (EParen e)) p (valid_join x y l V) (join_reads x y l e es R) (json_both es (EParen e) J1 J2) H w row nm A). now rewrite ql_both.
  Qed.
  Lemma apply_means : forall qs es ps, Forall valid_runes qs -> Forall2 reads qs es -> forallb json_free es = true -> apply_entql lo qs = (map Some ps, Ok tt) ->
    forall w row nm, (forall c, nm [c] = row c) -> map (ql_means w row) ps = map Some (map (ql_value w lo nm) es).
  Proof.
    intros qs es ps V R J H w row nm A. apply (apply_success lo) in H. revert ps H. induction R as [|q e qs es R _ IH]; intros ps H.
    - destruct ps; [reflexivity|inversion H].
    - inversion_clear V as [|? ? V1 V2]. cbn [forallb] in J. apply andb_prop in J as [J1 J2]. destruct ps as [|p ps]; [inversion H|]. cbn [map] in H |- *. inversion_clear H as [|? ? ? ? H1 H2].
      rewrite (ql_exact_value lo q e p V1 R J1 H1 w row nm A), (IH V2 J2 ps H2). reflexivity.
  Qed.
  (** joined or applied one after the other *)
  Lemma ql_same : forall x y l e es ps, Forall valid_runes (x :: y :: l) -> Forall2 reads (filter (fun v => negb (blank_entry v)) (x :: y :: l)) (e :: es) ->
    forallb json_free (e :: es) = true -> apply_entql lo (filter (fun v => negb (blank_entry v)) (x :: y :: l)) = (map Some ps, Ok tt) ->
    exists p, build_entql lo (Build.join (x :: y :: l)) = Ok (Some p) /\
      forall (w : world) (T : wV w -> Prop), (forall a b, T (wAnd w a b) <-> T a /\ T b) ->
      forall row, (exists v, ql_means w row p = Some v /\ T v) <-> Forall (fun p => exists v, ql_means w row p = Some v /\ T v) ps.
  Proof.
    intros x y l e es ps V R J H.
    assert (V2 : Forall valid_runes (filter (fun v => negb (blank_entry v)) (x :: y :: l))) by (apply Forall_forall; intros v I; apply filter_In in I as [I _]; now apply (proj1 (Forall_forall _ _) V)).
    pose proof H as HB. apply (apply_success lo) in HB. remember (filter (fun v => negb (blank_entry v)) (x :: y :: l)) as qs eqn:Eq.
    assert (K : Forall (fun e => fits e = true /\ takes lo e = true /\ conditional e = true) (e :: es)).
    { clear -R J HB V2. revert ps HB V2 J. generalize dependent (e :: es). clear e es. intros es R. induction R as [|q e qs es R _ IH]; intros ps HB V2 J; [constructor|].
      inversion_clear V2 as [|? ? V1 V3]. cbn [forallb] in J. apply andb_prop in J as [J1 J2]. destruct ps as [|p ps]; [inversion HB|]. cbn [map] in HB. inversion_clear HB as [|? ? ? ? H1 H2].
      constructor; [|now apply (IH ps)]. apply (ql_accepts lo q e V1 R J1). now exists p. }
    assert (K' : fits e = true /\ takes lo e = true /\ conditional e = true /\ forallb fits es = true /\ forallb (takes lo) es = true).
    { inversion_clear K as [|? ? (K1 & K2 & K3) K4]. repeat split; auto; apply forallb_forall; intros z I; now apply (proj1 (Forall_forall _ _) K4 z I). }
    destruct K' as (F1 & T1 & C1 & F2 & T2). pose proof J as J'. cbn [forallb] in J'. apply andb_prop in J' as [J1 J2]. rewrite Eq in R.
    destruct (proj2 (ql_accepts lo (Build.join (x :: y :: l)) (fold_left both es (EParen e)) (valid_join x y l V) (join_reads x y l e es R) (json_both es (EParen e) J1 J2))) as (p & B).
    { split; [now apply fits_both|]. split; [now apply takes_both|now apply conditional_both]. }
    exists p. split; [exact B|]. intros w T HT row. set (nm := fun xs => match xs with [c] => row c | _ => wVal w GNil end).
    rewrite (ql_join x y l e es p V R J B w row nm (fun c => eq_refl)). rewrite <- Eq in R. pose proof (apply_means qs (e :: es) ps V2 R J H w row nm (fun c => eq_refl)) as M.
    assert (X : forall vs v, T (fold_left (wAnd w) vs v) <-> T v /\ Forall T vs).
    { induction vs as [|u vs IH]; intro v; cbn [fold_left]; [split; [intro Y; now split|now intros [Y _]]|]. rewrite IH, HT. split; [intros [[Y1 Y2] Y3]; repeat constructor; auto|]. intros [Y1 Y2]. inversion_clear Y2. tauto. }
    transitivity (T (fold_left (wAnd w) (map (ql_value w lo nm) es) (ql_value w lo nm e))); [split; [now intros (v & [= ->] & Y)|intro Y; now exists (fold_left (wAnd w) (map (ql_value w lo nm) es) (ql_value w lo nm e))]|].
    rewrite X. transitivity (Forall T (map (ql_value w lo nm) (e :: es))); [cbn [map]; split; [intros [Y1 Y2]; now constructor|intro Y; inversion_clear Y; now split]|].
    revert M. generalize (map (ql_value w lo nm) (e :: es)). clear. intros vs M. revert ps M. induction vs as [|v vs IH]; intros [|p ps] M; try discriminate M; [split; constructor|].
    cbn [map] in M. injection M as M1 M2. specialize (IH ps M2). split; intro Y; inversion_clear Y as [|? ? Y1 Y2]; constructor; try (now apply IH).
    - now exists v.
    - destruct Y1 as (u & E & Y1). rewrite M1 in E. now injection E as ->.
  Qed.
  Lemma ql_escape : forall p x y ep ex ey k, Forall valid_runes [p; x; y] -> reads p ep -> reads x ex -> reads y ey -> forallb json_free [ep; ex; ey] = true ->
    build_entql lo (Build.join [p; x ++ #") or (" ++ y]) = Ok (Some k) ->
    forall w row nm, (forall c, nm [c] = row c) -> ql_means w row k = Some (wOr w (wAnd w (ql_value w lo nm ep) (ql_value w lo nm ex)) (ql_value w lo nm ey)).
  Proof.
    intros p x y ep ex ey k V Rp Rx Ry J H w row nm A. cbn [forallb] in J. apply andb_prop in J as [J1 J]. apply andb_prop in J as [J2 J]. apply andb_prop in J as [J3 _].
    inversion_clear V as [|? ? V1 V']. inversion_clear V' as [|? ? V2 V'']. inversion_clear V'' as [|? ? V3 _].
    refine (ql_exact_value lo (Build.join [p; x ++ #") or (" ++ y]) (ELogic (both (EParen ep) ex) #"or" (EParen ey)) k _ _ _ H w row nm A).
    - apply valid_join. constructor; [exact V1|]. constructor; [|constructor]. repeat (apply valid_app; split); auto using valid_ascii.
    - now apply escape_reads.
    - cbn [both json_free]. now rewrite J1, J2, J3.
  Qed.
End Exact.
