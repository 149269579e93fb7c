(** C92: brackets.  Proofs in BracketFacts.v. *)
From Verif Require Import Base Peg Grammar Node Vocab Tree Parse Syntax ParseProofs ParserFacts ParserFacts2 ParserMain Build NodeFacts Reader SqlScope BracketSpec BracketFacts.
Strategy expand [parse_machine rule_trace].
Strategy 1000 [parse_fuel mrun tok_trace].

(** The brackets of every query match, outside strings and comments. *)
Theorem C92_balanced : forall lo q n, valid_runes q -> parse lo q = Ok n -> balanced q.
Proof. intros lo q n V P. destruct (parse_ok_inv lo q n V P) as (e & R & _). exact (reads_balanced q e R). Qed.
(** Parentheses around a text whose brackets match hold a query, a list of
    literals or, behind a name, arguments. *)
Theorem C92_parentheses : forall lo A x B n, valid_runes (A ++ #"(" ++ x ++ #")" ++ B) -> parse lo (A ++ #"(" ++ x ++ #")" ++ B) = Ok n ->
  in_code A -> balanced x -> holds A x.
Proof. intros lo A x B n V P I H. destruct (parse_ok_inv lo _ n V P) as (e & R & _). exact (reads_holds _ e A x B R eq_refl I H). Qed.
(** So, if a joined list is accepted, the brackets of its entries match if and
    only if each is a query (or a list of literals). *)
Theorem C92_entries : forall lo x y l n, Forall valid_runes (x :: y :: l) -> parse lo (join (x :: y :: l)) = Ok n ->
  Forall balanced (filter (fun v => negb (blank_entry v)) (x :: y :: l)) <->
  Forall (fun v => (exists m, parse lo v = Ok m) \/ listing v) (filter (fun v => negb (blank_entry v)) (x :: y :: l)).
Proof. exact join_accepted. Qed.
(** And then the joined query is the "and" of the entries, each in its parentheses. *)
Theorem C92_joined : forall lo x y l n, Forall valid_runes (x :: y :: l) -> parse lo (join (x :: y :: l)) = Ok n ->
  Forall balanced (filter (fun v => negb (blank_entry v)) (x :: y :: l)) ->
  exists g gs, Forall2 operand (filter (fun v => negb (blank_entry v)) (x :: y :: l)) (g :: gs) /\
    reads (join (x :: y :: l)) (fold_left (fun l g => ELogic l #"and" g) gs g).
Proof.
  intros lo x y l n V P F. destruct (parse_ok_inv lo _ n (valid_join x y l V) P) as (E & R & _). destruct (join_operands x y l E R F) as (g & gs & H & ->). now exists g, gs.
Qed.
(** The lists of literals are needed: such an entry is not a query. *)
Theorem C92_listing_refuted : forall lo, let x := #"1, '('" in
  valid_runes x /\ balanced x /\ (exists n, parse lo (join [#"a = 1"; x]) = Ok n) /\ ~ exists m, parse lo x = Ok m.
Proof.
  intros lo x. split; [apply valid_runesb_spec; vm_compute; reflexivity|]. split; [vm_compute; reflexivity|]. split; [eexists; vm_compute; reflexivity|].
  intros (m & H). vm_compute in H. discriminate.
Qed.

(** An entry that gets out of its parentheses; the same text in a string; an open
    string; brackets of different kinds; an open comment. *)
Example C92_ex : balancedb #"a=1) or (b=2" = false /\ balancedb #"a=')' and f((b), [1]) --(
" = true /\ balancedb #"a='" = false /\ balancedb #"(1]" = false /\ balancedb #"a=1 --" = false /\
  (exists n, parse (fun c => c) (join [#"a=')' and f((b), [1]) --(
"; #"c->d = 2"; #""]) = Ok n) /\
  holds #"a = 1 and f" #"b, c".
Proof.
  split; [reflexivity|]. split; [vm_compute; reflexivity|]. split; [reflexivity|]. split; [reflexivity|]. split; [reflexivity|]. split; [eexists; vm_compute; reflexivity|].
  eapply (C92_parentheses (fun c => c) #"a = 1 and f" #"b, c" #"").
  - apply valid_runesb_spec; vm_compute; reflexivity.
  - vm_compute. reflexivity.
  - exists Code, []. split; reflexivity.
  - reflexivity.
Qed.
Lemma balancedb_spec : forall t, balancedb t = true <-> balanced t.
Proof.
  intro t. unfold balancedb, balanced. destruct (scan t (Code, [])) as [[m k]|]; [|split; discriminate]. destruct m, k; split; intro H; try discriminate; reflexivity.
Qed.

Print Assumptions C92_balanced.
Print Assumptions C92_parentheses.
Print Assumptions C92_entries.
Print Assumptions C92_joined.
Print Assumptions C92_listing_refuted.
