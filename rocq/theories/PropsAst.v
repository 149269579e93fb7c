(** Properties C60 and C61: the syntax tree of the generated parser, its printed
    form, and parsing again with a used parser.  Statements only; proofs are in
    AstProofs.v.  [derives] is in AstSpec.v, [Gpeg] is the published grammar. *)
From Verif Require Import Base Peg PegSpec MachineProofs Grammar Node Vocab Tree Parse Syntax Build Ast AstSpec AstProofs.
Strategy expand [parse_machine parse_again].
Strategy 1000 [parse_fuel mrun].

(** ** C60 *)
(** AST of an accepted query: the parse tree of the published grammar. *)
Theorem C60_tree : forall q e, valid_runes q -> reads q e -> exists tokens n P,
  parser_tokens q = Some tokens /\ ast tokens = Some n /\
  derives Gpeg (PRule rGrammar) q (Some ([P], [])) /\ depicts q n P /\
  nested n /\ ntok n = Tok (TRule rGrammar) 0 (length q).
Proof.
  intros q e Hq He. destruct (reads_machine q e Hq He) as (s & HM).
  destruct (print_tree (fun _ => true) false q s Hq HM) as (n & P & A & B & C & D & F & K & _). exact (ex_intro _ _ (ex_intro _ n (ex_intro _ P
    (conj A (conj B (conj C (conj D (conj F K)))))))).
Qed.
(** A grammar gives a text at most one parse tree. *)
Theorem C60_unique : forall G e s o1 o2, derives G e s o1 -> derives G e s o2 -> o1 = o2.
Proof. exact (fun G e s o1 o2 H1 H2 => derives_det G e s o2 H2 o1 H1). Qed.
(** What is printed is the outline of that parse tree, one line per node, in
    colour or not; SprintSyntaxTree returns the form without colour. *)
Theorem C60_print : forall is_print pretty q e, valid_runes q -> reads q e -> exists P out,
  derives Gpeg (PRule rGrammar) q (Some ([P], [])) /\
  print_syntax_tree is_print pretty q = Some out /\ printed is_print pretty P out /\
  (pretty = false -> sprint is_print q = Some out).
Proof.
  intros ip pr q e Hq He. destruct (reads_machine q e Hq He) as (s & HM).
  destruct (print_tree ip pr q s Hq HM) as (n & P & _ & _ & C & _ & _ & _ & out & F). destruct F as [F1 F2].
  exists P, out. split; [exact C|]. split; [exact F1|]. split; [exact F2|]. intros ->. exact F1.
Qed.
(** Printing never panics, not even after a failed parse. *)
Theorem C60_no_panic : forall is_print pretty q, valid_runes q -> exists out, print_syntax_tree is_print pretty q = Some out.
Proof. exact print_total. Qed.
Definition ip60 (c : N) : bool := (32 <=? c)%N.
Example C60_ex : sprint ip60 #"not a" = Some #"Grammar ""not a""
 Expression ""not a""
  LogicExpression ""not a""
   NotExpression ""not a""
    __ "" ""
     SpaceComment "" ""
      Space "" ""
    CompareExpression ""a""
     CompareInExpression ""a""
      PredicateExpression ""a""
       BetweenExpression ""a""
        PrimaryExpression ""a""
         Reference ""a""
          Identifier ""a""
           PegText ""a""
" /\ sprint ip60 #"a = =" = Some #"Compare "" = ""
 _ "" ""
  SpaceComment "" ""
   Space "" ""
".
Proof. split; vm_compute; reflexivity. Qed.
Example C60_ex_reads : reads #"not a" (ENot (EName #"a")).
Proof.
  exists [], #"not a", []. split; [reflexivity|]. split; [apply blank_nil|]. split; [apply blank_nil|].
  apply (lay_not #"not" #" " (EName #"a") #"a").
  - reflexivity.
  - split; [apply blank_char; [reflexivity|apply blank_nil]|discriminate].
  - cbn. lia.
  - apply lay_name; [split|].
    + exists 97%N, []. auto.
    + intros (a & r & E & K). unfold ci in K. destruct a as [|x [|y a]]; [discriminate K|discriminate K|discriminate E].
    + intros [(r & E)|[(r & E)|[(r & E)|[(r & E)|[(r & E)|(r & E)]]]]]; discriminate E.
Qed.

(** ** C61 *)
(** A parser whose buffer is replaced and which is Reset gives, whatever tokens
    ([old]) an earlier parse left in it, the tokens of a new parser if the query
    is accepted and the same error position if not. *)
Theorem C61_reuse : forall q old,
  match parse_machine q, parse_again q old with
  | MR true s, MR true s' => trim (mtree s') (mtidx s') = trim (mtree s) (mtidx s) /\ mpos s' = mpos s
  | MR false s, MR false s' => mmax s' = mmax s
  | MFuel, MFuel | MPanic, MPanic => True
  | _, _ => False
  end.
Proof. exact reparse. Qed.
(** After a rejected query the leftover tokens do show: printing the syntax tree
    of the used parser then panics ([None]), that of a new parser does not. *)
Theorem C61_stale_refuted : forall is_print, exists q1 q2 s1 s2, valid_runes q1 /\ valid_runes q2 /\
  parse_machine q1 = MR true s1 /\ parse_again q2 (mtree s1) = MR false s2 /\
  sprint_tokens is_print q2 (mtree s2) = None /\ exists out, sprint is_print q2 = Some out.
Proof.
  intro ip. exists #"abc", #"=". do 2 eexists. do 2 (split; [apply valid_runesb_spec; vm_compute; reflexivity|]).
  do 2 (split; [vm_compute; reflexivity|]). split; [vm_compute; reflexivity|]. apply sprint_total. apply valid_runesb_spec. vm_compute. reflexivity.
Qed.
Example C61_ex : exists s s1 s2, parse_machine #"a like 'b' and c" = MR true s1 /\ parse_machine #"1" = MR true s /\
  parse_again #"1" (mtree s1) = MR true s2 /\ mtree s2 <> mtree s /\ trim (mtree s2) (mtidx s2) = mtree s.
Proof.
  do 3 eexists. do 3 (split; [vm_compute; reflexivity|]). split; [|vm_compute; reflexivity]. vm_compute. intro K. discriminate K.
Qed.

Print Assumptions C60_tree. Print Assumptions C60_unique. Print Assumptions C60_print. Print Assumptions C60_no_panic.
Print Assumptions C61_reuse. Print Assumptions C61_stale_refuted.
