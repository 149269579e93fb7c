(** C93: the listing of the tokens.  Proofs in ListingFacts.v. *)
From Verif Require Import Base Peg Grammar Node Vocab Tree Parse Build Syntax ParseProofs ParserFacts ParserFacts2 ParserMain MachineProofs Reader QuoteSpec Ast AstSpec Listing ListingSpec ListingFacts.
Strategy expand [parse_machine rule_trace].
Strategy 1000 [parse_fuel mrun tok_trace].

(** tokens32.Print writes one line for each token, with its rule and its span. *)
Theorem C93_lines : forall ts, lists ts (print_tokens ts).
Proof. exact print_lists. Qed.
(** A listing is that of one list of tokens only. *)
Theorem C93_readable : forall ts ts' out, lists ts out -> lists ts' out -> ts = ts'.
Proof. exact lists_inj. Qed.
(** After Parse, whether it accepted or not, the spans lie in the query. *)
Theorem C93_parsed : forall q, valid_runes q -> exists ts out, parser_tokens q = Some ts /\ print_parsed q = Some out /\ lists ts out /\
  Forall (fun t => tbegin t <= tend t <= length q) ts.
Proof.
  intros q V. destruct (AstProofs.print_total (fun _ => true) false q V) as (o & H). unfold print_syntax_tree in H. unfold print_parsed.
  destruct (parser_tokens q) as [ts|] eqn:E; [|discriminate]. exists ts, (print_tokens ts). split; [reflexivity|]. split; [reflexivity|]. split; [apply print_lists|]. exact (tokens_in q ts V E).
Qed.
(** For an accepted query the lines with a non-empty span are the syntax tree in
    post-order; the last is the whole query. *)
Theorem C93_postorder : forall q e, valid_runes q -> reads q e -> exists ts n, parser_tokens q = Some ts /\ ast ts = Some n /\
  postorder n = filter nonempty ts /\ ntok n = Tok (TRule rGrammar) 0 (length q).
Proof. exact listing_post. Qed.

(** The listing of the query 0: blanks, the captured text, action 25, and the rules
    from the inside to the outside. *)
Definition line93 (r : list N) (span : list N) : list N := [27%N] ++ #"[34m" ++ r ++ [27%N] ++ #"[m " ++ span ++ [10%N].
Example C93_ex : valid_runes #"0" /\ (exists e, reads #"0" e) /\ print_parsed #"0" = Some (line93 #"_" #"0 0" ++ line93 #"PegText" #"0 1" ++ line93 #"Action25" #"1 1" ++
  concat (map (fun r => line93 r #"0 1") [#"Integer"; #"Literal"; #"Value"; #"PrimaryExpression"; #"BetweenExpression"; #"PredicateExpression"; #"CompareInExpression";
    #"CompareExpression"; #"NotExpression"; #"LogicExpression"; #"Expression"]) ++ line93 #"_" #"1 1" ++ line93 #"EndOfFile" #"1 1" ++ line93 #"Grammar" #"0 1") /\
  print_parsed #"=" = Some (line93 #"_" #"0 0" ++ line93 #"_" #"0 0").
Proof.
  split; [apply valid_runesb_spec; vm_compute; reflexivity|]. split; [exists (EVal (VLit (LInt #"0"))); apply read_of_reads; vm_compute; reflexivity|].
  split; vm_compute; reflexivity.
Qed.

Print Assumptions C93_lines.
Print Assumptions C93_readable.
Print Assumptions C93_parsed.
Print Assumptions C93_postorder.
