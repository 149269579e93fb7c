(** C99, C100: the generated file statement by statement, and the text of the grammar. *)
From Verif Require Import Base Peg Grammar Node Tree Parse Ast MachineProofs PegSpec GoStmt GoRules GoParse GoMain
  PegText PegRead PegFileSpec PegFile.
Strategy expand [parse_machine]. Strategy 1000 [parse_fuel mrun].

(** ** C99 *)

(** The function of every rule, on every buffer and from every state: whenever the machine
    of Peg.v ends, running the statements of the function ends the same way, with the
    same position, tokenIndex, token array and max. *)
Theorem C99_rule : forall buf r f m, mrun Ggo buf f (PRule r) m <> MFuel ->
  exists i f0, rule_value go_constants (TRule r) = Some i /\
    forall f', f0 <= f' -> call go_constants go_rules buf f' i m =
      match mrun Ggo buf f (PRule r) m with MFuel => CFuel | MPanic => CPanic | MR b s => CRet b s end.
Proof. exact go_rule. Qed.

(** p.Parse() on every query: it returns, and what it returns. *)
Theorem C99_machine : forall q, valid_runes q -> exists b s f0, parse_machine q = MR b s /\
  forall f, f0 <= f -> go_machine f q = CRet b s.
Proof. exact go_machine_ok. Qed.

(** No number of steps gives another result: no panic, nothing that is not Go. *)
Theorem C99_machine_only : forall q f, valid_runes q ->
  go_machine f q = CFuel \/ exists b s, go_machine f q = CRet b s.
Proof. exact go_machine_returns. Qed.

(** miniquery.Parse with the statements of the file and the cases of Execute. *)
Theorem C99_parse : forall lo q, valid_runes q -> exists f0, forall f, f0 <= f -> go_parse lo f q = Some (parse lo q).
Proof. exact go_parse_ok. Qed.
Theorem C99_parse_only : forall lo q f r, valid_runes q -> go_parse lo f q = Some r -> r = parse lo q.
Proof. exact go_parse_only. Qed.

(** rul3s: the names of all constants. *)
Theorem C99_names : (forall r, go_name (TRule r) = Some (rule_name (TRule r))) /\
  (forall n, n < 30 -> go_name (TAct n) = Some (rule_name (TAct n))) /\
  go_name TPegText = Some (rule_name TPegText) /\ nth_error go_names 0 = Some #"Unknown".
Proof. exact (conj go_names_ok (conj go_names_act go_names_text)). Qed.

Definition lo0 : N -> N := fun c => c.
Example C99_example :
  go_parse lo0 2000 #"a.b not in [1,2] and not (c like 'x%' or d is null)" =
    Some (parse lo0 #"a.b not in [1,2] and not (c like 'x%' or d is null)") /\
  go_parse lo0 2000 #"a = 1 and" = Some (Err (PESyntax 6 9)) /\
  go_parse lo0 5 #"a = 1" = None.
Proof. split; [|split]; vm_compute; reflexivity. Qed.
(** A rule function alone: Identifier in the middle of a text, from a state with a token. *)
Example C99_rule_example :
  let buf := #"x = abc1 " ++ [endSymbol] in
  let m := MState 4 1 [Tok (TRule r_) 0 0] tok0 in
  call go_constants go_rules buf 100 15 m =
    CRet true (MState 8 4 [Tok (TRule r_) 0 0; Tok TPegText 4 8; Tok (TAct 14) 8 8; Tok (TRule rIdentifier) 4 8]
                 (Tok TPegText 4 8)).
Proof. vm_compute. reflexivity. Qed.

(** ** C100 *)

(** The text of miniquery.peg reads as a grammar in which each rule is defined once, and for
    every query the generated code returns what this grammar and its actions say. *)
Theorem C100_file : exists rules acts, read_peg peg_names peg_text = Some (rules, acts) /\
  NoDup (map fst rules) /\ (exists G, forall r, In (r, G r) rules) /\
  forall lo G q, (forall r, In (r, G r) rules) -> valid_runes q ->
  exists o f0, matches G (PRule rGrammar) q o /\
    forall f, f0 <= f -> exists res, go_parse lo f q = Some res /\ returns lo acts o res.
Proof.
  exact (ex_intro _ file_rules (ex_intro _ file_acts
    (conj file_read (conj file_nodup (conj (ex_intro _ Gpeg file_gpeg) file_parse))))).
Qed.

(** The same for each rule at each place of a query. *)
Theorem C100_rule : exists rules acts, read_peg peg_names peg_text = Some (rules, acts) /\
  forall G q r p, (forall r, In (r, G r) rules) -> valid_runes q -> p <= length q ->
  exists i b s f0, rule_value go_constants (TRule r) = Some i /\
    (forall f, f0 <= f -> call go_constants go_rules (init_buffer q) f i (MState p 0 [] tok0) = CRet b s) /\
    matches G (PRule r) (skipn p q) (if b then Some (toks_events q (firstn (mtidx s) (mtree s)), skipn (mpos s) q) else None).
Proof. exact (ex_intro _ file_rules (ex_intro _ file_acts (conj file_read file_rule))). Qed.

(** The actions, in the order of the file, are the cases of Execute in order. *)
Theorem C100_actions : exists rules acts, read_peg peg_names peg_text = Some (rules, acts) /\
  map call_of acts = map (fun p => Some (snd p)) go_actions.
Proof. exact (ex_intro _ file_rules (ex_intro _ file_acts (conj file_read acts_calls))). Qed.

(** The reader on a small file. *)
Example C100_example :
  read_peg [(#"A", rGrammar); (#"B", rExpression)]
    #"package x type T Peg { *U } A <- <""n"" 'ab'>? (B / [^0-9x])* {p.F(text)} # comment
B <- !'\n' . {p.G()}" =
  Some ([(rGrammar, PSeq (POpt (PCap (PSeq (PAlt (PChar 110) (PChar 78)) (PSeq (PChar 97) (PChar 98)))))
           (PSeq (PStar (PAlt (PRule rExpression) (PSeq (PNot (PAlt (PRange 48 57) (PChar 120))) PDot))) (PAct 0)));
         (rExpression, PSeq (PNot (PChar 10)) (PSeq PDot (PAct 1)))],
        [#"p.F(text)"; #"p.G()"]).
Proof. vm_compute. reflexivity. Qed.

Print Assumptions C99_rule. Print Assumptions C99_machine. Print Assumptions C99_machine_only.
Print Assumptions C99_parse. Print Assumptions C99_parse_only. Print Assumptions C99_names.
Print Assumptions C100_file. Print Assumptions C100_rule. Print Assumptions C100_actions.
