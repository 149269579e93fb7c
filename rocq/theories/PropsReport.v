(** Properties C19 (which place a syntax error names) and C66 (its message).
    Statements only; proofs are in TrailProofs.v, ReportProofs.v.  [trail] is in
    TrailSpec.v, [message] in ReportSpec.v, [Gpeg] is the published grammar. *)
From Verif Require Import Base Peg PegSpec MachineProofs Grammar Node Vocab Tree Parse Syntax ParserFacts ParserFacts2 ParserMain
  Build Ast QuoteSpec QuoteProofs AstSpec AstProofs TrailSpec TrailProofs Report ReportSpec ReportProofs.
Strategy expand [parse_machine].
Strategy 1000 [parse_fuel mrun].

(** ** C19 *)
(** The reported span is the first among the texts reaching farthest that a rule
    or a capture of miniquery.peg matches while the query is tried; (0, 0) if
    none matches anything. *)
Theorem C19_farthest : forall lo q b e, valid_runes q -> parse lo q = Err (PESyntax b e) -> exists T name pre text rest,
  trail Gpeg (PRule rGrammar) q None T /\ blamed T name pre text rest /\ q = pre ++ text ++ rest /\
  b = length pre /\ e = length pre + length text.
Proof.
  intros lo q b e Hq H. destruct (parse_error_span lo q b e Hq H) as (m & Hm & <- & <-). clear H.
  destruct (error_blamed q m Hq Hm) as (T & n & pre & t & r & A & B & C & D & F & _). clear Hm.
  exists T, n, pre, t, r. split; [exact A|]. split; [exact B|]. split; [exact C|]. split; [exact D|exact F].
Qed.
(** There is one such place. *)
Theorem C19_unique : forall q T T' o o' n1 pre1 t1 r1 n2 pre2 t2 r2,
  trail Gpeg (PRule rGrammar) q o T -> trail Gpeg (PRule rGrammar) q o' T' -> blamed T n1 pre1 t1 r1 -> blamed T' n2 pre2 t2 r2 ->
  q = pre1 ++ t1 ++ r1 -> q = pre2 ++ t2 ++ r2 -> (n1, pre1, t1, r1) = (n2, pre2, t2, r2).
Proof.
  intros q T T' o o' n1 pre1 t1 r1 n2 pre2 t2 r2 H H' B B' E E'. destruct (trail_det _ _ _ _ _ H _ _ H') as [_ ->].
  destruct (blamed_unique T q _ _ _ _ _ _ _ _ B B' E E') as (-> & -> & -> & ->). reflexivity.
Qed.

(** ** C66 *)
(** Error() of a syntax error does not panic and returns the message with the
    name of the rule, the two places and the text in question as Go literal. *)
Theorem C66_message : forall is_print pretty q m, valid_runes q -> parse_error q = Some m -> exists T out,
  trail Gpeg (PRule rGrammar) q None T /\ error_text is_print pretty (init_buffer q) m = Some out /\ message is_print pretty q T out.
Proof. exact error_message. Qed.
(** There is one such message. *)
Theorem C66_unique : forall is_print pretty q T T' o o' out out', trail Gpeg (PRule rGrammar) q o T -> trail Gpeg (PRule rGrammar) q o' T' ->
  message is_print pretty q T out -> message is_print pretty q T' out' -> out = out'.
Proof.
  intros ip pr q T T' o o' out out' H H' M M'. destruct (trail_det _ _ _ _ _ H _ _ H') as [_ ->]. exact (message_det ip pr q T out out' M M').
Qed.
(** The queries with such a message are those Parse rejects as not being in the
    language. *)
Theorem C66_when : forall lo q, valid_runes q ->
  ((exists m, parse_error q = Some m) <-> exists b e, parse lo q = Err (PESyntax b e)) /\
  ((exists m, parse_error q = Some m) <-> ~ exists e, reads q e).
Proof. exact error_when. Qed.
(** The literal determines the quoted text. *)
Theorem C66_literal : forall is_print is_print' s s' l, literal is_print s l -> literal is_print' s' l -> s = s'.
Proof. exact literal_unique. Qed.
(** Without colour the message is one empty line and two lines of printable
    characters, whatever the query contains: a query cannot forge log lines or
    send terminal codes through it. *)
Theorem C66_lines : forall is_print q m, (forall c, is_print c = true -> control c = false) -> valid_runes q -> parse_error q = Some m ->
  exists a b, error_text is_print false (init_buffer q) m = Some ([10%N] ++ a ++ [10%N] ++ b ++ [10%N]) /\
    forallb (fun c => negb (control c)) (a ++ b) = true.
Proof.
  intros ip q m Hip Hq H. destruct (error_message ip false q m Hq H) as (T & out & _ & E & M). clear H.
  destruct (message_lines ip q T out Hip M) as (a & b & -> & K). exists a, b. split; [exact E|exact K].
Qed.
(** The text is read when Error is called.  If the parser has been given another
    buffer by then, Error panics or returns another message. *)
Theorem C66_late_refuted : forall is_print pretty, exists q q2 q3 m out, valid_runes q /\ valid_runes q2 /\ valid_runes q3 /\
  parse_error q = Some m /\ error_text is_print pretty (init_buffer q2) m = None /\
  error_text is_print pretty (init_buffer q3) m = Some out /\ forall T o, trail Gpeg (PRule rGrammar) q o T -> ~ message is_print pretty q T out.
Proof. exact late_refuted. Qed.

Definition ip66 (c : N) : bool := (32 <=? c)%N && negb (c =? 127)%N.
Example C66_ex : go_error ip66 false #"a = 1 and
 b ? 2" = Some #"
parse error near Space (line 2 symbol 3 - line 2 symbol 4):
"" ""
" /\ go_error ip66 false #"name = 'x
'?" = Some #"
parse error near String (line 1 symbol 8 - line 2 symbol 2):
""'x\n'""
" /\ go_error ip66 true #"f(1,,2)" = Some ([10%N] ++ #"parse error near " ++ [27%N] ++ #"[34mPegText" ++ [27%N] ++ #"[m (line 1 symbol 3 - line 1 symbol 4):
""1""
") /\ go_error ip66 false #"?" = Some #"
parse error near Unknown (line 1 symbol 1 - line 1 symbol 1):
""""
".
Proof. split; [|split; [|split]]; vm_compute; reflexivity. Qed.

Print Assumptions C19_farthest. Print Assumptions C19_unique. Print Assumptions C66_message. Print Assumptions C66_unique. Print Assumptions C66_when.
Print Assumptions C66_literal. Print Assumptions C66_lines. Print Assumptions C66_late_refuted.
