(** Specification of the message of a syntax error. *)
From Verif Require Import Base Peg Grammar Parse ParserFacts2 AstSpec QuoteSpec TrailSpec.

(** The place a failed parse is blamed on: nothing, or the first of the farthest
    hits; [pre], [text], [rest] make up the query. *)
Definition blamed (T : list hit) (name pre text rest : list N) : Prop :=
  (T = [] /\ name = #"Unknown" /\ pre = [] /\ text = []) \/
  (text <> [] /\ exists r, farthest T (r, text, rest) /\ name = title r).

(** Line and symbol of the character at an offset, as numbers in base 10.  The
    line end itself counts as symbol 0 of the next line; the end of the query
    counts as a character. *)
Definition place (q : list N) (k : nat) (l c : list N) : Prop :=
  decimal (line_of (q ++ [endSymbol]) k) l /\ decimal (column_of (q ++ [endSymbol]) k) c.

Definition message (is_print : N -> bool) (pretty : bool) (q : list N) (T : list hit) (out : list N) : Prop :=
  exists name pre text rest l1 c1 l2 c2 lit,
    blamed T name pre text rest /\ q = pre ++ text ++ rest /\
    place q (length pre) l1 c1 /\ place q (length pre + length text) l2 c2 /\ literal is_print text lit /\
    out = [10%N] ++ #"parse error near " ++ coloured pretty #"34" name ++
          #" (line " ++ l1 ++ #" symbol " ++ c1 ++ #" - line " ++ l2 ++ #" symbol " ++ c2 ++ #"):" ++ [10%N] ++ lit ++ [10%N].
