(** Model of token32.String and tokens32.Print, miniquery/miniquery.peg.go:158-160
    and 204-208. *)
From Verif Require Import Base Peg Grammar Node Tree Parse Build Ast.

(** token32.String, miniquery.peg.go:158-160: the name of the rule in blue,
    begin, end.  %v of a uint32 is its decimal form. *)
Definition token_string (t : token) : list N :=
  [27%N] ++ #"[34m" ++ rule_name (trule t) ++ [27%N] ++ #"[m " ++ print_N (N.of_nat (tbegin t)) ++ #" " ++ print_N (N.of_nat (tend t)).
(** tokens32.Print, miniquery.peg.go:204-208: what is written to the standard
    output; fmt.Println ends the line. *)
Fixpoint print_tokens (tokens : list token) : list N :=
  match tokens with
  | [] => []
  | t :: tokens' => token_string t ++ [10%N] ++ print_tokens tokens'
  end.
(** on a parser that has parsed [q]; [None] is a panic of p.Parse *)
Definition print_parsed (q : list N) : option (list N) :=
  match parser_tokens q with Some tokens => Some (print_tokens tokens) | None => None end.
