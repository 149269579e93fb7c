(** Model of parseError: the value p.Parse returns and its Error method,
    miniquery/miniquery.peg.go:313-341.  [None] is a panic. *)
From Verif Require Import Base Peg Grammar Node Tree Parse Build Ast.

(** p.parse on failure returns &parseError{p, max}, miniquery.peg.go:475-487:
    [Some max], or [None] if there is no syntax error. *)
Definition parse_error (q : list N) : option token :=
  match parse_machine q with
  | MR false s => Some (mmax s)
  | _ => None
  end.

(** rul3s[e.max.pegRule], miniquery.peg.go:85-151, 333.  The zero token32 has
    rule 0, "Unknown"; max is otherwise a token that is not empty (add,
    miniquery.peg.go:489-495), and [tok0] stands for the zero token. *)
Definition max_name (m : token) : list N :=
  if Nat.eqb (tbegin m) (tend m) then #"Unknown" else rule_name (trule m).

Section Error.
  Variable is_print : N -> bool.

  (** fmt %v of a non-negative int *)
  Definition print_nat (n : nat) : list N := print_N (N.of_nat n).

  (** parseError.Error, miniquery.peg.go:318-341; [buffer] is e.p.buffer at the
      time Error is called, [pretty] is e.p.Pretty. *)
  Definition error_text (pretty : bool) (buffer : list N) (m : token) : option (list N) :=
    let tr := translate_positions buffer (tbegin m) (tend m) in
    match slice_rng buffer (tbegin m) (tend m) with
    | None => None
    | Some s =>
        Some ([10%N] ++ #"parse error near " ++
              (if pretty then [27%N] ++ #"[34m" else []) ++ max_name m ++ (if pretty then [27%N] ++ #"[m" else []) ++
              #" (line " ++ print_nat (fst (lookup_pos (tbegin m) tr)) ++
              #" symbol " ++ print_nat (snd (lookup_pos (tbegin m) tr)) ++
              #" - line " ++ print_nat (fst (lookup_pos (tend m) tr)) ++
              #" symbol " ++ print_nat (snd (lookup_pos (tend m) tr)) ++ #"):" ++ [10%N] ++
              quoted is_print s ++ [10%N])
    end.

  (** err.Error() directly after err := p.Parse() *)
  Definition go_error (pretty : bool) (q : list N) : option (list N) :=
    match parse_error q with
    | Some m => error_text pretty (init_buffer q) m
    | None => None
    end.
End Error.
