(** Model of miniquery/parse.go and of the driver part of
    miniquery/miniquery.peg.go: reset, parse, Execute, parseError. *)
From Verif Require Import Base Peg Grammar Node Tree.

(** reset, miniquery.peg.go:461-470 *)
Definition init_buffer (q : list N) : list N :=
  match q with
  | [] => [endSymbol]
  | _ => if (last q 0 =? endSymbol)%N then q else q ++ [endSymbol]
  end.

Definition init_state : mstate := MState 0 0 [] tok0.

(** Fuel for the recursive descent: a Go call stack has no such bound;
    [parse_fuel_enough] shows that it is never exhausted. *)
Definition parse_depth : nat := 50.
Definition parse_fuel (q : list N) : nat := S (length q) * parse_depth.

(** The machine run of p.parse: rule 1 is Grammar, miniquery.peg.go:475-487. *)
Definition parse_machine (q : list N) : mres :=
  mrun Ggo (init_buffer q) (parse_fuel q) (PRule rGrammar) init_state.

(** buffer[b:e] on a rune slice; [None] is a slice-bounds panic. *)
Definition slice_rng (l : list N) (b e : nat) : option (list N) :=
  if Nat.leb b e && Nat.leb e (length l) then Some (firstn (e - b) (skipn b l)) else None.

Section Execute.
  Variable lower_hi : N -> N.

  (** Execute, miniquery.peg.go:360-433: run the tokens in order.  [None] is a
      panic. *)
  Fixpoint execute (buf : list N) (toks : list token) (text : list N) (t : tree) : option tree :=
    match toks with
    | [] => Some t
    | tk :: toks' =>
        match trule tk with
        | TRule _ => execute buf toks' text t
        | TPegText =>
            match slice_rng buf (tbegin tk) (tend tk) with
            | None => None
            | Some s => execute buf toks' s t
            end
        | TAct n =>
            match run_action lower_hi n text t with
            | None => None
            | Some t' => execute buf toks' text t'
            end
        end
    end.

  (** p.Trim(tokenIndex): tree[:length], miniquery.peg.go:202-204.  Reslicing
      never extends here because tokenIndex <= len(tree). *)
  Definition trim (l : list token) (n : nat) : list token := firstn n l.

  (** Parse, miniquery/parse.go:3-16.  [Ok n] is (n, nil), [Err e] is (nil, e). *)
  Definition parse (q : list N) : outcome perr (option node) :=
    match parse_machine q with
    | MFuel | MPanic => Panic
    | MR false s => Err (PESyntax (tbegin (mmax s)) (tend (mmax s)))
    | MR true s =>
        match execute (init_buffer q) (trim (mtree s) (mtidx s)) [] tree0 with
        | None => Panic
        | Some t =>
            match tErrors t with
            | e :: _ => Err e
            | [] => Ok (fst (pop t))
            end
        end
    end.
End Execute.

(** ** parseError.Error *)

(** translatePositions, miniquery.peg.go:288-311, for the two positions of one
    token, already sorted (begin <= end).  [i] is the index, [j] counts the
    positions found; the result is the map as an association list. *)
Fixpoint translate_loop (buf : list N) (i line symbol : nat) (positions : list nat)
  : list (nat * (nat * nat)) :=
  match buf with
  | [] => []
  | c :: buf' =>
      let '(line', symbol') := if (c =? 10)%N then (S line, 0) else (line, S symbol) in
      match positions with
      | [] => [] (* not reached: the loop is left when the last position is found *)
      | p :: ps =>
          if Nat.eqb i p then
            (p, (line', symbol')) ::
            (* for j++; j < length; j++ { if i != positions[j] continue search } break *)
            match (fix drop ps := match ps with
                                  | p' :: ps' => if Nat.eqb i p' then drop ps' else ps
                                  | [] => [] end) ps with
            | [] => []
            | ps' => translate_loop buf' (S i) line' symbol' ps'
            end
          else translate_loop buf' (S i) line' symbol' positions
      end
  end.

(** sort.Ints on two elements *)
Definition sort2 (a b : nat) : list nat := if Nat.leb a b then [a; b] else [b; a].

Definition translate_positions (buf : list N) (a b : nat) : list (nat * (nat * nat)) :=
  translate_loop buf 0 1 0 (sort2 a b).

(** translations[k]: the zero value when absent. *)
Fixpoint lookup_pos (k : nat) (m : list (nat * (nat * nat))) : nat * nat :=
  match m with
  | [] => (0, 0)
  | (k', v) :: m' => if Nat.eqb k k' then v else lookup_pos k m'
  end.

(** The data parseError.Error formats (miniquery.peg.go:318-341): the two
    line/symbol pairs and the text between them; [None] is a slice panic.
    The final formatting is in Report.v. *)
Definition error_report (q : list N) (b e : nat) : option ((nat * nat) * (nat * nat) * list N) :=
  let buf := init_buffer q in
  let tr := translate_positions buf b e in
  match slice_rng buf b e with
  | None => None
  | Some s => Some (lookup_pos b tr, lookup_pos e tr, s)
  end.
