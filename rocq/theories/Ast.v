(** Model of the syntax-tree part of the generated parser: tokens32.AST,
    node32.print and SprintSyntaxTree, miniquery/miniquery.peg.go:85-247,
    354-358.  [None] is a panic. *)
From Verif Require Import Base Peg Grammar Node Tree Parse Build.

(** rul3s, miniquery.peg.go:85-151 *)
Definition rule_name (r : tokrule) : list N :=
  match r with
  | TPegText => #"PegText"
  | TAct n => #"Action" ++ print_N (N.of_nat n)
  | TRule r =>
      match r with
      | rGrammar => #"Grammar" | rExpression => #"Expression" | rLogicExpression => #"LogicExpression"
      | rNotExpression => #"NotExpression" | rCompareExpression => #"CompareExpression"
      | rCompareInExpression => #"CompareInExpression" | rPredicateExpression => #"PredicateExpression"
      | rBetweenExpression => #"BetweenExpression" | rPrimaryExpression => #"PrimaryExpression"
      | rArgumentList => #"ArgumentList" | rArgument => #"Argument" | rReference => #"Reference"
      | rIdentifierReference => #"IdentifierReference" | rJsonReference => #"JsonReference"
      | rIdentifier => #"Identifier" | rCompare => #"Compare" | rLogic => #"Logic" | rMatch => #"Match"
      | rValue => #"Value" | rArray => #"Array" | rLiteral => #"Literal" | rInteger => #"Integer"
      | rBoolean => #"Boolean" | rNull => #"Null" | rString => #"String" | rSpaceComment => #"SpaceComment"
      | r_ => #"_" | r__ => #"__" | rComment => #"Comment" | rSpace => #"Space" | rEndOfLine => #"EndOfLine"
      | rEndOfFile => #"EndOfFile"
      end
  end.

(** node32, miniquery.peg.go:162-165.  [up] is the first child and [next] the
    next sibling: the children of a node are the chain of [next] from its [up].
    A node on the stack of AST has no [next] yet. *)
Inductive node32 : Set := N32 (t : token) (up : list node32).
Definition ntok (n : node32) : token := match n with N32 t _ => t end.

(** The inner loop of AST, miniquery.peg.go:224-228: nodes on top of the stack
    that lie within the new token become its first child, one after the other. *)
Fixpoint adopt (t : token) (up : list node32) (stack : list node32) : list node32 :=
  match stack with
  | n :: stack' =>
      if Nat.leb (tbegin t) (tbegin (ntok n)) && Nat.leb (tend (ntok n)) (tend t)
      then adopt t (n :: up) stack'
      else N32 t up :: stack
  | [] => [N32 t up]
  end.

(** The outer loop of AST, miniquery.peg.go:219-230. *)
Fixpoint ast_loop (tokens : list token) (stack : list node32) : list node32 :=
  match tokens with
  | [] => stack
  | t :: tokens' =>
      if Nat.eqb (tbegin t) (tend t) then ast_loop tokens' stack
      else ast_loop tokens' (adopt t [] stack)
  end.

(** tokens32.AST, miniquery.peg.go:212-235; [None] is a nil *node32. *)
Definition ast (tokens : list token) : option node32 := hd_error (ast_loop tokens []).

(** p.tokens32 after p.Parse: on success the token list is trimmed to
    tokenIndex, on failure it is not (miniquery.peg.go:475-487).  [None] is a
    panic of p.Parse. *)
Definition parser_tokens (q : list N) : option (list token) :=
  match parse_machine q with
  | MR true s => Some (trim (mtree s) (mtidx s))
  | MR false s => Some (mtree s)
  | MFuel | MPanic => None
  end.

(** p.Reset() and p.Parse() on a parser that has been used before: reset clears
    max, position and tokenIndex, but the token array [tree] of Init is kept
    with whatever an earlier parse left in it (miniquery.peg.go:461-487). *)
Definition parse_again (q : list N) (old : list token) : mres :=
  mrun Ggo (init_buffer q) (parse_fuel q) (PRule rGrammar) (MState 0 0 old tok0).

Section Print.
  Variable is_print : N -> bool.

  (** node32.print, miniquery.peg.go:167-188; [buffer] is p.Buffer, without the
      end symbol. *)
  Fixpoint print_node (pretty : bool) (buffer : list N) (depth : nat) (n : node32) : option (list N) :=
    match n with
    | N32 t up =>
        match slice_rng buffer (tbegin t) (tend t) with
        | None => None
        | Some s =>
            ocat (Some (repeat 32%N depth ++ (if pretty then [27%N] ++ #"[36m" ++ rule_name (trule t) ++ [27%N] ++ #"[m" else rule_name (trule t)) ++ #" " ++ quoted is_print s ++ [10%N]))
                 ((fix go (l : list node32) : option (list N) :=
                     match l with
                     | [] => Some []
                     | n :: l' => ocat (print_node pretty buffer (S depth) n) (go l')
                     end) up)
        end
    end.

  (** PrintSyntaxTree, WriteSyntaxTree, PrettyPrintSyntaxTree of tokens32,
      miniquery.peg.go:237-247 with 190-196: what is written.  Printing a nil
      tree prints nothing. *)
  Definition write_tokens (pretty : bool) (buffer : list N) (tokens : list token) : option (list N) :=
    match ast tokens with
    | None => Some []
    | Some n => print_node pretty buffer 0 n
    end.
  Definition sprint_tokens : list N -> list token -> option (list N) := write_tokens false.

  (** SprintSyntaxTree, miniquery.peg.go:354-358, on a parser that has parsed [q] *)
  Definition sprint (q : list N) : option (list N) :=
    match parser_tokens q with
    | Some tokens => sprint_tokens q tokens
    | None => None
    end.

  (** PrintSyntaxTree, miniquery.peg.go:343-349, on a parser that has parsed [q]:
      what is written to the standard output *)
  Definition print_syntax_tree (pretty : bool) (q : list N) : option (list N) :=
    match parser_tokens q with
    | Some tokens => write_tokens pretty q tokens
    | None => None
    end.
End Print.
