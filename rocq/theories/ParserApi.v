(** Model of the generated parser as an object that is used call by call:
    Init, Reset, Parse with and without a rule, and Execute of *MiniQueryPeg,
    miniquery/miniquery.peg.go:262-280, 360-487, 3361-3363.  miniquery.Parse
    (parse.go:3-16) is one particular sequence of these calls. *)
From Verif Require Import Base Peg Grammar Node Vocab Tree Parse.

(** The fields of MiniQueryPeg (miniquery.peg.go:262-272) that the calls use, and the
    variables of Init that the closures share: [pBuffer] is p.Buffer (as
    runes), [pRunes] is p.buffer, [pVars] is position, tokenIndex, tree and
    max, [pTokens] is p.tokens32.tree, [pTree] is the embedded Tree. *)
Record parser : Type := Parser {
  pBuffer : list N;
  pRunes : list N;
  pVars : mstate;
  pTokens : list token;
  pTree : tree
}.

(** _rules, miniquery.peg.go:521-3360: [None] is nil. *)
Definition rule_table : list (option pexp) :=
  [ None; Some (PRule rGrammar); Some (PRule rExpression); Some (PRule rLogicExpression);
    Some (PRule rNotExpression); Some (PRule rCompareExpression); Some (PRule rCompareInExpression);
    Some (PRule rPredicateExpression); Some (PRule rBetweenExpression); Some (PRule rPrimaryExpression);
    Some (PRule rArgumentList); Some (PRule rArgument); Some (PRule rReference);
    Some (PRule rIdentifierReference); Some (PRule rJsonReference); Some (PRule rIdentifier);
    Some (PRule rCompare); Some (PRule rLogic); Some (PRule rMatch); Some (PRule rValue);
    Some (PRule rArray); Some (PRule rLiteral); Some (PRule rInteger); Some (PRule rBoolean);
    Some (PRule rNull); Some (PRule rString); Some (PRule rSpaceComment); Some (PRule r_);
    Some (PRule r__); Some (PRule rComment); Some (PRule rSpace); Some (PRule rEndOfLine);
    Some (PRule rEndOfFile); Some (PAct 0); Some (PAct 1); Some (PAct 2); None;
    Some (PAct 3); Some (PAct 4); Some (PAct 5); Some (PAct 6); Some (PAct 7); Some (PAct 8);
    Some (PAct 9); Some (PAct 10); Some (PAct 11); Some (PAct 12); Some (PAct 13); Some (PAct 14);
    Some (PAct 15); Some (PAct 16); Some (PAct 17); Some (PAct 18); Some (PAct 19); Some (PAct 20);
    Some (PAct 21); Some (PAct 22); Some (PAct 23); Some (PAct 24); Some (PAct 25); Some (PAct 26);
    Some (PAct 27); Some (PAct 28); Some (PAct 29) ].

(** p.rules[r], miniquery.peg.go:480: an index out of range and a nil function panic *)
Definition rule_at (r : Z) : option pexp :=
  if (r <? 0)%Z then None
  else match nth_error rule_table (Z.to_nat r) with Some (Some e) => Some e | _ => None end.

(** the rule of p.Parse(rule...), miniquery.peg.go:476-479 *)
Definition asked (rules : list Z) : Z := match rules with [] => 1%Z | r :: _ => r end.

(** p.reset, miniquery.peg.go:461-471, on the tokens [old] of [tree] *)
Definition reset_to (old : list token) (p : parser) : parser :=
  Parser (pBuffer p) (init_buffer (pBuffer p)) (MState 0 0 old tok0) (pTokens p) (pTree p).
(** Reset, miniquery.peg.go:278-280 *)
Definition do_reset (p : parser) : parser := reset_to (mtree (pVars p)) p.
(** Init without options, miniquery.peg.go:449-474, 3361-3362: new variables,
    [tree] starts with the tokens the parser has *)
Definition do_init (p : parser) : parser := reset_to (pTokens p) p.
(** a parser &MiniQueryPeg{Tree: &Tree{}, Buffer: q} after Init (as in parse.go:4-7) *)
Definition new_parser (q : list N) : parser := do_init (Parser q [] (MState 0 0 [] tok0) [] tree0).

Inductive call : Type :=
| CBuffer (q : list N)         (* p.Buffer = q *)
| CInit
| CReset
| CParse (rules : list Z)
| CExecute.
(** what a call returns: nothing or nil, or the parseError with this range *)
Inductive answer : Type :=
| AOk
| AErr (b e : nat).

Section Calls.
  Variable lower_hi : N -> N.
  (** p.parse, miniquery.peg.go:475-487.  [None] is a panic. *)
  Definition do_parse (rules : list Z) (p : parser) : option (answer * parser) :=
    match rule_at (asked rules) with
    | None => None
    | Some e =>
        match mrun Ggo (pRunes p) (parse_fuel (pRunes p)) e (pVars p) with
        | MR true s => Some (AOk, Parser (pBuffer p) (pRunes p) s (trim (mtree s) (mtidx s)) (pTree p))
        | MR false s => Some (AErr (tbegin (mmax s)) (tend (mmax s)), Parser (pBuffer p) (pRunes p) s (mtree s) (pTree p))
        | MFuel | MPanic => None
        end
    end.
  (** Execute, miniquery.peg.go:360-433 *)
  Definition do_execute (p : parser) : option (answer * parser) :=
    match execute lower_hi (pRunes p) (pTokens p) [] (pTree p) with
    | Some t => Some (AOk, Parser (pBuffer p) (pRunes p) (pVars p) (pTokens p) t)
    | None => None
    end.
  Definition do_call (c : call) (p : parser) : option (answer * parser) :=
    match c with
    | CBuffer q => Some (AOk, Parser q (pRunes p) (pVars p) (pTokens p) (pTree p))
    | CInit => Some (AOk, do_init p)
    | CReset => Some (AOk, do_reset p)
    | CParse rules => do_parse rules p
    | CExecute => do_execute p
    end.
  (** calls one after the other; a panic ends it *)
  Fixpoint session (cs : list call) (p : parser) : option (list answer * parser) :=
    match cs with
    | [] => Some ([], p)
    | c :: cs' =>
        match do_call c p with
        | None => None
        | Some (a, p') => match session cs' p' with Some (l, p'') => Some (a :: l, p'') | None => None end
        end
    end.
End Calls.
