(** Deep embedding of parsing expressions and the semantics of the parser that
    pointlander/peg generates (miniquery/miniquery.peg.go).

    [mrun] follows the generated code: a rune buffer, [position],
    [tokenIndex], a token array that is overwritten in place, and [max].
    [frun] is the usual functional PEG semantics; PegProofs.v shows they agree. *)
From Verif Require Import Base.

(** Grammar rules, miniquery/miniquery.peg.go:19-52 (the rules that are not
    actions; rulePegText and the ruleActionN are in [tokrule]). *)
Inductive rule : Set :=
| rGrammar | rExpression | rLogicExpression | rNotExpression | rCompareExpression
| rCompareInExpression | rPredicateExpression | rBetweenExpression | rPrimaryExpression
| rArgumentList | rArgument | rReference | rIdentifierReference | rJsonReference
| rIdentifier | rCompare | rLogic | rMatch | rValue | rArray | rLiteral | rInteger
| rBoolean | rNull | rString | rSpaceComment | r_ | r__ | rComment | rSpace
| rEndOfLine | rEndOfFile.

(** pegRule values carried by tokens, miniquery/miniquery.peg.go:17-84. *)
Inductive tokrule : Set :=
| TRule (r : rule)
| TPegText
| TAct (n : nat).

(** Parsing expressions.  [PSw cs e d] is one case of the generated
    [switch buffer[position] { case cs: e  default: d }] (further cases are
    nested in [d]). *)
Inductive pexp : Set :=
| PChar (c : N)
| PRange (lo hi : N)
| PDot
| PSeq (a b : pexp)
| PAlt (a b : pexp)
| PStar (a : pexp)
| POpt (a : pexp)
| PNot (a : pexp)
| PCap (a : pexp)          (* < a > *)
| PAct (n : nat)           (* {...}, numbered as in the generated code *)
| PRule (r : rule)
| PSw (cs : list N) (a d : pexp).

(** 'abc' in a .peg file: case-sensitive literal. *)
Fixpoint lit (w : list N) : pexp :=
  match w with
  | [] => PNot PDot (* not used: there are no empty literals *)
  | [c] => PChar c
  | c :: w' => PSeq (PChar c) (lit w')
  end.

(** "abc" in a .peg file: each letter is expanded to ('a' / 'A'); the words
    used are lower-case ASCII letters only. *)
Definition ichar (c : N) : pexp := PAlt (PChar c) (PChar (c - 32)).
Fixpoint ilit (w : list N) : pexp :=
  match w with
  | [] => PNot PDot (* not used *)
  | [c] => ichar c
  | c :: w' => PSeq (ichar c) (ilit w')
  end.

(** token32, miniquery/miniquery.peg.go:153-156.  uint32 positions are
    modelled as [nat]: inputs of 2^32 runes or tokens are not modelled. *)
Record token : Set := Tok { trule : tokrule; tbegin : nat; tend : nat }.

(** The closure variables of Init (miniquery/miniquery.peg.go:450-454) together
    with the token array [tree] (tokens32). *)
Record mstate : Set := MState {
  mpos : nat;
  mtidx : nat;
  mtree : list token;
  mmax : token
}.

(** max = token32{}: rule Unknown is not representable here; TPegText stands
    for it, begin = end = 0.  (miniquery/miniquery.peg.go:462) *)
Definition tok0 : token := Tok TPegText 0 0.

Inductive mres : Set :=
| MFuel                              (* out of fuel: excluded by a theorem *)
| MPanic                             (* buffer index out of range *)
| MR (matched : bool) (s : mstate).

(** tree[i] = x; tokens32.Add, miniquery/miniquery.peg.go:249-256. *)
Fixpoint set_nth (i : nat) (x : token) (l : list token) : list token :=
  match l, i with
  | [], _ => []
  | _ :: l', O => x :: l'
  | y :: l', S i' => y :: set_nth i' x l'
  end.
Definition tokens_add (tree : list token) (x : token) (i : nat) : list token :=
  if Nat.leb (length tree) i then tree ++ [x] else set_nth i x tree.

(** add, miniquery/miniquery.peg.go:489-495. *)
Definition madd (r : tokrule) (begin : nat) (s : mstate) : mstate :=
  {| mpos := mpos s;
     mtidx := S (mtidx s);
     mtree := tokens_add (mtree s) (Tok r begin (mpos s)) (mtidx s);
     mmax := if negb (Nat.eqb begin (mpos s)) && Nat.ltb (tend (mmax s)) (mpos s)
             then Tok r begin (mpos s) else mmax s |}.

(** position++ *)
Definition madv (s : mstate) : mstate :=
  {| mpos := S (mpos s); mtidx := mtidx s; mtree := mtree s; mmax := mmax s |}.

(** position, tokenIndex = position0, tokenIndex0 : the tree and max keep
    whatever was written meanwhile. *)
Definition mrestore (s0 s : mstate) : mstate :=
  {| mpos := mpos s0; mtidx := mtidx s0; mtree := mtree s; mmax := mmax s |}.

Section Machine.
  Variable G : rule -> pexp.      (* rule bodies *)
  Variable buf : list N.          (* runes followed by endSymbol *)

  (** The code the generator emits for each construct, read off
      miniquery/miniquery.peg.go:521-3360 (for instance: sequence and rule
      524-545, choice 598-661, star 570-584, optional 867-879, lookahead
      1367-1417, capture 716-834, dot 497-503, switch 1533-1564, action
      3150-3155).  One unit of fuel is one nested construct. *)
  Fixpoint mrun (fuel : nat) (e : pexp) (s : mstate) : mres :=
    match fuel with
    | O => MFuel
    | S f =>
      match e with
      | PChar c =>
          match nth_error buf (mpos s) with
          | None => MPanic
          | Some x => if (x =? c)%N then MR true (madv s) else MR false s
          end
      | PRange lo hi =>
          match nth_error buf (mpos s) with
          | None => MPanic
          | Some x => if (x <? lo)%N || (hi <? x)%N then MR false s else MR true (madv s)
          end
      | PDot =>
          match nth_error buf (mpos s) with
          | None => MPanic
          | Some x => if (x =? endSymbol)%N then MR false s else MR true (madv s)
          end
      | PSeq a b =>
          match mrun f a s with
          | MR true s1 => mrun f b s1
          | r => r
          end
      | PAlt a b =>
          match mrun f a s with
          | MR false s1 => mrun f b (mrestore s s1)
          | r => r
          end
      | PStar a =>
          match mrun f a s with
          | MR true s1 => mrun f (PStar a) s1
          | MR false s1 => MR true (mrestore s s1)
          | r => r
          end
      | POpt a =>
          match mrun f a s with
          | MR false s1 => MR true (mrestore s s1)
          | r => r
          end
      | PNot a =>
          match mrun f a s with
          | MR true s1 => MR false s1
          | MR false s1 => MR true (mrestore s s1)
          | r => r
          end
      | PCap a =>
          match mrun f a s with
          | MR true s1 => MR true (madd TPegText (mpos s) s1)
          | r => r
          end
      | PAct n => MR true (madd (TAct n) (mpos s) s)
      | PRule r =>
          match mrun f (G r) s with
          | MR true s1 => MR true (madd (TRule r) (mpos s) s1)
          | MR false s1 => MR false (mrestore s s1)
          | x => x
          end
      | PSw cs a d =>
          match nth_error buf (mpos s) with
          | None => MPanic
          | Some x => if mem x cs then mrun f a s else mrun f d s
          end
      end
    end.
End Machine.

(** What Execute can observe of the token list: captured texts and actions. *)
Inductive event : Set :=
| EText (t : list N)
| EAct (n : nat).

(** Functional semantics: [None] = out of fuel, [Some None] = no match,
    [Some (Some (evs, rest))] = match. *)
Definition fres := option (option (list event * list N)).

Definition consumed (s s' : list N) : list N := firstn (length s - length s') s.

Section Functional.
  Variable G : rule -> pexp.
  Fixpoint frun (fuel : nat) (e : pexp) (s : list N) : fres :=
    match fuel with
    | O => None
    | S f =>
      match e with
      | PChar c => Some match s with
                        | x :: t => if (x =? c)%N then Some ([], t) else None
                        | [] => None end
      | PRange lo hi => Some match s with
                        | x :: t => if (x <? lo)%N || (hi <? x)%N then None else Some ([], t)
                        | [] => None end
      | PDot => Some match s with x :: t => Some ([], t) | [] => None end
      | PSeq a b =>
          match frun f a s with
          | Some (Some (e1, s1)) =>
              match frun f b s1 with
              | Some (Some (e2, s2)) => Some (Some (e1 ++ e2, s2))
              | r => r
              end
          | r => r
          end
      | PAlt a b =>
          match frun f a s with
          | Some None => frun f b s
          | r => r
          end
      | PStar a =>
          match frun f a s with
          | Some (Some (e1, s1)) =>
              match frun f (PStar a) s1 with
              | Some (Some (e2, s2)) => Some (Some (e1 ++ e2, s2))
              | r => r
              end
          | Some None => Some (Some ([], s))
          | None => None
          end
      | POpt a =>
          match frun f a s with
          | Some None => Some (Some ([], s))
          | r => r
          end
      | PNot a =>
          match frun f a s with
          | Some (Some _) => Some None
          | Some None => Some (Some ([], s))
          | None => None
          end
      | PCap a =>
          match frun f a s with
          | Some (Some (e1, s1)) => Some (Some (e1 ++ [EText (consumed s s1)], s1))
          | r => r
          end
      | PAct n => Some (Some ([EAct n], s))
      | PRule r => frun f (G r) s
      | PSw cs a d =>
          match s with
          | x :: _ => if mem x cs then frun f a s else frun f d s
          | [] => frun f d s
          end
      end
    end.
End Functional.
