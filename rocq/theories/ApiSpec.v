(** What calls on a parser object mean (C81), without tokens, buffers and
    machine: the parser reads a text from left to right, one rule of the
    published grammar after the other. *)
From Verif Require Import Base Peg PegSpec Grammar Node Vocab Tree Syntax ParserApi ParseProofs.

(** The rules in the order of miniquery.peg. *)
Definition peg_order : list rule :=
  [ rGrammar; rExpression; rLogicExpression; rNotExpression; rCompareExpression; rCompareInExpression;
    rPredicateExpression; rBetweenExpression; rPrimaryExpression; rArgumentList; rArgument; rReference;
    rIdentifierReference; rJsonReference; rIdentifier; rCompare; rLogic; rMatch; rValue; rArray; rLiteral;
    rInteger; rBoolean; rNull; rString; rSpaceComment; r_; r__; rComment; rSpace; rEndOfLine; rEndOfFile ].
(** The number of a rule, as the rule... constants count them (miniquery.peg.go:17-84):
    the rules from 1, then the actions, with PegText after the third. *)
Inductive numbered : Z -> pexp -> Prop :=
| n_rule : forall i r, nth_error peg_order i = Some r -> numbered (Z.of_nat (S i)) (PRule r)
| n_act : forall n, n < 30 -> numbered (Z.of_nat (n + length peg_order + (if Nat.ltb n 3 then 1 else 2))) (PAct n).

(** [aText]: the text since the last Init or Reset; [aNext]: the value of
    p.Buffer; [aRest]: what is not read yet; [aDone]: texts and actions of the
    rules that matched; [aFresh]: the last of Init, Reset and Parse is a
    Parse that succeeded. *)
Record state : Type := State {
  aText : list N; aNext : list N; aRest : list N; aDone : list event; aFresh : bool; aTree : tree
}.
Definition begun (q : list N) (t : tree) : state := State q q q [] false t.

Definition rule_of (rules : list Z) : Z := match rules with [] => 1%Z | r :: _ => r end.

Section Says.
  Variable lower_hi : N -> N.
  (** [says c a x]: the call [c] returns, with the answer and the state of [x],
      or panics ([None]).  Nothing is said of Execute without a fresh Parse. *)
  Inductive says : call -> state -> option (answer * state) -> Prop :=
  | s_buffer : forall q a, says (CBuffer q) a (Some (AOk, State (aText a) q (aRest a) (aDone a) (aFresh a) (aTree a)))
  | s_init : forall a, says CInit a (Some (AOk, begun (aNext a) (aTree a)))
  | s_reset : forall a, says CReset a (Some (AOk, begun (aNext a) (aTree a)))
  | s_match : forall rules e a ev r, numbered (rule_of rules) e -> matches Gpeg e (aRest a) (Some (ev, r)) ->
      says (CParse rules) a (Some (AOk, State (aText a) (aNext a) r (aDone a ++ ev) true (aTree a)))
  | s_fail : forall rules e a b x, numbered (rule_of rules) e -> matches Gpeg e (aRest a) None ->
      b <= x <= length (aText a) ->
      says (CParse rules) a (Some (AErr b x, State (aText a) (aNext a) (aRest a) (aDone a) false (aTree a)))
  | s_norule : forall rules a, (forall e, ~ numbered (rule_of rules) e) -> says (CParse rules) a None
  | s_execute : forall a x t, aFresh a = true -> run lower_hi (aDone a) ([], aTree a) = Some (x, t) ->
      says CExecute a (Some (AOk, State (aText a) (aNext a) (aRest a) (aDone a) true t))
  | s_panic : forall a, aFresh a = true -> run lower_hi (aDone a) ([], aTree a) = None -> says CExecute a None.
  Inductive talk : list call -> state -> option (list answer * state) -> Prop :=
  | t_nil : forall a, talk [] a (Some ([], a))
  | t_panic : forall c cs a, says c a None -> talk (c :: cs) a None
  | t_cons : forall c cs a w a1 l a2, says c a (Some (w, a1)) -> talk cs a1 (Some (l, a2)) -> talk (c :: cs) a (Some (w :: l, a2))
  | t_later : forall c cs a w a1, says c a (Some (w, a1)) -> talk cs a1 None -> talk (c :: cs) a None.
End Says.

(** The calls put valid texts into the parser. *)
Definition fit_call (c : call) : Prop := match c with CBuffer q => valid_runes q | _ => True end.

(** A list of queries for one parser, each with the expression it reads as, or
    [None] if it does not; Execute is called for those that are accepted. *)
Definition turn (x : list N * option expr) : list call :=
  [CBuffer (fst x); CReset; CParse []] ++ match snd x with Some _ => [CExecute] | None => [] end.
Definition read_right (x : list N * option expr) : Prop :=
  valid_runes (fst x) /\
  match snd x with
  | Some e => reads (fst x) e /\ json_free e = true /\ fits e = true
  | None => forall e, ~ reads (fst x) e
  end.
Definition turn_answers (x : list N * option expr) (l : list answer) : Prop :=
  match snd x with
  | Some _ => l = [AOk; AOk; AOk; AOk]
  | None => exists b e, l = [AOk; AOk; AErr b e] /\ b <= e <= length (fst x)
  end.
