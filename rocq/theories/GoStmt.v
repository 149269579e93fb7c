(** The statements that occur in the rule functions of miniquery/miniquery.peg.go
    (521-3360) and what they do, Go's goto included.  Nothing here knows of parsing
    expressions: Peg.v's machine and this one are compared in GoProofs.v. *)
From Verif Require Import Base Peg.

(** Numbers are those of the labels l0, l1, ... and of the variables position0,
    tokenIndex0, ... of the file. *)
Inductive stmt : Set :=
| SSave (n : nat)                  (* positionN, tokenIndexN := position, tokenIndex *)
| SSavePos (n : nat)               (* positionN := position *)
| SRestore (n : nat)               (* position, tokenIndex = positionN, tokenIndexN *)
| SInc                             (* position++ *)
| SGoto (l : nat)                  (* goto lL *)
| SLabel (l : nat)                 (* lL: *)
| SCall (r : tokrule) (l : nat)    (* if !_rules[ruleR]() { goto lL } *)
| SIfNot (c : N) (l : nat)         (* if buffer[position] != rune('c') { goto lL } *)
| SIfNotIn (lo hi : N) (l : nat)   (* if c := buffer[position]; c < rune('lo') || c > rune('hi') { goto lL } *)
| SIfNotDot (l : nat)              (* if !matchDot() { goto lL } *)
| SAdd (r : tokrule) (n : nat)     (* add(ruleR, positionN) *)
| SAddHere (r : tokrule)           (* add(ruleR, position) *)
| SReturn (b : bool)               (* return b *)
| SBreak                           (* break *)
| SBlock (b : list stmt)           (* { ... } *)
| SSwitch (cases : list (list N * list stmt)) (d : list stmt).
                                   (* switch buffer[position] { case ...: ... default: d } *)

(** The closure variables of Init ([mstate]) and the local variables of the function
    that is running: positionN and tokenIndexN. *)
Record gstate : Set := GS {
  gm : mstate;
  gpos : list (nat * nat);
  gtok : list (nat * nat)
}.

Inductive gres : Set :=
| RFuel                            (* the step bound is reached: no result *)
| RPanic                           (* index out of range, or a nil function *)
| RStuck                           (* not a Go program: an undeclared variable, a missing return, ... *)
| RFall (g : gstate)               (* the end of the list of statements is reached *)
| RJump (l : nat) (g : gstate)     (* goto l, where l is not in this list *)
| RBreak (g : gstate)
| RRet (b : bool) (g : gstate).

Fixpoint local (n : nat) (l : list (nat * nat)) : option nat :=
  match l with
  | [] => None
  | (m, v) :: l' => if Nat.eqb n m then Some v else local n l'
  end.

(** The statements after the label [l] in this list (not in blocks inside it: Go has
    no goto into a block). *)
Fixpoint after (l : nat) (body : list stmt) : option (list stmt) :=
  match body with
  | [] => None
  | SLabel m :: b => if Nat.eqb l m then Some b else after l b
  | _ :: b => after l b
  end.

(** The case of a switch: the first that lists the rune, else the default. *)
Fixpoint pick (x : N) (cases : list (list N * list stmt)) (d : list stmt) : list stmt :=
  match cases with
  | [] => d
  | (cs, b) :: cases' => if mem x cs then b else pick x cases' d
  end.

Section Go.
  Variable constants : list tokrule.               (* pegRule, 1, 2, ...: miniquery.peg.go:20-84 *)
  Variable rules : list (option (list stmt)).      (* _rules: miniquery.peg.go:521-3360 *)
  Variable buf : list N.                           (* buffer *)

  (** The value of the constant ruleR. *)
  Definition tokrule_eq_dec (a b : tokrule) : {a = b} + {a <> b}.
  Proof. repeat decide equality. Defined.
  Fixpoint value_from (i : nat) (r : tokrule) (cs : list tokrule) : option nat :=
    match cs with
    | [] => None
    | c :: cs' => if tokrule_eq_dec r c then Some i else value_from (S i) r cs'
    end.
  Definition rule_value (r : tokrule) : option nat := value_from 1 r constants.

  (** _rules[ruleR] *)
  Definition rule_code (r : tokrule) : option (list stmt) :=
    match rule_value r with
    | None => None
    | Some i => match nth_error rules i with Some c => c | None => None end
    end.

  Definition set_m (m : mstate) (g : gstate) : gstate := GS m (gpos g) (gtok g).

  (** if buffer[position] fails the test, goto l *)
  Definition test (ok : N -> bool) (l : nat) (g : gstate) : gres :=
    match nth_error buf (mpos (gm g)) with
    | None => RPanic
    | Some x => if ok x then RFall g else RJump l g
    end.

  (** One statement; [R] runs a list of statements: the whole list (where labels are
      looked for) and the place in it. *)
  Definition exec (R : list stmt -> list stmt -> gstate -> gres) (s : stmt) (g : gstate) : gres :=
    match s with
    | SSave n => RFall (GS (gm g) ((n, mpos (gm g)) :: gpos g) ((n, mtidx (gm g)) :: gtok g))
    | SSavePos n => RFall (GS (gm g) ((n, mpos (gm g)) :: gpos g) (gtok g))
    | SRestore n =>
        match local n (gpos g), local n (gtok g) with
        | Some p, Some t => RFall (set_m (MState p t (mtree (gm g)) (mmax (gm g))) g)
        | _, _ => RStuck
        end
    | SInc => RFall (set_m (madv (gm g)) g)
    | SGoto l => RJump l g
    | SLabel _ => RFall g
    | SCall r l =>
        match rule_code r with
        | None => RPanic
        | Some c =>
            match R c c (GS (gm g) [] []) with
            | RRet true g' => RFall (set_m (gm g') g)
            | RRet false g' => RJump l (set_m (gm g') g)
            | RFuel => RFuel
            | RPanic => RPanic
            | _ => RStuck
            end
        end
    | SIfNot c l => test (fun x => (x =? c)%N) l g
    | SIfNotIn lo hi l => test (fun x => negb ((x <? lo)%N || (hi <? x)%N)) l g
    | SIfNotDot l =>
        (* matchDot, miniquery.peg.go:497-503 *)
        match nth_error buf (mpos (gm g)) with
        | None => RPanic
        | Some x => if negb (x =? endSymbol)%N then RFall (set_m (madv (gm g)) g) else RJump l g
        end
    | SAdd r n =>
        match local n (gpos g) with
        | Some p => RFall (set_m (madd r p (gm g)) g)
        | None => RStuck
        end
    | SAddHere r => RFall (set_m (madd r (mpos (gm g)) (gm g)) g)
    | SReturn b => RRet b g
    | SBreak => RBreak g
    | SBlock b => R b b g
    | SSwitch cases d =>
        match nth_error buf (mpos (gm g)) with
        | None => RPanic
        | Some x =>
            let b := pick x cases d in
            match R b b g with
            | RBreak g' => RFall g'
            | r => r
            end
        end
    end.

  (** [run f body rest g]: run [rest], a part of [body]; a goto continues after the
      label if it is in [body], and leaves [body] otherwise. *)
  Fixpoint run (f : nat) (body rest : list stmt) (g : gstate) : gres :=
    match f with
    | O => RFuel
    | S f' =>
      match rest with
      | [] => RFall g
      | s :: rest' =>
          match exec (run f') s g with
          | RFall g' => run f' body rest' g'
          | RJump l g' =>
              match after l body with
              | Some r => run f' body r g'
              | None => RJump l g'
              end
          | r => r
          end
      end
    end.

  (** p.rules[i]() from the closure variables [m]: what it returns, and the closure
      variables then.  Result type as in Peg.v; RStuck has no counterpart there. *)
  Inductive called : Set :=
  | CFuel
  | CPanic
  | CStuck
  | CRet (b : bool) (m : mstate).
  Definition call (f : nat) (i : nat) (m : mstate) : called :=
    match nth_error rules i with
    | Some (Some c) =>
        match run f c c (GS m [] []) with
        | RRet b g => CRet b (gm g)
        | RFuel => CFuel
        | RPanic => CPanic
        | _ => CStuck
        end
    | _ => CPanic
    end.
End Go.
