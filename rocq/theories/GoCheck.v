(** A checker: does this list of statements begin with the code for this parsing
    expression?  GoProofs.v shows that a list it accepts does what the machine of Peg.v
    does for the expression.  It is only a tool of the proof: nothing of it is in the
    statements. *)
From Verif Require Import Base Peg GoStmt.

Definition stmt_labels (s : stmt) : list nat := match s with SLabel l => [l] | _ => [] end.
Definition labels (b : list stmt) : list nat := flat_map stmt_labels b.
Fixpoint memn (x : nat) (l : list nat) : bool :=
  match l with [] => false | y :: l' => Nat.eqb x y || memn x l' end.
Fixpoint nodupb (l : list nat) : bool :=
  match l with [] => true | x :: l' => negb (memn x l') && nodupb l' end.

(** The label of the first [goto lN; lL: restore N] of a list. *)
Fixpoint find_alt (n : nat) (c : list stmt) : option nat :=
  match c with
  | SGoto n1 :: ((SLabel l :: SRestore n2 :: _) as t) =>
      if Nat.eqb n n1 && Nat.eqb n n2 then Some l else find_alt n t
  | _ :: t => find_alt n t
  | [] => None
  end.

Inductive mode : Set :=
| MPlain          (* code of the expression *)
| MAlt (n : nat)  (* rest of the alternatives of the choice with number n, to the end of its block *)
| MCases.         (* a switch with the rest of the cases *)

Definition listN_eqb (a b : list N) : bool :=
  if list_eq_dec N.eq_dec a b then true else false.

(** [chk m b e k c]: [c] begins with the code of [e], with failure label [k] and local
    variables with numbers above [b]; the result is the rest of [c]. *)
Fixpoint chk (m : mode) (b : nat) (e : pexp) (k : nat) (c : list stmt) {struct e} : option (list stmt) :=
  let alts (n : nat) (a a2 : pexp) (c : list stmt) : option (list stmt) :=
    match find_alt n c with
    | None => None
    | Some l =>
        match chk MPlain n a l c with
        | Some (SGoto n1 :: SLabel l1 :: SRestore n2 :: c2) =>
            if Nat.eqb n n1 && Nat.eqb l l1 && Nat.eqb n n2 then chk (MAlt n) n a2 k c2 else None
        | _ => None
        end
    end in
  let case (a : pexp) (c : list stmt) : bool :=
    nodupb (labels c) && negb (memn k (labels c)) &&
    match chk MPlain b a k c with
    | Some [] | Some [SBreak] => true
    | _ => false
    end in
  let plain (c : list stmt) : option (list stmt) :=
    match e with
    | PChar x =>
        match c with
        | SIfNot y l :: SInc :: r => if N.eqb x y && Nat.eqb k l then Some r else None
        | _ => None
        end
    | PRange lo hi =>
        match c with
        | SIfNotIn lo' hi' l :: SInc :: r =>
            if N.eqb lo lo' && N.eqb hi hi' && Nat.eqb k l then Some r else None
        | _ => None
        end
    | PDot =>
        match c with
        | SIfNotDot l :: r => if Nat.eqb k l then Some r else None
        | _ => None
        end
    | PSeq a1 a2 =>
        match chk MPlain b a1 k c with
        | Some c2 => chk MPlain b a2 k c2
        | None => None
        end
    | PAlt a1 a2 =>
        match c with
        | SBlock (SSave n :: i) :: SLabel n1 :: r =>
            if Nat.eqb n n1 && Nat.ltb b n && nodupb (labels i) && negb (memn n (labels i))
               && negb (memn k (labels i))
            then match alts n a1 a2 i with Some [] => Some r | _ => None end
            else None
        | _ => None
        end
    | PStar a =>
        match c with
        | SLabel l :: SBlock (SSave n :: i) :: r =>
            if Nat.ltb b n && nodupb (labels i) && negb (memn l (labels i))
            then match chk MPlain n a n i with
                 | Some [SGoto l1; SLabel n1; SRestore n2] =>
                     if Nat.eqb l l1 && Nat.eqb n n1 && Nat.eqb n n2 then Some r else None
                 | _ => None
                 end
            else None
        | _ => None
        end
    | POpt a =>
        match c with
        | SBlock (SSave n :: i) :: SLabel l :: r =>
            if Nat.ltb b n && nodupb (labels i) && negb (memn l (labels i))
            then match chk MPlain n a n i with
                 | Some [SGoto l1; SLabel n1; SRestore n2] =>
                     if Nat.eqb l l1 && Nat.eqb n n1 && Nat.eqb n n2 then Some r else None
                 | _ => None
                 end
            else None
        | _ => None
        end
    | PNot a =>
        match c with
        | SBlock (SSave n :: i) :: r =>
            if Nat.ltb b n && nodupb (labels i) && negb (memn k (labels i))
            then match chk MPlain n a n i with
                 | Some [SGoto l1; SLabel n1; SRestore n2] =>
                     if Nat.eqb k l1 && Nat.eqb n n1 && Nat.eqb n n2 then Some r else None
                 | _ => None
                 end
            else None
        | _ => None
        end
    | PCap a =>
        match c with
        | SBlock (SSavePos n :: i) :: r =>
            if Nat.ltb b n && nodupb (labels i) && negb (memn k (labels i))
            then match chk MPlain n a k i with
                 | Some [SAdd TPegText n1] => if Nat.eqb n n1 then Some r else None
                 | _ => None
                 end
            else None
        | _ => None
        end
    | PAct n =>
        match c with
        | SCall t l :: r =>
            if tokrule_eq_dec t (TAct n) then if Nat.eqb k l && Nat.ltb n 30 then Some r else None else None
        | _ => None
        end
    | PRule n =>
        match c with
        | SCall t l :: r => if tokrule_eq_dec t (TRule n) then if Nat.eqb k l then Some r else None else None
        | _ => None
        end
    | PSw cs a d =>
        match c with
        | SBlock [SSwitch ((cs1, c1) :: cases) dflt] :: r =>
            if listN_eqb cs cs1 && case a c1
            then match chk MCases b d k [SSwitch cases dflt] with Some _ => Some r | None => None end
            else None
        | _ => None
        end
    end in
  match m with
  | MPlain => plain c
  | MAlt n =>
      match e with
      | PAlt a1 a2 => alts n a1 a2 c
      | _ => match plain c with Some [] => Some [] | _ => None end
      end
  | MCases =>
      match c with
      | [SSwitch [] dflt] =>
          if nodupb (labels dflt) && negb (memn k (labels dflt)) &&
             match plain dflt with Some [] | Some [SBreak] => true | _ => false end
          then Some [] else None
      | [SSwitch ((cs1, c1) :: cases) dflt] =>
          match e with
          | PSw cs a d =>
              if listN_eqb cs cs1 && case a c1 then chk MCases b d k [SSwitch cases dflt] else None
          | _ => None
          end
      | _ => None
      end
  end.

(** Expressions that cannot fail. *)
Fixpoint sure (e : pexp) : bool :=
  match e with
  | PStar _ | POpt _ | PAct _ => true
  | PSeq a b => sure a && sure b
  | PAlt _ b => sure b
  | PCap a => sure a
  | _ => false
  end.

(** The code of a whole rule function. *)
Definition chk_rule (r : rule) (e : pexp) (c : list stmt) : bool :=
  match c with
  | [SSave n0; SBlock (SSavePos n1 :: i); SReturn true; SLabel n2; SRestore n3; SReturn false] =>
      Nat.eqb n0 n2 && Nat.eqb n0 n3 && Nat.ltb n0 n1 && nodupb (labels i) && negb (memn n0 (labels i)) &&
      match chk MPlain n1 e n0 i with
      | Some [SAdd t n4] => (if tokrule_eq_dec t (TRule r) then true else false) && Nat.eqb n1 n4
      | _ => false
      end
  | [SBlock (SSavePos n1 :: i); SReturn true] =>
      Nat.ltb 0 n1 && sure e && nodupb (labels i) &&
      match chk MPlain n1 e 0 i with
      | Some [SAdd t n4] => (if tokrule_eq_dec t (TRule r) then true else false) && Nat.eqb n1 n4
      | _ => false
      end
  | _ => false
  end.

(** The code of an action function. *)
Definition chk_act (n : nat) (c : list stmt) : bool :=
  match c with
  | [SBlock [SAddHere t]; SReturn true] => if tokrule_eq_dec t (TAct n) then true else false
  | _ => false
  end.
