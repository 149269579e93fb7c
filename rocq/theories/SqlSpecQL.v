(** The meaning of entql predicates in a world, and the queries for C75. *)
From Verif Require Import Base Node Vocab Tree Syntax GormSpec EntQL SqlSpec.

Section XMeans.
  Variable w : world.
  Variable row : list N -> wV w.
  Definition eop_world (o : eop) : option (wV w -> wV w -> wV w) :=
    match o with
    | EAnd => Some (wAnd w) | EOr => Some (wOr w) | ENotOp => None
    | EEQ => Some (wCmp w #"=") | ENEQ => Some (wCmp w #"<>") | EGT => Some (wCmp w #">") | EGTE => Some (wCmp w #">=")
    | ELT => Some (wCmp w #"<") | ELTE => Some (wCmp w #"<=") | EInOp => Some (wCmp w #"in") | ENotIn => Some (wCmp w #"not in")
    end.
  (** none for the other uses of "not", which entql does not know *)
  Fixpoint ql_means (x : eexpr) : option (wV w) :=
    match x with
    | XField c => Some (row c)
    | XValue v => Some (wVal w v)
    | XUnary ENotOp x => option_map (wNot w) (ql_means x)
    | XUnary _ _ => None
    | XBinary o x y => match eop_world o, ql_means x, ql_means y with Some f, Some a, Some b => Some (f a b) | _, _, _ => None end
    end.
End XMeans.

(** No negation, function, reference, or predicate; otherwise any grouping. *)
Section Neat3.
  Variable lower_hi : N -> N.
  Fixpoint neat3 (e : expr) : bool :=
    match e with
    | EVal _ | EName _ => true
    | EParen e => neat3 e
    | EBetween e o _ _ _ => neat3 e && named lower_hi [#"between"] o
    | EIn e o _ _ => neat3 e && named lower_hi in_ops o
    | ECmp l o r => neat3 l && neat3 r && named lower_hi cmp_syms o
    | ELogic l _ r => neat3 l && neat3 r
    | _ => false
    end.
  (** a condition, not a bare name or value *)
  Fixpoint condition (e : expr) : bool :=
    match e with EParen e => condition e | EVal _ | EName _ => false | _ => true end.
End Neat3.
