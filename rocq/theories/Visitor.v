(** Model of miniquery/visitor.go.  A VisitFunc is a Go closure: it may change
    some state of the caller ([St]), fail ([Er]) or panic; a nil func is [None]
    and calling it panics. *)
From Verif Require Import Base Node.

Section Visitor.
  Variables St Er : Type.
  (** errors.Errorf("invalid type %q", n.Type), visitor.go:134 *)
  Variable invalid_type : ntype -> Er.

  (** visitor.go:10 *)
  Definition vfunc := option node -> St -> outcome Er St.

  (** type Visitor struct, visitor.go:11-23 *)
  Record visitor := Visitor {
    vBinary : option vfunc;
    vLogic : option vfunc;
    vBetween : option vfunc;
    vFunction : option vfunc;
    vPredicates : option vfunc;
    vTerminate : option vfunc;
    vParentheses : option vfunc;
    vNot : option vfunc;
    vIdentifier : option vfunc;
    vOperation : option vfunc;
    vValue : option vfunc
  }.

  (** calling a func value *)
  Definition call (h : option vfunc) (n : option node) (s : St) : outcome Er St :=
    match h with Some f => f n s | None => Panic end.

  (** Visitor.Visit, visitor.go:111-135 *)
  Definition visit (v : visitor) (n : option node) (s : St) : outcome Er St :=
    match n with
    | None => Panic
    | Some m =>
        match nType m with
        | NValue => call (vValue v) n s
        | NOperation => call (vOperation v) n s
        | NIdentifier => call (vIdentifier v) n s
        | NParentheses => call (vParentheses v) n s
        | NCompare => call (vBinary v) n s
        | NLogic => call (vLogic v) n s
        | NPredicates => call (vPredicates v) n s
        | NNot => call (vNot v) n s
        | NBetween => call (vBetween v) n s
        | NFunction => call (vBetween v) n s
        | NReference | NOther => Err (invalid_type (nType m))
        end
    end.

  Definition bind (r : outcome Er St) (k : St -> outcome Er St) : outcome Er St :=
    match r with Ok s => k s | Err e => Err e | Panic => Panic end.

  (** The closures of Init call Visit on Init's own copy of the visitor, in
      which the nil hooks have been replaced.  [local_visit v] is Visit of that
      copy, written by recursion on the tree; [visit (init_body v)] equals it
      (VisitorProofs.init_body_visit). *)
  Fixpoint local_visit (v : visitor) (n : node) (s : St) {struct n} : outcome Er St :=
    let vp (p : option node) (s : St) : outcome Er St :=
      match p with None => Panic | Some m => local_visit v m s end in
    let all : list (option node) -> St -> outcome Er St :=
      fix all (l : list (option node)) (s : St) : outcome Er St :=
        match l with [] => Ok s | p :: l' => bind (vp p s) (all l') end in
    match nType n with
    | NValue =>
        match vValue v with
        | Some h => h (Some n) s
        | None => match nVType n with VArray => all (nArray n) s | _ => Ok s end
        end
    | NOperation => match vOperation v with Some h => h (Some n) s | None => Ok s end
    | NIdentifier => match vIdentifier v with Some h => h (Some n) s | None => Ok s end
    | NParentheses => match vParentheses v with Some h => h (Some n) s | None => vp (nExpression n) s end
    | NNot => match vNot v with Some h => h (Some n) s | None => vp (nExpression n) s end
    | NCompare =>
        match vBinary v with
        | Some h => h (Some n) s
        | None => bind (bind (vp (nLeft n) s) (vp (nOp n))) (vp (nRight n))
        end
    | NLogic =>
        match vLogic v with
        | Some h => h (Some n) s
        | None => bind (bind (vp (nLeft n) s) (vp (nOp n))) (vp (nRight n))
        end
    | NPredicates =>
        match vPredicates v with
        | Some h => h (Some n) s
        | None => bind (vp (nLeft n) s) (vp (nOp n))
        end
    | NBetween | NFunction =>
        match vBetween v with
        | Some h => h (Some n) s
        | None => bind (bind (vp (nLeft n) s) (vp (nOp n))) (all (nParams n))
        end
    | NReference | NOther => Err (invalid_type (nType n))
    end.
  Definition local_visit_p (v : visitor) (p : option node) (s : St) : outcome Er St :=
    match p with None => Panic | Some m => local_visit v m s end.
  Fixpoint local_visit_all (v : visitor) (l : list (option node)) (s : St) : outcome Er St :=
    match l with [] => Ok s | p :: l' => bind (local_visit_p v p s) (local_visit_all v l') end.

  (** reading a field of *node: nil panics *)
  Definition deref (n : option node) (k : node -> outcome Er St) : outcome Er St :=
    match n with None => Panic | Some m => k m end.

  (** The default closures, visitor.go:27-108 *)
  Definition noop : vfunc := fun _ s => Ok s.
  Definition d_expression (v : visitor) : vfunc := fun n s => deref n (fun m => local_visit_p v (nExpression m) s).
  Definition d_params (v : visitor) : vfunc := fun n s => deref n (fun m => local_visit_all v (nParams m) s).
  Definition d_binary (v : visitor) : vfunc := fun n s => deref n (fun m =>
    bind (bind (local_visit_p v (nLeft m) s) (local_visit_p v (nOp m))) (local_visit_p v (nRight m))).
  Definition d_predicates (v : visitor) : vfunc := fun n s => deref n (fun m =>
    bind (local_visit_p v (nLeft m) s) (local_visit_p v (nOp m))).
  Definition d_between (v : visitor) : vfunc := fun n s => deref n (fun m =>
    bind (bind (local_visit_p v (nLeft m) s) (local_visit_p v (nOp m))) (local_visit_all v (nParams m))).
  Definition d_value (v : visitor) : vfunc := fun n s => deref n (fun m =>
    match nVType m with VArray => local_visit_all v (nArray m) s | _ => Ok s end).

  Definition or_else (h : option vfunc) (d : vfunc) : option vfunc :=
    match h with Some _ => h | None => Some d end.
  (** The value of Init's receiver when Init returns. *)
  Definition init_body (v : visitor) : visitor :=
    Visitor (or_else (vBinary v) (d_binary v)) (or_else (vLogic v) (d_binary v)) (or_else (vBetween v) (d_between v))
      (or_else (vFunction v) (d_params v)) (or_else (vPredicates v) (d_predicates v)) (vTerminate v)
      (or_else (vParentheses v) (d_expression v)) (or_else (vNot v) (d_expression v))
      (or_else (vIdentifier v) noop) (or_else (vOperation v) noop) (or_else (vValue v) (d_value v)).
  (** A Go method with a value receiver works on a copy: (the caller's
      variable afterwards, the copy). *)
  Definition value_receiver (body : visitor -> visitor) (v : visitor) : visitor * visitor := (v, body v).
  (** The caller's variable after v.Init(), visitor.go:26: the receiver is
      [v Visitor], not [v *Visitor]. *)
  Definition init (v : visitor) : visitor := fst (value_receiver init_body v).
End Visitor.
Arguments visit {St Er}.
Arguments init {St Er}.
