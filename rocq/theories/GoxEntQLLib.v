(** What the methods of MiniQLToEntQLBuilder (GoxEntQL.v) find around them: the two fields of
    the one builder, miniquery.Parse as Parse.v has it (C101 takes that one statement by
    statement), and of entgo.io/ent/entql the constructors of EntQL.v.  Node.Value is taken
    from node.go (GoxMini.v). *)
From Verif Require Import Base Node Tree Parse EntQL Gox GoxMini GoxEntQL.
Open Scope string_scope.

(** entql.Expr, entql.Op, error *)
Inductive ex : Set := VExpr (e : eexpr) | VOp (o : eop) | VErr (e : eerr).
Notation xval := (val ex).
(** type MiniQLToEntQLBuilder struct, entmq/entql.go:32-35; the stack as in Go, its top last *)
Record eworld : Type := EW { eQuery : list N; eStack : list eexpr }.
Notation est := (st eworld).
Notation builder := "MiniQLToEntQLBuilder".

Definition xe (e : eexpr) : xval := WX (VExpr e).
Fixpoint exprs_of (l : list xval) : option (list eexpr) :=
  match l with
  | [] => Some []
  | WX (VExpr e) :: l' => match exprs_of l' with Some r => Some (e :: r) | None => None end
  | _ => None
  end.
Definition ent_field (ty f : string) (w : eworld) : option xval :=
  if ty =? builder then
    if f =? "Query" then Some (WStr (eQuery w))
    else if f =? "stack" then Some (WList (map xe (eStack w)))
    else None
  else if ty =? "slog.Logger" then (if f =? "Error" then Some (WFun "slog.Error") else None)
  else None.
Definition ent_setfield (ty f : string) (v : xval) (w : eworld) : option eworld :=
  if (ty =? builder) && (f =? "stack") then
    match v with
    | WList l => match exprs_of l with Some r => Some (EW (eQuery w) r) | None => None end
    | _ => None
    end
  else None.

(** entql.OpAnd, ... *)
Definition ent_cst (x : string) : option xval :=
  match get x [("entql.OpAnd", EAnd); ("entql.OpOr", EOr); ("entql.OpNot", ENotOp); ("entql.OpEQ", EEQ); ("entql.OpNEQ", ENEQ);
               ("entql.OpGT", EGT); ("entql.OpGTE", EGTE); ("entql.OpLT", ELT); ("entql.OpLTE", ELTE); ("entql.OpIn", EInOp);
               ("entql.OpNotIn", ENotIn)] with
  | Some o => Some (WX (VOp o))
  | None => None
  end.

(** interface{} *)
Fixpoint xval_of (v : xval) : option gval :=
  match v with
  | WNil => Some GNil
  | WInt z => Some (GInt z)
  | WBool b => Some (GBool b)
  | WStr s => Some (GStr s)
  | WFloat z => Some (GFloat z)
  | WList l =>
      match (fix go (l : list xval) : option (list gval) :=
               match l with
               | [] => Some []
               | x :: l' => match xval_of x, go l' with Some y, Some r => Some (y :: r) | _, _ => None end
               end) l with
      | Some r => Some (GArr r)
      | None => None
      end
  | _ => None
  end.

(** entql.Value{V: v}, entql.BinaryExpr{Op: o, X: x, Y: y} *)
Definition ent_lit (ty : string) (fs : list (string * xval)) : option xval :=
  if ty =? "entql.Value" then
    match get "V" fs with
    | Some v => match xval_of v with Some x => Some (WX (VExpr (XValue x))) | None => None end
    | None => None
    end
  else if ty =? "entql.BinaryExpr" then
    match get "Op" fs, get "X" fs, get "Y" fs with
    | Some (WX (VOp o)), Some (WX (VExpr x)), Some (WX (VExpr y)) => Some (WX (VExpr (XBinary o x y)))
    | _, _, _ => None
    end
  else None.
(** e.(entql.P): panics unless e is a predicate *)
Definition ent_assert (v : xval) (ty : string) : option xval :=
  match v with
  | WX (VExpr e) => if (ty =? "entql.P") && is_p e then Some v else None
  | _ => None
  end.

Section Lib.
  Variable lower_hi : N -> N.

  Definition ent_prim (f : string) (args : list xval) (s : est) : res est xval :=
    if f =? "Parse" then
      match args with
      | [WStr q] => match parse lower_hi q with
                    | Ok n => Ret (WList [WNode n; WNil]) s
                    | Err e => Ret (WList [WNode None; WX (VErr (XParse e))]) s
                    | Panic => Panics
                    end
      | _ => Stuck
      end
    else if f =? "entql.F" then
      match args with [WStr n] => Ret (WX (VExpr (XField n))) s | _ => Stuck end
    else if f =? "entql.Not" then
      match args with [WX (VExpr x)] => Ret (WX (VExpr (XUnary ENotOp x))) s | _ => Stuck end
    else if f =? "entql.And" then
      match args with [WX (VExpr x); WX (VExpr y)] => Ret (WX (VExpr (XBinary EAnd x y))) s | _ => Stuck end
    else if f =? "errors.Errorf" then
      match args with
      | [WStr t; WNode (Some n)] => if streq t #"unexpected op node: %q" then Ret (WX (VErr (XOpNode (nOperation n)))) s else Stuck
      | [WStr t; WStr x] =>
          if streq t #"unexpected op %q" then Ret (WX (VErr (XOp x))) s
          else if streq t #"invalid type %q" then Ret (WX (VErr (XType (ntype_of x)))) s
          else Stuck
      | _ => Stuck
      end
    else if f =? "slog.With" then Ret (WObj "slog.Logger") s
    else if f =? "slog.Error" then Ret WNil s        (* a line of the log *)
    else Stuck.

  Definition ent_functions : list (string * fundef) := ("Node.Value", mini_Node_Value) :: entql_table.
  (** A call of a method of the builder. *)
  Definition ent_call : nat -> xval -> list xval -> est -> res est xval :=
    call ex eworld ent_functions mini_consts entql_maps ent_cst ent_field ent_setfield ent_prim ent_lit ent_assert.
End Lib.

(** The state in which the stack of the builder is [s], top first. *)
Definition at_e (h : list (list N)) (q : list N) (s : list eexpr) : est := St _ h (EW q (rev s)).
