(** Model of entmq/entql.go.  Of the library entgo.io/ent/entql only the shape
    of its expressions is used: Field, Value, UnaryExpr, BinaryExpr; the first
    two are not predicates (they do not implement entql.P), the others are. *)
From Verif Require Import Base Node Tree Parse Build.

(** entql.Op *)
Inductive eop : Set := EAnd | EOr | ENotOp | EEQ | ENEQ | EGT | EGTE | ELT | ELTE | EInOp | ENotIn.
(** entql.Expr *)
Inductive eexpr : Type :=
| XField (name : list N)
| XValue (v : gval)
| XUnary (op : eop) (x : eexpr)
| XBinary (op : eop) (x y : eexpr).
(** the type assertion x.(entql.P) *)
Definition is_p (x : eexpr) : bool := match x with XUnary _ _ | XBinary _ _ _ => true | _ => false end.

(** entqlOpMap, entmq/entql.go:155-167 *)
Definition entql_ops : list (list N * eop) :=
  [ (#"and", EAnd); (#"or", EOr); (#"not", ENotOp); (#"eq", EEQ); (#"neq", ENEQ); (#"gt", EGT); (#"gte", EGTE);
    (#"lt", ELT); (#"lte", ELTE); (#"in", EInOp); (#"not in", ENotIn) ].

Inductive eerr : Type :=
| XParse (e : perr)               (* error of miniquery.Parse *)
| XOpNode (s : list N)            (* "unexpected op node" *)
| XOp (s : list N)                (* "unexpected op" *)
| XType (t : ntype).              (* "invalid type" *)

(** Result of visit: the stack (top first) is kept on errors. *)
Inductive eres : Type := XOk (s : list eexpr) | XErr (e : eerr) (s : list eexpr) | XPanic.
Definition xbind (r : eres) (k : list eexpr -> eres) : eres := match r with XOk s => k s | _ => r end.

(** visit, entmq/entql.go:65-153 *)
Fixpoint evisit (n : node) (s : list eexpr) : eres :=
  let vp (p : option node) (s : list eexpr) : eres := match p with Some m => evisit m s | None => XPanic end in
  match nType n with
  | NOperation => XErr (XOpNode (nOperation n)) s
  | NValue => match value n with None => XPanic | Some v => XOk (XValue v :: s) end
  | NIdentifier => XOk (XField (nName n) :: s)
  | NParentheses => vp (nExpression n) s
  | NNot =>
      match vp (nExpression n) s with
      | XErr e (x :: s') => if is_p x then XErr e (XUnary ENotOp x :: s') else XPanic
      | XErr _ [] => XPanic
      | r => r
      end
  | NFunction => XOk s
  | NBetween =>
      xbind (vp (nLeft n) s) (fun s =>
      match nParams n with
      | a :: ps =>
          xbind (match a with Some m => evisit m s | None => XPanic end) (fun s =>
          match ps with
          | b :: _ =>
              xbind (match b with Some m => evisit m s | None => XPanic end) (fun s =>
              match s with
              | hig :: low :: lft :: s' =>
                  match nOp n with
                  | None => XPanic
                  | Some o =>
                      if streq (nOperation o) #"not between"
                      then XOk (XBinary EAnd (XBinary ELT lft low) (XBinary EGT lft hig) :: s')
                      else XOk (XBinary EAnd (XBinary EGTE lft low) (XBinary ELTE lft hig) :: s')
                  end
              | _ => XPanic
              end)
          | [] => XPanic
          end)
      | [] => XPanic
      end)
  | NPredicates => XPanic
  | NLogic | NCompare =>
      xbind (vp (nLeft n) s) (fun s =>
      xbind (vp (nRight n) s) (fun s =>
      match s with
      | rgt :: lft :: s' =>
          match nOp n with
          | None => XPanic
          | Some o =>
              match assoc (nOperation o) entql_ops with
              | None => XErr (XOp (nOperation o)) s'
              | Some op => XOk (XBinary op lft rgt :: s')
              end
          end
      | _ => XPanic
      end))
  | NReference | NOther => XErr (XType (nType n)) s
  end.

Section EntQL.
  Variable lower_hi : N -> N.

  (** Build, entmq/entql.go:47-63, on a builder with the given stack; the
      result carries the stack it leaves.  [Ok (None, _)]: nil predicate and
      nil error. *)
  Definition ebuild (query : list N) (s : list eexpr) : outcome (eerr * list eexpr) (option eexpr * list eexpr) :=
    match query with
    | [] => Ok (None, s)
    | _ =>
        match parse lower_hi query with
        | Panic => Panic
        | Err e => Err (XParse e, s)
        | Ok None => Panic
        | Ok (Some n) =>
            match evisit n s with
            | XPanic => Panic
            | XErr e s' => Err (e, s')
            | XOk [] => Ok (None, [])
            | XOk (x :: s') => if is_p x then Ok (Some x, s') else Panic
            end
        end
    end.

  (** BuildEntQL, entmq/entql.go:23-30 *)
  Definition build_entql (query : list N) : outcome eerr (option eexpr) :=
    match ebuild query [] with
    | Ok (p, _) => Ok p
    | Err (e, _) => Err e
    | Panic => Panic
    end.

  (** ApplyEntQL, entmq/entql.go:11-21: the arguments of the Where calls, and
      how it ended. *)
  Fixpoint apply_entql (queries : list (list N)) : list (option eexpr) * outcome eerr unit :=
    match queries with
    | [] => ([], Ok tt)
    | q :: qs =>
        match build_entql q with
        | Ok p => let (ps, r) := apply_entql qs in (p :: ps, r)
        | Err e => ([], Err e)
        | Panic => ([], Panic)
        end
    end.
End EntQL.
