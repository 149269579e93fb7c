(** Model of MiniQLToEntQLBuilder as an object that is used for several queries,
    entmq/entql.go:32-153: what Build leaves on the stack when it returns, fails or
    panics, and the message it logs.  EntQL.v models the same code without the
    stack of a panic and without the message. *)
From Verif Require Import Base Node Tree Parse Build EntQL.

(** The end of visit: in every case with the stack as it is then, top first.
    A panic with [true]: pop on an empty stack (index out of range). *)
Inductive rres : Type := ROk (s : list eexpr) | RErr (e : eerr) (s : list eexpr) | RPanic (empty : bool) (s : list eexpr).
Definition rbind (r : rres) (k : list eexpr -> rres) : rres := match r with ROk s => k s | _ => r end.
(** pop, entmq/entql.go:37-41 *)
Definition rpop (s : list eexpr) (k : eexpr -> list eexpr -> rres) : rres := match s with [] => RPanic true [] | x :: s' => k x s' end.

(** visit, entmq/entql.go:65-153 *)
Fixpoint rvisit (n : node) (s : list eexpr) : rres :=
  let vp (p : option node) (s : list eexpr) : rres := match p with Some m => rvisit m s | None => RPanic false s end in
  match nType n with
  | NOperation => RErr (XOpNode (nOperation n)) s
  | NValue => match value n with None => RPanic false s | Some v => ROk (XValue v :: s) end
  | NIdentifier => ROk (XField (nName n) :: s)
  | NParentheses => vp (nExpression n) s
  | NNot =>
      match vp (nExpression n) s with
      | RErr e s' => rpop s' (fun x s'' => if is_p x then RErr e (XUnary ENotOp x :: s'') else RPanic false s'')
      | r => r
      end
  | NFunction => ROk s
  | NBetween =>
      rbind (vp (nLeft n) s) (fun s =>
      match nParams n with
      | a :: ps =>
          rbind (match a with Some m => rvisit m s | None => RPanic false s end) (fun s =>
          match ps with
          | b :: _ =>
              rbind (match b with Some m => rvisit m s | None => RPanic false s end) (fun s =>
              rpop s (fun hig s => rpop s (fun low s => rpop s (fun lft s =>
              match nOp n with
              | None => RPanic false s
              | Some o =>
                  if streq (nOperation o) #"not between"
                  then ROk (XBinary EAnd (XBinary ELT lft low) (XBinary EGT lft hig) :: s)
                  else ROk (XBinary EAnd (XBinary EGTE lft low) (XBinary ELTE lft hig) :: s)
              end))))
          | [] => RPanic false s
          end)
      | [] => RPanic false s
      end)
  | NPredicates => RPanic false s
  | NLogic | NCompare =>
      rbind (vp (nLeft n) s) (fun s =>
      rbind (vp (nRight n) s) (fun s =>
      rpop s (fun rgt s => rpop s (fun lft s =>
      match nOp n with
      | None => RPanic false s
      | Some o =>
          match assoc (nOperation o) entql_ops with
          | None => RErr (XOp (nOperation o)) s
          | Some op => ROk (XBinary op lft rgt :: s)
          end
      end))))
  | NReference | NOther => RErr (XType (nType n)) s
  end.

(** What a caller of Build sees: an error, a predicate or nil, a panic. *)
Inductive result : Type := Failed (e : eerr) | Returned (p : option eexpr) | Panicked (empty : bool).

Section Builder.
  Variable lower_hi : N -> N.
  (** Build, entmq/entql.go:47-63: the result, the size in the message "unexpected
      MiniQLBuilder stack size" if it is logged, and the stack left. *)
  Definition rbuild (query : list N) (s : list eexpr) : result * option nat * list eexpr :=
    match query with
    | [] => (Returned None, None, s)
    | _ =>
        match parse lower_hi query with
        | Panic | Ok None => (Panicked false, None, s)
        | Err e => (Failed (XParse e), None, s)
        | Ok (Some n) =>
            match rvisit n s with
            | RPanic empty s' => (Panicked empty, None, s')
            | RErr e s' => (Failed e, None, s')
            | ROk [] => (Returned None, None, [])
            | ROk (x :: s') =>
                if is_p x then (Returned (Some x), if Nat.ltb 1 (length s') then Some (length s') else None, s')
                else (Panicked false, None, s')
            end
        end
    end.
  (** One builder, its Query set to one query after the other; a caller may go on
      after an error and, with recover, after a panic. *)
  Fixpoint builds (queries : list (list N)) (s : list eexpr) : list (result * option nat) * list eexpr :=
    match queries with
    | [] => ([], s)
    | q :: qs => let '(r, m, s') := rbuild q s in let (rs, s'') := builds qs s' in ((r, m) :: rs, s'')
    end.
End Builder.
