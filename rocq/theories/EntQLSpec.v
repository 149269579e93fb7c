(** Vocabulary for the statements about entql (C37-C41); it uses the data types
    of EntQL.v, not its functions. *)
From Verif Require Import Base Node Vocab Tree Parse Build NodeFacts EntQL.

(** A tree without the brackets and negations around it. *)
Fixpoint peel (n : node) : node :=
  match nType n with
  | NParentheses | NNot => match nExpression n with Some m => peel m | None => n end
  | _ => n
  end.
Definition is_condition (n : node) : bool :=
  match nType (peel n) with NCompare | NLogic | NBetween => true | _ => false end.
Definition is_call (n : node) : bool := match nType (peel n) with NFunction => true | _ => false end.

(** a predicate of entql, not a bare field or value *)
Definition is_predicate (x : eexpr) : Prop := (forall f, x <> XField f) /\ (forall v, x <> XValue v).

(** Function calls outside of function arguments. *)
Fixpoint calls (n : node) : nat :=
  let cp (p : option node) : nat := match p with Some m => calls m | None => 0 end in
  match nType n with
  | NParentheses | NNot => cp (nExpression n)
  | NFunction => 1
  | NBetween => cp (nLeft n) + match nParams n with a :: b :: _ => cp a + cp b | _ => 0 end
  | NCompare | NLogic => cp (nLeft n) + cp (nRight n)
  | _ => 0
  end.

(** The operators entql has, and their counterparts. *)
Definition ql_operators : list (list N * eop) :=
  [(#"and", EAnd); (#"or", EOr); (#"eq", EEQ); (#"neq", ENEQ); (#"gt", EGT); (#"gte", EGTE); (#"lt", ELT); (#"lte", ELTE);
   (#"in", EInOp); (#"not in", ENotIn); (#"not", ENotOp)].

(** [x] is the tree [n] with brackets removed and, when [drop], negations too. *)
Inductive copies (drop : bool) : node -> eexpr -> Prop :=
| cop_value : forall n v, go_value n v -> copies drop n (XValue v)
| cop_name : forall x, copies drop (mk_ident x) (XField x)
| cop_paren : forall e x, copies drop e x -> copies drop (mk_paren (Some e)) x
| cop_not : forall e x, drop = true -> copies drop e x -> copies drop (mk_not (Some e)) x
| cop_compare : forall l r k op x y, In (nOperation k, op) ql_operators -> copies drop l x -> copies drop r y ->
    copies drop (mk_compare (Some l) (Some k) (Some r)) (XBinary op x y)
| cop_logic : forall l r k op x y, In (nOperation k, op) ql_operators -> copies drop l x -> copies drop r y ->
    copies drop (mk_logic (Some l) (Some k) (Some r)) (XBinary op x y)
| cop_between : forall l k a b x y z, nOperation k <> #"not between" -> copies drop l x -> copies drop a y -> copies drop b z ->
    copies drop (mk_between (Some l) (Some k) (Some a) (Some b)) (XBinary EAnd (XBinary EGTE x y) (XBinary ELTE x z))
| cop_not_between : forall l k a b x y z, nOperation k = #"not between" -> copies drop l x -> copies drop a y -> copies drop b z ->
    copies drop (mk_between (Some l) (Some k) (Some a) (Some b)) (XBinary EAnd (XBinary ELT x y) (XBinary EGT x z)).

(** names, values, brackets, supported operators and between *)
Fixpoint mirrorable (n : node) : bool :=
  let mp (p : option node) : bool := match p with Some m => mirrorable m | None => false end in
  match nType n with
  | NValue | NIdentifier => true
  | NParentheses => mp (nExpression n)
  | NBetween => mp (nLeft n)
  | NCompare | NLogic =>
      mp (nLeft n) && mp (nRight n) &&
      match nOp n with Some o => existsb (fun k => streq (nOperation o) (fst k)) ql_operators | None => false end
  | _ => false
  end.

(** What happens to a tree without function calls: nothing special, an error
    [e], or a panic.  Nodes are visited operands first, left to right; a
    predicate node panics, a reference and an unknown operator are errors.  An
    error below a negation becomes a panic unless the last operand completed
    before it ([lft]) is a condition. *)
Inductive fate : Type := Fine | Wrong (e : eerr) (lft : option node) (negated : bool) | Boom.
Definition under_not (f : fate) : fate := match f with Wrong e l _ => Wrong e l true | _ => f end.
Definition after (l : node) (f : fate) : fate := match f with Wrong e None b => Wrong e (Some l) b | _ => f end.
Fixpoint fate_of (n : node) : fate :=
  let fp (p : option node) : fate := match p with Some m => fate_of m | None => Boom end in
  match nType n with
  | NValue | NIdentifier | NFunction => Fine
  | NReference | NOther => Wrong (XType (nType n)) None false
  | NOperation => Wrong (XOpNode (nOperation n)) None false
  | NPredicates => Boom
  | NParentheses => fp (nExpression n)
  | NNot => under_not (fp (nExpression n))
  | NBetween => fp (nLeft n)
  | NCompare | NLogic =>
      match nLeft n, fp (nLeft n) with
      | Some l, Fine =>
          match fp (nRight n) with
          | Fine =>
              match nOp n with
              | Some o => if existsb (fun k => streq (nOperation o) (fst k)) ql_operators then Fine else Wrong (XOp (nOperation o)) None false
              | None => Boom
              end
          | f => after l f
          end
      | _, f => f
      end
  end.
Definition verdict (n : node) (r : outcome eerr (option eexpr)) : Prop :=
  match fate_of n with
  | Fine => if is_condition n then exists p, r = Ok (Some p) /\ copies true n p else r = Panic
  | Boom => r = Panic
  | Wrong e _ false => r = Err e
  | Wrong e (Some l) true => r = if is_condition l then Err e else Panic
  | Wrong e None true => r = Panic
  end.
(** nothing wrong apart from function calls *)
Definition sound (n : node) : Prop := fate_of n = Fine.

(** ** Meaning (C38-C40) *)
(** integers compare, an integer is or is not in an array, booleans combine *)
Definition int_in (x : Z) (l : list gval) : bool := existsb (fun v => match v with GInt y => (x =? y)%Z | _ => false end) l.
Definition op_meaning (o : list N) (a b : gval) : option gval :=
  match a, b with
  | GInt x, GInt y =>
      if streq o #"eq" then Some (GBool (x =? y)%Z) else if streq o #"neq" then Some (GBool (negb (x =? y)%Z))
      else if streq o #"gt" then Some (GBool (y <? x)%Z) else if streq o #"gte" then Some (GBool (y <=? x)%Z)
      else if streq o #"lt" then Some (GBool (x <? y)%Z) else if streq o #"lte" then Some (GBool (x <=? y)%Z) else None
  | GInt x, GArr l => if streq o #"in" then Some (GBool (int_in x l)) else if streq o #"not in" then Some (GBool (negb (int_in x l))) else None
  | GBool p, GBool q => if streq o #"and" then Some (GBool (p && q)) else if streq o #"or" then Some (GBool (p || q)) else None
  | _, _ => None
  end.
Definition eop_meaning (o : eop) (a b : gval) : option gval :=
  match a, b, o with
  | GInt x, GInt y, EEQ => Some (GBool (x =? y)%Z) | GInt x, GInt y, ENEQ => Some (GBool (negb (x =? y)%Z))
  | GInt x, GInt y, EGT => Some (GBool (y <? x)%Z) | GInt x, GInt y, EGTE => Some (GBool (y <=? x)%Z)
  | GInt x, GInt y, ELT => Some (GBool (x <? y)%Z) | GInt x, GInt y, ELTE => Some (GBool (x <=? y)%Z)
  | GInt x, GArr l, EInOp => Some (GBool (int_in x l)) | GInt x, GArr l, ENotIn => Some (GBool (negb (int_in x l)))
  | GBool p, GBool q, EAnd => Some (GBool (p && q)) | GBool p, GBool q, EOr => Some (GBool (p || q))
  | _, _, _ => None
  end.
Definition gnot (v : gval) : option gval := match v with GBool b => Some (GBool (negb b)) | _ => None end.
Definition obind2 (f : gval -> gval -> option gval) (a b : option gval) : option gval :=
  match a, b with Some x, Some y => f x y | _, _ => None end.

Section Meaning.
  Variable row : list N -> gval.            (* the values of the columns *)
  (** the meaning of an entql predicate *)
  Fixpoint xmeans (x : eexpr) : option gval :=
    match x with
    | XField c => Some (row c)
    | XValue v => Some v
    | XUnary ENotOp x => match xmeans x with Some v => gnot v | None => None end
    | XUnary _ _ => None
    | XBinary o x y => obind2 (eop_meaning o) (xmeans x) (xmeans y)
    end.
  (** the meaning of a query tree *)
  Inductive nmeans : node -> gval -> Prop :=
  | nm_value : forall n v, go_value n v -> nmeans n v
  | nm_name : forall c, nmeans (mk_ident c) (row c)
  | nm_paren : forall e v, nmeans e v -> nmeans (mk_paren (Some e)) v
  | nm_not : forall e b, nmeans e (GBool b) -> nmeans (mk_not (Some e)) (GBool (negb b))
  | nm_compare : forall l r k a b v, nmeans l a -> nmeans r b -> op_meaning (nOperation k) a b = Some v ->
      nmeans (mk_compare (Some l) (Some k) (Some r)) v
  | nm_logic : forall l r k a b v, nmeans l a -> nmeans r b -> op_meaning (nOperation k) a b = Some v ->
      nmeans (mk_logic (Some l) (Some k) (Some r)) v
  | nm_between : forall l k a b x y z, nOperation k = #"between" -> nmeans l (GInt x) -> go_value a (GInt y) -> go_value b (GInt z) ->
      nmeans (mk_between (Some l) (Some k) (Some a) (Some b)) (GBool ((y <=? x) && (x <=? z))%Z)
  | nm_not_between : forall l k a b x y z, nOperation k = #"not between" -> nmeans l (GInt x) -> go_value a (GInt y) -> go_value b (GInt z) ->
      nmeans (mk_between (Some l) (Some k) (Some a) (Some b)) (GBool ((x <? y) || (z <? x))%Z).
End Meaning.
(** trees without negation and without "not between" *)
Fixpoint positive (n : node) : bool :=
  let pp (p : option node) : bool := match p with Some m => positive m | None => true end in
  match nType n with
  | NNot => false
  | NParentheses => pp (nExpression n)
  | NBetween => pp (nLeft n) && negb (match nOp n with Some o => streq (nOperation o) #"not between" | None => false end)
  | NCompare | NLogic => pp (nLeft n) && pp (nRight n)
  | _ => true
  end.
