(** A part of Go: the statements and expressions of the hand-written files of the
    repository, and what they do.  tools/gofunc2v.py translates functions into this
    syntax.  Nothing here knows of queries, except that a *Node is a value.

    Simplifications, all of them harmless for programs in which
    - fields are assigned only through a method's receiver (the translation fails
      otherwise), so that a pointer to a struct literal is as good as its value;
    - slices are values: append and slicing never write to a shared array that is read
      later (Heap.v, C64, is about just this for tree.go);
    - a nil slice and an empty slice are the same, int is Z;
    - a function with several results returns their list;
    - function literals read variables of the enclosing function that no longer change. *)
From Verif Require Import Base Node.
Open Scope string_scope.

Inductive expr : Set :=
| ENil
| EInt (z : Z)
| EBool (b : bool)
| EStr (s : list N)                                  (* "..." and '.' *)
| EVar (x : string)                                  (* parameters, receivers, local variables *)
| ECst (x : string)                                  (* a constant, also of another package: p.X *)
| EFn (f : string)                                   (* a function, also of another package *)
| ESel (e : expr) (f : string)                       (* e.f *)
| EIndex (e i : expr)                                (* e[i] *)
| ESlice (e : expr) (lo hi : option expr)            (* e[lo:hi] *)
| ECall (f : expr) (args : list expr)
| EBin (op : string) (a b : expr)
| ENot (e : expr)
| ELit (ty : string) (fs : list (string * expr))     (* T{f: e, ...} and &T{f: e, ...} *)
| EList (es : list expr)                             (* []T{e, ...} *)
| EAssert (e : expr) (ty : string)                   (* e.(T) *)
| ELookup (m : string) (k : expr).                   (* m[k] for a map of the package: value and ok *)

Inductive stmt : Set :=
| SExpr (e : expr)
| SDef (xs : list string) (e : expr)                 (* x, y := e; var x T *)
| SSet (xs : list string) (e : expr)                 (* x, y = e *)
| SSetSel (x f : string) (e : expr)                  (* x.f = e *)
| SClosure (x : string) (ps : list string) (b : list stmt)  (* x = func(ps) { b } *)
| SCopy (x : string) (e : expr)                      (* copy(x, e) *)
| SPanic                                             (* panic(...) *)
| SIf (c : expr) (th el : list stmt)
| SBlock (b : list stmt)
| SReturn (es : list expr)
| SRange (i v : string) (e : expr) (b : list stmt)   (* for i, v := range e { b } *)
| SSwitch (e : expr) (cases : list (list expr * list stmt)) (d : list stmt)
| SBreak
| SContinue
| SFall.                                             (* fallthrough *)

(** Parameters (the receiver first), named results with their zero values, body. *)
Inductive fundef : Set := Fundef (ps : list string) (rs : list (string * expr)) (b : list stmt).

(** Values; [X] is for what a package adds (errors, expressions of a library, ...). *)
Inductive val (X : Set) : Set :=
| WNil
| WInt (z : Z)
| WBool (b : bool)
| WStr (s : list N)
| WFloat (z : Z)                                     (* opaque, as in Node.v *)
| WNode (n : option node)                            (* *Node *)
| WList (l : list (val X))                           (* slices, several results *)
| WPtr (a : nat)                                     (* *strings.Builder *)
| WObj (ty : string)                                 (* the pointer to the one object of this type *)
| WFun (f : string)                                  (* a function *)
| WMeth (ty f : string)                              (* a method with its object *)
| WClo (self : string) (ps : list string) (b : list stmt) (env : list (string * val X))
| WX (x : X).
Arguments WNil {X}. Arguments WInt {X} z. Arguments WBool {X} b. Arguments WStr {X} s.
Arguments WFloat {X} z. Arguments WNode {X} n. Arguments WList {X} l. Arguments WPtr {X} a.
Arguments WObj {X} ty. Arguments WFun {X} f. Arguments WMeth {X} ty f. Arguments WClo {X} self ps b env.
Arguments WX {X} x.

(** Result of an expression or a call in a state. *)
Inductive res (S A : Type) : Type :=
| Ret (a : A) (s : S)
| Panics
| Stuck                                              (* not a Go program, or outside this part of Go *)
| NoFuel.                                            (* the bound on nested calls is reached *)
Arguments Ret {S A} a s. Arguments Panics {S A}. Arguments Stuck {S A}. Arguments NoFuel {S A}.
Definition bind {S A B} (r : res S A) (k : A -> S -> res S B) : res S B :=
  match r with Ret a s => k a s | Panics => Panics | Stuck => Stuck | NoFuel => NoFuel end.

(** How a statement ends. *)
Inductive ctl (X : Set) : Type :=
| CNext | CRet (v : val X) | CBreak | CContinue | CFall.
Arguments CNext {X}. Arguments CRet {X} v. Arguments CBreak {X}. Arguments CContinue {X}. Arguments CFall {X}.

Fixpoint get {A} (x : string) (l : list (string * A)) : option A :=
  match l with
  | [] => None
  | (y, a) :: l' => if String.eqb x y then Some a else get x l'
  end.
(** Assignment to a variable in scope. *)
Fixpoint upd {A} (x : string) (a : A) (l : list (string * A)) : option (list (string * A)) :=
  match l with
  | [] => None
  | (y, b) :: l' => if String.eqb x y then Some ((y, a) :: l')
                    else match upd x a l' with Some r => Some ((y, b) :: r) | None => None end
  end.

(** Node's struct: NodeType and ValueType are strings in Go. *)
Definition ntype_text (t : ntype) : list N :=
  match t with
  | NValue => #"value" | NOperation => #"operation" | NIdentifier => #"identifier"
  | NReference => #"reference" | NPredicates => #"predicates" | NCompare => #"compare"
  | NLogic => #"logic" | NParentheses => #"parentheses" | NNot => #"not"
  | NBetween => #"between" | NFunction => #"function" | NOther => #"other"
  end.
Definition vtype_text (t : vtype) : list N :=
  match t with
  | VNone => [] | VInt => #"int" | VFloat => #"float" | VBool => #"bool"
  | VString => #"string" | VNull => #"null" | VArray => #"array"
  end.
Definition ntypes : list ntype :=
  [NValue; NOperation; NIdentifier; NReference; NPredicates; NCompare; NLogic; NParentheses; NNot; NBetween; NFunction].
Definition vtypes : list vtype := [VNone; VInt; VFloat; VBool; VString; VNull; VArray].
Definition ntype_of (s : list N) : ntype :=
  match find (fun t => streq s (ntype_text t)) ntypes with Some t => t | None => NOther end.
Definition vtype_of (s : list N) : option vtype := find (fun t => streq s (vtype_text t)) vtypes.

Section Run.
  Variable X : Set.
  Variable W : Type.                                 (* the objects: receivers and what libraries keep *)
  Notation val := (val X).
  Notation env := (list (string * val)).

  (** The contents of the strings.Builders made so far, and the world. *)
  Record st : Type := St { heap : list (list N); world : W }.

  Variable table : list (string * fundef).           (* the functions of the package *)
  Variable consts : list (string * list N).          (* its string constants *)
  Variable maps : list (string * list (expr * expr)). (* its maps *)
  Variable cst : string -> option val.               (* constants of libraries *)
  Variable field : string -> string -> W -> option val.        (* t.f *)
  Variable setfield : string -> string -> val -> W -> option W. (* t.f = v *)
  Variable prim : string -> list val -> st -> res st val.      (* functions of libraries *)
  Variable lit : string -> list (string * val) -> option val.  (* struct literals of libraries *)
  Variable assert : val -> string -> option val.               (* type assertions *)

  Definition as_node (v : val) : option (option node) :=
    match v with WNil => Some None | WNode n => Some n | _ => None end.
  Fixpoint as_nodes (l : list val) : option (list (option node)) :=
    match l with
    | [] => Some []
    | v :: l' => match as_node v, as_nodes l' with Some n, Some r => Some (n :: r) | _, _ => None end
    end.
  Fixpoint as_strs (l : list val) : option (list (list N)) :=
    match l with
    | [] => Some []
    | WStr s :: l' => match as_strs l' with Some r => Some (s :: r) | None => None end
    | _ => None
    end.

  (** n.f for a Node, node.go:36-55 *)
  Definition node_field (n : node) (f : string) : option val :=
    if f =? "Type" then Some (WStr (ntype_text (nType n)))
    else if f =? "ValueType" then Some (WStr (vtype_text (nVType n)))
    else if f =? "Int" then Some (WInt (nInt n))
    else if f =? "Bool" then Some (WBool (nBool n))
    else if f =? "Str" then Some (WStr (nStr n))
    else if f =? "Float" then Some (WFloat (nFloat n))
    else if f =? "Array" then Some (WList (map WNode (nArray n)))
    else if f =? "Operation" then Some (WStr (nOperation n))
    else if f =? "Name" then Some (WStr (nName n))
    else if f =? "Names" then Some (WList (map WStr (nNames n)))
    else if f =? "Expression" then Some (WNode (nExpression n))
    else if f =? "Left" then Some (WNode (nLeft n))
    else if f =? "Op" then Some (WNode (nOp n))
    else if f =? "Right" then Some (WNode (nRight n))
    else if f =? "Params" then Some (WList (map WNode (nParams n)))
    else None.

  (** Node{f: v, ...}: a field that is not given has its zero value *)
  Definition lit_node (fs : list (string * val)) : option node :=
    let str f := match get f fs with None => Some [] | Some (WStr s) => Some s | _ => None end in
    let ptr f := match get f fs with None => Some None | Some v => as_node v end in
    let nodes f := match get f fs with None => Some [] | Some (WList l) => as_nodes l | _ => None end in
    match str "Type", str "ValueType",
          match get "Int" fs with None => Some 0%Z | Some (WInt z) => Some z | _ => None end,
          match get "Bool" fs with None => Some false | Some (WBool b) => Some b | _ => None end,
          str "Str", match get "Float" fs with None => Some 0%Z | Some (WFloat z) => Some z | _ => None end,
          nodes "Array" with
    | Some ty, Some vt, Some i, Some b, Some s, Some fl, Some ar =>
        match vtype_of vt, str "Operation", str "Name",
              match get "Names" fs with None => Some [] | Some (WList l) => as_strs l | _ => None end with
        | Some vt, Some op, Some nm, Some nms =>
            match ptr "Expression", ptr "Left", ptr "Op", ptr "Right", nodes "Params" with
            | Some e, Some l, Some o, Some r, Some ps =>
                Some (Node (ntype_of ty) vt i b s fl ar op nm nms e l o r ps)
            | _, _, _, _, _ => None
            end
        | _, _, _, _ => None
        end
    | _, _, _, _, _, _, _ => None
    end.

  Definition is_nil (v : val) : option bool :=
    match v with
    | WNil => Some true
    | WNode None => Some true
    | WNode (Some _) | WX _ | WPtr _ | WObj _ | WFun _ | WMeth _ _ | WClo _ _ _ _ | WStr _ | WInt _ | WBool _ | WFloat _ => Some false
    | WList _ => None                                (* nil slice or not: not kept apart *)
    end.
  Definition equal (a b : val) : option bool :=
    match a, b with
    | WInt x, WInt y => Some (x =? y)%Z
    | WBool x, WBool y => Some (Bool.eqb x y)
    | WStr x, WStr y => Some (streq x y)
    | _, WNil => is_nil a
    | WNil, _ => is_nil b
    | _, _ => None
    end.
  Definition binary (op : string) (a b : val) : option val :=
    if op =? "==" then option_map WBool (equal a b)
    else if op =? "!=" then option_map (fun x => WBool (negb x)) (equal a b)
    else match a, b with
         | WInt x, WInt y =>
             if op =? "-" then Some (WInt (x - y)) else if op =? "+" then Some (WInt (x + y))
             else if op =? "<" then Some (WBool (x <? y)%Z) else if op =? ">" then Some (WBool (y <? x)%Z)
             else if op =? "<=" then Some (WBool (x <=? y)%Z) else if op =? ">=" then Some (WBool (y <=? x)%Z)
             else None
         | WStr x, WStr y => if op =? "+" then Some (WStr (x ++ y)%list) else None
         | _, _ => None
         end.
  (** l[i], l[lo:hi]; the capacity is taken to be the length *)
  Definition index (l : list val) (i : Z) : option val :=
    if (i <? 0)%Z then None else nth_error l (Z.to_nat i).
  Definition slice (l : list val) (lo hi : Z) : option (list val) :=
    if ((0 <=? lo) && (lo <=? hi) && (hi <=? Z.of_nat (length l)))%Z
    then Some (skipn (Z.to_nat lo) (firstn (Z.to_nat hi) l)) else None.

  Definition zlen {A} (l : list A) : Z := Z.of_nat (length l).
  Definition write (a : nat) (t : list N) (s : st) : option st :=
    match nth_error (heap s) a with
    | Some b => Some (St (firstn a (heap s) ++ (b ++ t)%list :: skipn (S a) (heap s))%list (world s))
    | None => None
    end.
  (** Functions of the language and of strings.Builder; else [prim]. *)
  Definition builtin (f : string) (args : list val) (s : st) : res st val :=
    if f =? "len" then
      match args with
      | [WList l] => Ret (WInt (zlen l)) s
      | [WStr t] => Ret (WInt (zlen t)) s            (* of runes: only compared with 0 *)
      | _ => Stuck
      end
    else if f =? "append" then match args with [WList l; v] => Ret (WList (l ++ [v])%list) s | _ => Stuck end
    else if f =? "string" then match args with [WStr t] => Ret (WStr t) s | _ => Stuck end
    else if f =? "make []*Node" then
      match args with
      | [WInt z] => if (z <? 0)%Z then Panics else Ret (WList (repeat (WNode None) (Z.to_nat z))) s
      | _ => Stuck
      end
    else if f =? "make []string" then
      match args with [WInt 0; WInt z] => if (z <? 0)%Z then Panics else Ret (WList []) s | _ => Stuck end
    else if (f =? "Builder.WriteString") || (f =? "Builder.WriteRune") then
      match args with
      | [WPtr a; WStr t] => match write a t s with Some s' => Ret (WList [WNil; WNil]) s' | None => Stuck end
      | _ => Stuck
      end
    else if f =? "Builder.String" then
      match args with
      | [WPtr a] => match nth_error (heap s) a with Some t => Ret (WStr t) s | None => Stuck end
      | _ => Stuck
      end
    else if f =? "Builder.Len" then
      match args with
      | [WPtr a] => match nth_error (heap s) a with Some t => Ret (WInt (zlen t)) s | None => Stuck end
      | _ => Stuck
      end
    else prim f args s.

  Section Body.
    (** a call of a function of the package, of a literal, or of a library *)
    Variable call : val -> list val -> st -> res st val.

    Fixpoint eval (e : expr) (g : env) (s : st) {struct e} : res st val :=
      let evals := fix go (es : list expr) (s : st) : res st (list val) :=
        match es with
        | [] => Ret [] s
        | e :: es' => bind (eval e g s) (fun v s => bind (go es' s) (fun vs s => Ret (v :: vs) s))
        end in
      let fields := fix go (fs : list (string * expr)) (s : st) : res st (list (string * val)) :=
        match fs with
        | [] => Ret [] s
        | (f, e) :: fs' => bind (eval e g s) (fun v s => bind (go fs' s) (fun vs s => Ret ((f, v) :: vs) s))
        end in
      let some (o : option val) (s : st) := match o with Some v => Ret v s | None => Stuck end in
      match e with
      | ENil => Ret WNil s
      | EInt z => Ret (WInt z) s
      | EBool b => Ret (WBool b) s
      | EStr t => Ret (WStr t) s
      | EVar x => some (get x g) s
      | ECst x => match get x consts with Some t => Ret (WStr t) s | None => some (cst x) s end
      | EFn f => Ret (WFun f) s
      | ESel e f =>
          bind (eval e g s) (fun v s =>
            match v with
            | WNode None => Panics
            | WNode (Some n) => some (node_field n f) s
            | WObj ty => match field ty f (world s) with Some v => Ret v s | None => Ret (WMeth ty f) s end
            | _ => Stuck
            end)
      | EIndex e i =>
          bind (eval e g s) (fun v s => bind (eval i g s) (fun iv s =>
            match v, iv with
            | WList l, WInt z => match index l z with Some v => Ret v s | None => Panics end
            | _, _ => Stuck
            end))
      | ESlice e lo hi =>
          bind (eval e g s) (fun v s =>
          bind (match lo with None => Ret (WInt 0) s | Some e => eval e g s end) (fun vl s =>
          bind (match hi, v with None, WList l => Ret (WInt (zlen l)) s | None, _ => Stuck | Some e, _ => eval e g s end) (fun vh s =>
            match v, vl, vh with
            | WList l, WInt a, WInt b => match slice l a b with Some r => Ret (WList r) s | None => Panics end
            | _, _, _ => Stuck
            end)))
      | ECall f args =>
          match f with
          | ESel e m =>                              (* a method *)
              bind (eval e g s) (fun v s =>
              match v with
              | WNode None => Panics                 (* its receiver is a Node, not a pointer *)
              | WNode (Some n) => bind (evals args s) (fun vs s => call (WFun ("Node." ++ m)) (v :: vs) s)
              | WPtr a => bind (evals args s) (fun vs s => call (WFun ("Builder." ++ m)) (v :: vs) s)
              | WObj ty =>
                  match field ty m (world s) with
                  | Some f => bind (evals args s) (fun vs s => call f vs s)     (* a field with a function *)
                  | None => bind (evals args s) (fun vs s => call (WMeth ty m) vs s)
                  end
              | _ => Stuck
              end)
          | _ => bind (eval f g s) (fun fv s => bind (evals args s) (fun vs s => call fv vs s))
          end
      | EBin op a b =>
          bind (eval a g s) (fun va s =>
            if op =? "&&" then
              match va with
              | WBool false => Ret (WBool false) s
              | WBool true => bind (eval b g s) (fun vb s => match vb with WBool x => Ret (WBool x) s | _ => Stuck end)
              | _ => Stuck
              end
            else if op =? "||" then
              match va with
              | WBool true => Ret (WBool true) s
              | WBool false => bind (eval b g s) (fun vb s => match vb with WBool x => Ret (WBool x) s | _ => Stuck end)
              | _ => Stuck
              end
            else bind (eval b g s) (fun vb s => some (binary op va vb) s))
      | ENot e => bind (eval e g s) (fun v s => match v with WBool b => Ret (WBool (negb b)) s | _ => Stuck end)
      | ELit ty fs =>
          bind (fields fs s) (fun vs s =>
            if ty =? "Node" then match lit_node vs with Some n => Ret (WNode (Some n)) s | None => Stuck end
            else if ty =? "strings.Builder" then Ret (WPtr (length (heap s))) (St (heap s ++ [[]])%list (world s))
            else some (lit ty vs) s)
      | EList es => bind (evals es s) (fun vs s => Ret (WList vs) s)
      | EAssert e ty => bind (eval e g s) (fun v s => match assert v ty with Some v => Ret v s | None => Panics end)
      | ELookup m k =>
          bind (eval k g s) (fun vk s =>
            match get m maps, vk with
            | Some l, WStr k =>
                (fix go (l : list (expr * expr)) : res st val :=
                   match l with
                   | [] => Ret (WList [WNil; WBool false]) s
                   | (ek, ev) :: l' =>
                       match (match ek with EStr t => Some t | ECst x => get x consts | _ => None end) with
                       | Some t =>
                           if streq k t
                           then match (match ev with EStr t => Some (WStr t) | ECst x => cst x | _ => None end) with
                                | Some v => Ret (WList [v; WBool true]) s
                                | None => Stuck
                                end
                           else go l'
                       | None => Stuck
                       end
                   end) l
            | _, _ => Stuck
            end)
      end.

    Definition evals (es : list expr) (g : env) : st -> res st (list val) :=
      (fix go (es : list expr) (s : st) : res st (list val) :=
        match es with
        | [] => Ret [] s
        | e :: es' => bind (eval e g s) (fun v s => bind (go es' s) (fun vs s => Ret (v :: vs) s))
        end) es.

    (** x, y := ... *)
    Fixpoint define (xs : list string) (vs : list val) (g : env) : option env :=
      match xs, vs with
      | [], [] => Some g
      | x :: xs', v :: vs' => define xs' vs' (if x =? "_" then g else (x, v) :: g)
      | _, _ => None
      end.
    Fixpoint assign (xs : list string) (vs : list val) (g : env) : option env :=
      match xs, vs with
      | [], [] => Some g
      | x :: xs', v :: vs' =>
          match (if x =? "_" then Some g else upd x v g) with
          | Some g' => assign xs' vs' g'
          | None => None
          end
      | _, _ => None
      end.
    Definition several (xs : list string) (v : val) : option (list val) :=
      match xs with
      | [_] => Some [v]
      | _ => match v with WList l => Some l | _ => None end
      end.
    (** the end of a block: its own variables are gone *)
    Definition leave (g g' : env) : env := skipn (length g' - length g) g'.

    Definition exit (g : env) (r : res st (ctl X * env)) : res st (ctl X * env) :=
      bind r (fun c s => Ret (fst c, leave g (snd c)) s).

    Fixpoint exec (rs : list string) (c : stmt) (g : env) (s : st) {struct c} : res st (ctl X * env) :=
      let execs := fix go (b : list stmt) (g : env) (s : st) : res st (ctl X * env) :=
        match b with
        | [] => Ret (CNext, g) s
        | c :: b' => bind (exec rs c g s) (fun r s =>
                       match fst r with CNext => go b' (snd r) s | _ => Ret r s end)
        end in
      let next (o : option env) (s : st) := match o with Some g => Ret (CNext, g) s | None => Stuck end in
      match c with
      | SExpr e => bind (eval e g s) (fun _ s => Ret (CNext, g) s)
      | SDef xs e =>
          bind (eval e g s) (fun v s => next (match several xs v with Some vs => define xs vs g | None => None end) s)
      | SSet xs e =>
          bind (eval e g s) (fun v s => next (match several xs v with Some vs => assign xs vs g | None => None end) s)
      | SSetSel x f e =>
          bind (eval e g s) (fun v s =>
            match get x g with
            | Some (WObj ty) =>
                match setfield ty f v (world s) with
                | Some w => Ret (CNext, g) (St (heap s) w)
                | None => Stuck
                end
            | _ => Stuck
            end)
      | SClosure x ps b => next (upd x (WClo x ps b g) g) s
      | SCopy x e =>
          bind (eval e g s) (fun v s =>
            match get x g, v with
            | Some (WList d), WList r =>
                next (upd x (WList (firstn (length d) r ++ skipn (length r) d)%list) g) s
            | _, _ => Stuck
            end)
      | SPanic => Panics
      | SIf e th el =>
          bind (eval e g s) (fun v s =>
            match v with
            | WBool true => exit g (execs th g s)
            | WBool false => exit g (execs el g s)
            | _ => Stuck
            end)
      | SBlock b => exit g (execs b g s)
      | SReturn [] =>
          (* the named results *)
          match rs with
          | [] => Ret (CRet WNil, g) s
          | [x] => match get x g with Some v => Ret (CRet v, g) s | None => Stuck end
          | _ => match evals (map EVar rs) g s with Ret vs s => Ret (CRet (WList vs), g) s | _ => Stuck end
          end
      | SReturn [e] => bind (eval e g s) (fun v s => Ret (CRet v, g) s)
      | SReturn es => bind (evals es g s) (fun vs s => Ret (CRet (WList vs), g) s)
      | SRange i v e b =>
          bind (eval e g s) (fun l s =>
            match l with
            | WList l =>
                (fix go (k : Z) (l : list val) (g : env) (s : st) : res st (ctl X * env) :=
                   match l with
                   | [] => Ret (CNext, g) s
                   | x :: l' =>
                       match define [i; v] [WInt k; x] g with
                       | None => Stuck
                       | Some g1 =>
                           bind (exit g (execs b g1 s)) (fun r s =>
                             match fst r with
                             | CNext | CContinue => go (k + 1)%Z l' (snd r) s
                             | CBreak => Ret (CNext, snd r) s
                             | _ => Ret r s
                             end)
                       end
                   end) 0%Z l g s
            | _ => Stuck
            end)
      | SSwitch e cases d =>
          bind (eval e g s) (fun v s =>
            let ends (r : res st (ctl X * env)) :=
              bind r (fun r s => match fst r with CBreak => Ret (CNext, snd r) s | CFall => Stuck | _ => Ret r s end) in
            (* [from]: the body of the case found; after a fallthrough the next *)
            (fix find (cs : list (list expr * list stmt)) (s : st) : res st (ctl X * env) :=
               match cs with
               | [] => ends (exit g (execs d g s))
               | (es, b) :: cs' =>
                   bind ((fix any (es : list expr) (s : st) : res st bool :=
                            match es with
                            | [] => Ret false s
                            | e :: es' =>
                                bind (eval e g s) (fun w s =>
                                  match equal v w with
                                  | Some true => Ret true s
                                  | Some false => any es' s
                                  | None => Stuck
                                  end)
                            end) es s)
                     (fun hit s =>
                        if hit then
                          (fix from (cs : list (list expr * list stmt)) (s : st) : res st (ctl X * env) :=
                             match cs with
                             | [] => ends (exit g (execs d g s))
                             | (_, b) :: cs' =>
                                 bind (exit g (execs b g s)) (fun r s =>
                                   match fst r with
                                   | CFall => from cs' s
                                   | CBreak => Ret (CNext, snd r) s
                                   | _ => Ret r s
                                   end)
                             end) cs s
                        else find cs' s)
               end) cases s)
      | SBreak => Ret (CBreak, g) s
      | SContinue => Ret (CContinue, g) s
      | SFall => Ret (CFall, g) s
      end.
    Definition execs (rs : list string) : list stmt -> env -> st -> res st (ctl X * env) :=
      fix go (b : list stmt) (g : env) (s : st) : res st (ctl X * env) :=
        match b with
        | [] => Ret (CNext, g) s
        | c :: b' => bind (exec rs c g s) (fun r s =>
                       match fst r with CNext => go b' (snd r) s | _ => Ret r s end)
        end.
  End Body.

  (** The zero value of a named result. *)
  Definition zero (e : expr) : val :=
    match e with EStr t => WStr t | EBool b => WBool b | EInt z => WInt z | EList _ => WList [] | _ => WNil end.

  (** One call; [rec] is for the calls inside. *)
  Definition call_with (rec : val -> list val -> st -> res st val) (f : val) (args : list val) (s : st) : res st val :=
    let body ps rs b args g :=
      match define ps args g with
      | None => Stuck
      | Some g1 =>
          bind (execs rec (map fst rs) b (map (fun r => (fst r, zero (snd r))) rs ++ g1)%list s) (fun r s =>
            match fst r with
            | CRet v => Ret v s
            | CNext => match rs with [] => Ret WNil s | _ => Stuck end
            | _ => Stuck
            end)
      end in
    match f with
    | WFun n =>
        match get n table with
        | Some (Fundef ps rs b) => body ps rs b args []
        | None => builtin n args s
        end
    | WMeth ty m =>
        match get (ty ++ "." ++ m) table with
        | Some (Fundef ps rs b) => body ps rs b (WObj ty :: args) []
        | None => builtin (ty ++ "." ++ m) args s
        end
    | WClo self ps b g => body ps [] b args ((self, f) :: g)
    | _ => Stuck
    end.
  (** [fuel] bounds the nesting of calls. *)
  Fixpoint call (fuel : nat) (f : val) (args : list val) (s : st) : res st val :=
    match fuel with
    | O => NoFuel
    | S k => call_with (call k) f args s
    end.
End Run.
