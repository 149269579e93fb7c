(** Model of miniquery/node.go: Node, Value, IsValue, IsExpression. *)
From Verif Require Import Base.

(** NodeType, miniquery/node.go:13-25.  [NOther] is any other string. *)
Inductive ntype : Set :=
| NValue | NOperation | NIdentifier | NReference | NPredicates | NCompare | NLogic
| NParentheses | NNot | NBetween | NFunction | NOther.

(** ValueType, miniquery/node.go:27-34.  [VNone] is the empty string. *)
Inductive vtype : Set :=
| VNone | VInt | VFloat | VBool | VString | VNull | VArray.

(** type Node struct, miniquery/node.go:36-55.  A *Node is an [option node],
    [None] is nil.  Float is an opaque integer (the grammar has no floats). *)
Inductive node : Set := Node {
  nType : ntype;
  nVType : vtype;
  nInt : Z;
  nBool : bool;
  nStr : list N;
  nFloat : Z;
  nArray : list (option node);
  nOperation : list N;
  nName : list N;
  nNames : list (list N);
  nExpression : option node;
  nLeft : option node;
  nOp : option node;
  nRight : option node;
  nParams : list (option node)
}.

(** &Node{Type: t} with every other field at its zero value. *)
Definition node0 (t : ntype) : node :=
  Node t VNone 0 false [] 0 [] [] [] [] None None None None [].

(** Go values produced by Node.Value (interface{}). *)
Inductive gval : Set :=
| GInt (z : Z)
| GStr (s : list N)
| GFloat (z : Z)
| GBool (b : bool)
| GNil
| GArr (l : list gval).

(** Node.Value, miniquery/node.go:57-77.  [None] is a nil-pointer panic
    (a nil array element). *)
Fixpoint value (n : node) : option gval :=
  match nVType n with
  | VInt => Some (GInt (nInt n))
  | VString => Some (GStr (nStr n))
  | VFloat => Some (GFloat (nFloat n))
  | VBool => Some (GBool (nBool n))
  | VNull => Some GNil
  | VArray =>
      match (fix go (l : list (option node)) : option (list gval) :=
               match l with
               | [] => Some []
               | None :: _ => None
               | Some v :: l' =>
                   match value v, go l' with
                   | Some x, Some xs => Some (x :: xs)
                   | _, _ => None
                   end
               end) (nArray n)
      with
      | Some xs => Some (GArr xs)
      | None => None
      end
  | VNone => Some (GStr #"<unknown value>")
  end.

(** Node.IsValue, miniquery/node.go:79-81. *)
Definition isValue (n : node) : bool :=
  match nVType n with VNone => false | _ => true end.

(** Node.IsExpression, miniquery/node.go:83-89. *)
Definition isExpression (n : node) : bool :=
  match nType n with
  | NIdentifier | NValue | NOperation | NReference => false
  | _ => true
  end.
