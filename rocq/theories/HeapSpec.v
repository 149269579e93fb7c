(** Specification: the tree a pointer stands for. *)
From Verif Require Import Base Node Heap.

(** [holds m p n]: following the pointer [p] in the memory [m] one finds [n]. *)
Inductive holds (m : memory) : ptr -> option node -> Prop :=
| holds_nil : holds m None None
| holds_node : forall a h n, nth_error (mNodes m) a = Some h ->
    hType h = nType n -> hVType h = nVType n -> hInt h = nInt n -> hBool h = nBool n -> hStr h = nStr n -> hFloat h = nFloat n ->
    hOperation h = nOperation n -> hName h = nName n -> hNames h = nNames n ->
    holds m (hExpression h) (nExpression n) -> holds m (hLeft h) (nLeft n) -> holds m (hOp h) (nOp n) -> holds m (hRight h) (nRight n) ->
    holds_slice m (hArray h) (nArray n) -> holds_slice m (hParams h) (nParams n) ->
    holds m (Some a) (Some n)
with holds_slice (m : memory) : slice -> list (option node) -> Prop :=
| holds_intro : forall s a l, nth_error (mArrs m) (sArr s) = Some a -> sLen s <= length a ->
    holds_list m (firstn (sLen s) a) l -> holds_slice m s l
with holds_list (m : memory) : list ptr -> list (option node) -> Prop :=
| holds_none : holds_list m [] []
| holds_more : forall p ps n ns, holds m p n -> holds_list m ps ns -> holds_list m (p :: ps) (n :: ns).

(** a sequence of actions, each with the text captured last *)
Fixpoint steps_of {T : Type} (run : nat -> list N -> T -> option T) (acts : list (nat * list N)) (t : T) : option T :=
  match acts with
  | [] => Some t
  | (i, text) :: acts' => match run i text t with Some t' => steps_of run acts' t' | None => None end
  end.
