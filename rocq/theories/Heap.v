(** Model of miniquery/tree.go with Go's memory: nodes behind pointers, slices
    that share backing arrays.  [None] is a panic.  The functional model of the
    same file is Tree.v. *)
From Verif Require Import Base Peg Grammar Node Tree Parse.

(** *Node: nil or an address *)
Definition ptr : Set := option nat.

(** []*Node: a backing array, and a length; the capacity is that of the array.
    Every slice that tree.go keeps begins at the first element of its array
    (t.Stack[mark:len] is only read). *)
Record slice : Set := Sl { sArr : nat; sLen : nat }.

(** Node, miniquery/node.go:36-56, with pointers and slices *)
Record hnode : Set := HN {
  hType : ntype; hVType : vtype; hInt : Z; hBool : bool; hStr : list N; hFloat : Z;
  hArray : slice;
  hOperation : list N; hName : list N; hNames : list (list N);
  hExpression : ptr; hLeft : ptr; hOp : ptr; hRight : ptr;
  hParams : slice
}.

Record memory : Set := Mem { mArrs : list (list ptr); mNodes : list hnode }.

(** The nil slice: length 0, capacity 0. *)
Definition nil_slice : slice := Sl 0 0.
Definition mem0 : memory := Mem [[]] [].

(** Tree, tree.go:15-19.  Simplification: Errors and marks are lists; no other
    slice shares their arrays. *)
Record htree : Set := HTree { hMem : memory; hStack : slice; hErrors : list perr; hMarks : list nat }.
Definition htree0 : htree := HTree mem0 nil_slice [] [].

Fixpoint store {A : Type} (l : list A) (i : nat) (x : A) : list A :=
  match l, i with
  | [], _ => []
  | _ :: l', 0 => x :: l'
  | y :: l', S i' => y :: store l' i' x
  end.

(** &Node{...} *)
Definition new_node (n : hnode) (t : htree) : ptr * htree :=
  (Some (length (mNodes (hMem t))),
   HTree (Mem (mArrs (hMem t)) (mNodes (hMem t) ++ [n])) (hStack t) (hErrors t) (hMarks t)).

(** A new array with these elements: make and copy, or a slice literal. *)
Definition new_slice (l : list ptr) (t : htree) : slice * htree :=
  (Sl (length (mArrs (hMem t))) (length l),
   HTree (Mem (mArrs (hMem t) ++ [l]) (mNodes (hMem t))) (hStack t) (hErrors t) (hMarks t)).

Section Grow.
  (** What append adds to the capacity beyond the new element: any policy. *)
  Variable grow : nat -> nat.

  (** Push, tree.go:54-56: append writes into the backing array when there is
      room, and moves to a new one when there is not. *)
  Definition hpush (p : ptr) (t : htree) : option htree :=
    let s := hStack t in
    match nth_error (mArrs (hMem t)) (sArr s) with
    | None => None
    | Some a =>
        if Nat.ltb (sLen s) (length a)
        then Some (HTree (Mem (store (mArrs (hMem t)) (sArr s) (store a (sLen s) p)) (mNodes (hMem t)))
                         (Sl (sArr s) (S (sLen s))) (hErrors t) (hMarks t))
        else Some (HTree (Mem (mArrs (hMem t) ++ [firstn (sLen s) a ++ [p] ++ repeat None (grow (sLen s))]) (mNodes (hMem t)))
                         (Sl (length (mArrs (hMem t))) (S (sLen s))) (hErrors t) (hMarks t))
    end.

  (** Pop, tree.go:58-66: the element stays in the array. *)
  Definition hpop (t : htree) : option (ptr * htree) :=
    let s := hStack t in
    match sLen s with
    | 0 => Some (None, t)
    | S last =>
        match nth_error (mArrs (hMem t)) (sArr s) with
        | None => None
        | Some a => match nth_error a last with
                    | None => None
                    | Some p => Some (p, HTree (hMem t) (Sl (sArr s) last) (hErrors t) (hMarks t))
                    end
        end
    end.

  (** AddError, tree.go:225-229 *)
  Definition hadd_error (e : option perr) (t : htree) : htree :=
    match e with
    | None => t
    | Some x => HTree (hMem t) (hStack t) (hErrors t ++ [x]) (hMarks t)
    end.

  (** AddMark, PopMark, tree.go:157-165 *)
  Definition hadd_mark (t : htree) : htree :=
    HTree (hMem t) (hStack t) (hErrors t) (hMarks t ++ [sLen (hStack t)]).
  Definition hpop_mark (t : htree) : option (nat * htree) :=
    match hMarks t with
    | [] => None
    | _ => Some (last (hMarks t) 0, HTree (hMem t) (hStack t) (hErrors t) (removelast (hMarks t)))
    end.

  (** popMarked, tree.go:167-173: a new array, filled by copy; the stack keeps
      its array. *)
  Definition hpop_marked (t : htree) : option (slice * htree) :=
    match hpop_mark t with
    | None => None
    | Some (mark, t1) =>
        let s := hStack t1 in
        match nth_error (mArrs (hMem t1)) (sArr s) with
        | None => None
        | Some a =>
            if Nat.leb mark (sLen s) then
              let (el, t2) := new_slice (skipn mark (firstn (sLen s) a)) t1 in
              Some (el, HTree (hMem t2) (Sl (sArr s) mark) (hErrors t2) (hMarks t2))
            else None
        end
    end.

  (** the elements of a slice *)
  Definition elements (s : slice) (t : htree) : option (list ptr) :=
    match nth_error (mArrs (hMem t)) (sArr s) with
    | None => None
    | Some a => Some (firstn (sLen s) a)
    end.
  (** *p; nil panics *)
  Definition deref (p : ptr) (t : htree) : option hnode :=
    match p with
    | None => None
    | Some a => nth_error (mNodes (hMem t)) a
    end.

  (** t.Push(&Node{...}) *)
  Definition push_new (n : hnode) (t : htree) : option htree :=
    let (p, t1) := new_node n t in hpush p t1.

  Fixpoint hnode_names (l : list ptr) (t : htree) : option (list (list N)) :=
    match l with
    | [] => Some []
    | p :: l' => match deref p t, hnode_names l' t with
                 | Some n, Some ns => Some (hName n :: ns)
                 | _, _ => None
                 end
    end.

  (** PopIdentifierReference, tree.go:68-78 *)
  Definition hpop_identifier_reference (t : htree) : option htree :=
    match hpop_marked t with
    | None => None
    | Some (s, t1) =>
        match elements s t1 with
        | None => None
        | Some l =>
            match hnode_names l t1 with
            | None => None
            | Some names => push_new (HN NReference VNone 0 false [] 0 nil_slice [] [] names None None None None nil_slice) t1
            end
        end
    end.

  (** PopFunction, tree.go:80-96: Params is the very slice a.Array. *)
  Definition hpop_function (t : htree) : option htree :=
    match hpop t with
    | None => None
    | Some (a, t1) =>
        match hpop t1 with
        | None => None
        | Some (n, t2) =>
            match a, n with
            | Some _, Some _ =>
                match deref a t2, deref n t2 with
                | Some a', Some n' =>
                    match hType n', hType a', hVType a' with
                    | NIdentifier, NValue, VArray =>
                        push_new (HN NFunction VNone 0 false [] 0 nil_slice [] (hName n') [] None None None None (hArray a')) t2
                    | _, _, _ => Some (hadd_error (Some PEFunction) t2)
                    end
                | _, _ => None
                end
            | _, _ => Some (hadd_error (Some PEFunction) t2)
            end
        end
    end.

  (** PopBetween, tree.go:98-112 *)
  Definition hpop_between (t : htree) : option htree :=
    match hpop t with None => None | Some (up, t1) =>
    match hpop t1 with None => None | Some (down, t2) =>
    match hpop t2 with None => None | Some (op, t3) =>
    match hpop t3 with None => None | Some (l, t4) =>
      let (params, t5) := new_slice [down; up] t4 in
      push_new (HN NBetween VNone 0 false [] 0 nil_slice [] [] [] None l op None params) t5
    end end end end.

  (** PopPredicate, tree.go:114-123 *)
  Definition hpop_predicate (t : htree) : option htree :=
    match hpop t with None => None | Some (op, t1) =>
    match hpop t1 with None => None | Some (l, t2) =>
      push_new (HN NPredicates VNone 0 false [] 0 nil_slice [] [] [] None l op None nil_slice) t2
    end end.

  (** PopLogic and PopCompare, tree.go:125-148 *)
  Definition hpop_two (ty : ntype) (t : htree) : option htree :=
    match hpop t with None => None | Some (r, t1) =>
    match hpop t1 with None => None | Some (op, t2) =>
    match hpop t2 with None => None | Some (l, t3) =>
      push_new (HN ty VNone 0 false [] 0 nil_slice [] [] [] None l op r nil_slice) t3
    end end end.

  (** PopParentheses, tree.go:150-155, and PopNot, tree.go:204-209 *)
  Definition hpop_one (ty : ntype) (t : htree) : option htree :=
    match hpop t with None => None | Some (e, t1) =>
      push_new (HN ty VNone 0 false [] 0 nil_slice [] [] [] e None None None nil_slice) t1
    end.

  (** PopArray, tree.go:175-181 *)
  Definition hpop_array (t : htree) : option htree :=
    match hpop_marked t with
    | None => None
    | Some (l, t1) => push_new (HN NValue VArray 0 false [] 0 l [] [] [] None None None None nil_slice) t1
    end.

  Definition leaf (ty : ntype) (vt : vtype) (z : Z) (b : bool) (str op name : list N) : hnode :=
    HN ty vt z b str 0 nil_slice op name [] None None None None nil_slice.

  (** unicode.ToLower above 127 *)
  Variable lower_hi : N -> N.

  (** The action switch of Execute, miniquery.peg.go:369-428, with the Add
      methods, tree.go:183-274. *)
  Definition hrun_action (n : nat) (text : list N) (t : htree) : option htree :=
    match n with
    | 0 => hpop_two NLogic t
    | 1 => hpop_one NNot t
    | 2 | 4 => hpop_two NCompare t
    | 5 => hpop_predicate t
    | 7 => hpop_between t
    | 8 => hpop_one NParentheses t
    | 9 => hpop_function t
    | 10 | 12 | 21 | 23 => Some (hadd_mark t)
    | 11 | 22 | 24 => hpop_array t
    | 13 => hpop_identifier_reference t
    | 14 => push_new (leaf NIdentifier VNone 0 false [] [] text) t
    | 3 | 6 | 15 | 16 | 17 | 18 | 19 | 20 => push_new (leaf NOperation VNone 0 false [] (normalize_operation lower_hi text) []) t
    | 25 => let (z, e) := atoi text in push_new (leaf NValue VInt z false [] [] []) (hadd_error e t)
    | 26 => let (b, e) := parse_bool text in push_new (leaf NValue VBool 0 b [] [] []) (hadd_error e t)
    | 27 => push_new (leaf NValue VNull 0 false [] [] []) t
    | 28 | 29 => push_new (leaf NValue VString 0 false text [] []) t
    | _ => Some t
    end.

  (** Execute, miniquery.peg.go:360-433 *)
  Fixpoint hexecute (buf : list N) (toks : list token) (text : list N) (t : htree) : option htree :=
    match toks with
    | [] => Some t
    | tk :: toks' =>
        match trule tk with
        | TRule _ => hexecute buf toks' text t
        | TPegText =>
            match slice_rng buf (tbegin tk) (tend tk) with
            | None => None
            | Some s => hexecute buf toks' s t
            end
        | TAct n =>
            match hrun_action n text t with
            | None => None
            | Some t' => hexecute buf toks' text t'
            end
        end
    end.

  (** Parse, parse.go:3-16: the returned pointer, and the memory it points to. *)
  Definition hparse (q : list N) : outcome perr (ptr * htree) :=
    match parse_machine q with
    | MFuel | MPanic => Panic
    | MR false s => Err (PESyntax (tbegin (mmax s)) (tend (mmax s)))
    | MR true s =>
        match hexecute (init_buffer q) (trim (mtree s) (mtidx s)) [] htree0 with
        | None => Panic
        | Some t =>
            match hErrors t with
            | e :: _ => Err e
            | [] => match hpop t with Some r => Ok r | None => Panic end
            end
        end
    end.
End Grow.
