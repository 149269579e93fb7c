(** What a query template is: a text with holes for the contents of string
    literals, and what its tree is (C84).  Nothing here mentions the grammar or
    the parser. *)
From Verif Require Import Base Node Vocab Syntax EntQL.

(** Where in a query a rune stands: outside of strings and comments, in a
    string opened by the quote [c], or in a comment. *)
Inductive place : Set := Code | Quoted (c : N) | Commented.
Definition is_quote (c : N) : bool := (c =? 34)%N || (c =? 39)%N.
Definition is_dash (c : N) : bool := (c =? 45)%N || (c =? 47)%N.
(** The place after the text [s] that begins at [p]: a string ends at its
    quote, a comment begins with -- or // and ends with the line. *)
Fixpoint place_after (p : place) (s : list N) : place :=
  match s with
  | [] => p
  | x :: t =>
      match p with
      | Quoted c => if (x =? c)%N then place_after Code t else place_after p t
      | Commented => if line_end x then place_after Code t else place_after p t
      | Code =>
          if is_quote x then place_after (Quoted x) t
          else match t with
               | y :: t' => if is_dash x && (x =? y)%N then place_after Commented t' else place_after Code t
               | [] => Code
               end
      end
  end.

(** A template: texts, each followed by a hole in quotes, and a last text. *)
Definition holes := list (list N * N).
Fixpoint fill (h : holes) (b : list N) (vs : list (list N)) : list N :=
  match h, vs with
  | (a, c) :: h', v :: vs' => a ++ [c] ++ v ++ [c] ++ fill h' b vs'
  | _, _ => b
  end.
(** Every hole stands outside of strings and comments, and what is put into it
    does not contain its quote. *)
Definition suitable (h : holes) (vs : list (list N)) : Prop :=
  Forall2 (fun x v => place_after Code (fst x) = Code /\ is_quote (snd x) = true /\ mem (snd x) v = false) h vs.

(** The tree of a template has leaves that stand for holes: a string literal
    with the boolean set, which no parsed tree has, stands for the hole with
    the number in its integer. *)
Definition hole_leaf (i : nat) : node := Node NValue VString (Z.of_nat i) true [] 0 [] [] [] [] None None None None [].
Definition is_hole (n : node) : bool :=
  match nType n, nVType n with NValue, VString => nBool n | _, _ => false end.
(** Put the contents into the holes. *)
Fixpoint plug (vs : list (list N)) (n : node) : node :=
  if is_hole n then mk_string (nth (Z.to_nat (nInt n)) vs [])
  else let o := option_map (plug vs) in
    Node (nType n) (nVType n) (nInt n) (nBool n) (nStr n) (nFloat n) (map o (nArray n)) (nOperation n) (nName n) (nNames n)
      (o (nExpression n)) (o (nLeft n)) (o (nOp n)) (o (nRight n)) (map o (nParams n)).

(** The contents of the string literals of a tree, from left to right. *)
Fixpoint strings (n : node) : list (list N) :=
  let o x := match x with Some m => strings m | None => [] end in
  match nType n, nVType n with
  | NValue, VString => [nStr n]
  | _, _ => concat (map o (nArray n)) ++ o (nExpression n) ++ o (nLeft n) ++ o (nRight n) ++ concat (map o (nParams n))
  end.
(** A list of strings, some of which are those put into the holes, each once
    and in their order. *)
Definition with_holes (l : list (list N + nat)) (k : nat) : Prop :=
  flat_map (fun x => match x with inr i => [i] | inl _ => [] end) l = seq 0 k.
Definition instance (vs : list (list N)) (x : list N + nat) : list N := match x with inl s => s | inr i => nth i vs [] end.

(** An ent predicate with every string taken out. *)
Fixpoint hide_value (v : gval) : gval :=
  match v with GStr _ => GStr [] | GArr l => GArr (map hide_value l) | _ => v end.
Fixpoint hide (x : eexpr) : eexpr :=
  match x with
  | XField n => XField n
  | XValue v => XValue (hide_value v)
  | XUnary o x => XUnary o (hide x)
  | XBinary o x y => XBinary o (hide x) (hide y)
  end.
