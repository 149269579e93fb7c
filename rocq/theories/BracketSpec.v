(** Specification for C92: brackets that match, outside strings and comments.
    Nothing here mentions the grammar or the parser; the language of queries is
    that of Syntax.v. *)
From Verif Require Import Base Vocab Syntax.

(** Where one is after having read a text from the left: in the code, behind a
    [-] or [/] that may begin a comment, in a string closed by [c], or in a comment. *)
Inductive where_ : Set := Code | Dash | Slash | Quoted (c : N) | Comment.
(** outside strings and comments *)
Definition outside (m : where_) : bool := match m with Code | Dash | Slash => true | _ => false end.

(** One character of code; [k]: the brackets that have to be closed, innermost first. *)
Definition code_step (c : N) (k : list N) : option (where_ * list N) :=
  if (c =? 40)%N then Some (Code, 41%N :: k)                                (* opening parenthesis *)
  else if (c =? 91)%N then Some (Code, 93%N :: k)                           (* opening bracket *)
  else if (c =? 41)%N || (c =? 93)%N
       then match k with b :: k' => if (b =? c)%N then Some (Code, k') else None | [] => None end
  else if (c =? 39)%N || (c =? 34)%N then Some (Quoted c, k)                (* quotes *)
  else if (c =? 45)%N then Some (Dash, k)
  else if (c =? 47)%N then Some (Slash, k)
  else Some (Code, k).
Definition scan_step (c : N) (s : where_ * list N) : option (where_ * list N) :=
  let (m, k) := s in
  match m with
  | Code => code_step c k
  | Dash => if (c =? 45)%N then Some (Comment, k) else code_step c k
  | Slash => if (c =? 47)%N then Some (Comment, k) else code_step c k
  | Quoted q => Some (if (c =? q)%N then Code else Quoted q, k)
  | Comment => Some (if line_end c then Code else Comment, k)
  end.
Fixpoint scan (t : list N) (s : where_ * list N) : option (where_ * list N) :=
  match t with
  | [] => Some s
  | c :: t' => match scan_step c s with Some s' => scan t' s' | None => None end
  end.

(** Every bracket is closed by one of its kind, every string and comment is closed. *)
Definition balanced (t : list N) : Prop := scan t (Code, []) = Some (Code, []).
Definition balancedb (t : list N) : bool := match scan t (Code, []) with Some (Code, []) => true | _ => false end.

(** [A] ends in the code, some brackets may be open. *)
Definition in_code (A : list N) : Prop := exists m k, scan A (Code, []) = Some (m, k) /\ outside m = true.

(** ** What parentheses hold *)
(** literals with commas between them, or nothing *)
Definition listing (x : list N) : Prop := exists c ls, arr_text true c ls (#"(" ++ x ++ #")").
(** arguments *)
Definition arguments (x : list N) : Prop := exists f args, lay (ECall f args) (f ++ #"(" ++ x ++ #")").
Definition holds (A x : list N) : Prop :=
  (exists e, reads x e) \/ listing x \/ (arguments x /\ exists A' c, A = A' ++ [c] /\ idchar c = true).

(** An entry of a joined list and the operand it becomes. *)
Definition operand (x : list N) (g : expr) : Prop :=
  (exists e, reads x e /\ g = EParen e) \/
  (exists c ls, arr_text true c ls (#"(" ++ x ++ #")") /\ ~ (c = false /\ length ls = 1) /\ g = EVal (VArr true ls)).
