(** Model of miniquery/tree.go: the stack machine that builds the tree. *)
From Verif Require Import Base Node.

(** ** NormalizeOperation *)

(** unicode.IsSpace, used by strings.TrimSpace. *)
Definition unicode_space (c : N) : bool :=
  mem c [9; 10; 11; 12; 13; 32; 133; 160; 5760; 8232; 8233; 8239; 8287; 12288]%N
  || ((8192 <=? c) && (c <=? 8202))%N.

Fixpoint trim_left (s : list N) : list N :=
  match s with
  | c :: t => if unicode_space c then trim_left t else s
  | [] => []
  end.
(** strings.TrimSpace *)
Definition trim_space (s : list N) : list N := rev (trim_left (rev (trim_left s))).

(** regexp \s *)
Definition re_space (c : N) : bool := mem c [9; 10; 12; 13; 32]%N.

(** regSpace.ReplaceAllString(s, " "), miniquery/tree.go:22,47: every maximal
    run of \s becomes one blank.  [inrun] tells that a run is being skipped. *)
Fixpoint collapse (inrun : bool) (s : list N) : list N :=
  match s with
  | [] => []
  | c :: t =>
      if re_space c then (if inrun then collapse true t else 32%N :: collapse true t)
      else c :: collapse false t
  end.

(** normalize, miniquery/tree.go:23-41. *)
Definition normalize_map : list (list N * list N) :=
  [ (#">=", #"gte"); (#">", #"gt"); (#"==", #"eq"); (#"=", #"eq"); (#"!=", #"neq");
    (#"<>", #"neq"); (#"<", #"lt"); (#"<=", #"lte"); (#":", #"eq");
    (#"&&", #"and"); (#"||", #"or"); (#",", #"and");
    (#"isnull", #"is null"); (#"notnull", #"is not null") ].

(** ASCII part of unicode.ToLower. *)
Definition lower_ascii (c : N) : N := if ((65 <=? c) && (c <=? 90))%N then (c + 32)%N else c.

(** ** Errors collected by the tree *)
Inductive perr : Set :=
| PESyntax (b e : nat)        (* parseError with its max token's span *)
| PERange (s : list N)        (* strconv.Atoi: value out of range *)
| PENumSyntax (s : list N)    (* strconv.Atoi: invalid syntax *)
| PEBoolSyntax (s : list N)   (* strconv.ParseBool *)
| PEFunction.                 (* "invalid function exp" *)

(** ** strconv *)
Definition atoi_digit (c : N) : bool := ((48 <=? c) && (c <=? 57))%N.

Fixpoint atoi_from (acc : Z) (s : list N) : Z :=
  match s with
  | [] => acc
  | c :: t => atoi_from (acc * 10 + Z.of_N (c - 48)) t
  end.
Definition atoi_value (s : list N) : Z := atoi_from 0 s.

Definition atoi_max : Z := 9223372036854775807.

(** strconv.Atoi on a 64-bit platform.  Simplification: a leading sign, which
    Atoi accepts and the grammar never produces, is treated as invalid. *)
Definition atoi (s : list N) : Z * option perr :=
  match s with
  | [] => (0%Z, Some (PENumSyntax s))
  | _ => if forallb atoi_digit s
         then if (atoi_value s <=? atoi_max)%Z then (atoi_value s, None)
              else (atoi_max, Some (PERange s))
         else (0%Z, Some (PENumSyntax s))
  end.

(** strconv.ParseBool. *)
Definition parse_bool (s : list N) : bool * option perr :=
  if existsb (streq s) [#"1"; #"t"; #"T"; #"true"; #"TRUE"; #"True"] then (true, None)
  else if existsb (streq s) [#"0"; #"f"; #"F"; #"false"; #"FALSE"; #"False"] then (false, None)
  else (false, Some (PEBoolSyntax s)).

(** ** Tree, miniquery/tree.go:15-19; Stack is in Go order (top last). *)
Record tree : Set := Tree {
  tStack : list (option node);
  tErrors : list perr;
  tMarks : list nat
}.
Definition tree0 : tree := Tree [] [] [].

(** Push, tree.go:54-56 *)
Definition push (n : option node) (t : tree) : tree :=
  Tree (tStack t ++ [n]) (tErrors t) (tMarks t).

(** Pop, tree.go:58-66: nil on an empty stack. *)
Definition pop (t : tree) : option node * tree :=
  match tStack t with
  | [] => (None, t)
  | _ => (last (tStack t) None, Tree (removelast (tStack t)) (tErrors t) (tMarks t))
  end.

(** AddError, tree.go:225-229 *)
Definition add_error (e : option perr) (t : tree) : tree :=
  match e with
  | None => t
  | Some x => Tree (tStack t) (tErrors t ++ [x]) (tMarks t)
  end.

(** AddMark, tree.go:163-165 *)
Definition add_mark (t : tree) : tree :=
  Tree (tStack t) (tErrors t) (tMarks t ++ [length (tStack t)]).

(** PopMark, tree.go:157-161: panics ([None]) on an empty mark stack. *)
Definition pop_mark (t : tree) : option (nat * tree) :=
  match tMarks t with
  | [] => None
  | _ => Some (last (tMarks t) 0, Tree (tStack t) (tErrors t) (removelast (tMarks t)))
  end.

(** popMarked, tree.go:167-173: make panics on a negative length. *)
Definition pop_marked (t : tree) : option (list (option node) * tree) :=
  match pop_mark t with
  | None => None
  | Some (mark, t1) =>
      if Nat.leb mark (length (tStack t1))
      then Some (skipn mark (tStack t1), Tree (firstn mark (tStack t1)) (tErrors t1) (tMarks t1))
      else None
  end.

(** names := ...; node.Name on a nil node panics (tree.go:70-73). *)
Fixpoint node_names (l : list (option node)) : option (list (list N)) :=
  match l with
  | [] => Some []
  | None :: _ => None
  | Some n :: l' => match node_names l' with
                    | Some ns => Some (nName n :: ns)
                    | None => None
                    end
  end.

(** PopIdentifierReference, tree.go:68-78 *)
Definition pop_identifier_reference (t : tree) : option tree :=
  match pop_marked t with
  | None => None
  | Some (nodes, t1) =>
      match node_names nodes with
      | None => None
      | Some names => Some (push (Some (Node NReference VNone 0 false [] 0 [] [] [] names None None None None [])) t1)
      end
  end.

(** PopFunction, tree.go:80-96 *)
Definition pop_function (t : tree) : option tree :=
  let (a, t1) := pop t in
  let (n, t2) := pop t1 in
  match a, n with
  | Some a', Some n' =>
      match nType n', nType a', nVType a' with
      | NIdentifier, NValue, VArray =>
          Some (push (Some (Node NFunction VNone 0 false [] 0 [] [] (nName n') [] None None None None (nArray a'))) t2)
      | _, _, _ => Some (add_error (Some PEFunction) t2)
      end
  | _, _ => Some (add_error (Some PEFunction) t2)
  end.

(** PopBetween, tree.go:98-112 *)
Definition pop_between (t : tree) : option tree :=
  let (up, t1) := pop t in
  let (down, t2) := pop t1 in
  let (op, t3) := pop t2 in
  let (left, t4) := pop t3 in
  Some (push (Some (Node NBetween VNone 0 false [] 0 [] [] [] [] None left op None [down; up])) t4).

(** PopPredicate, tree.go:114-123 *)
Definition pop_predicate (t : tree) : option tree :=
  let (op, t1) := pop t in
  let (left, t2) := pop t1 in
  Some (push (Some (Node NPredicates VNone 0 false [] 0 [] [] [] [] None left op None [])) t2).

(** PopLogic, tree.go:125-135 *)
Definition pop_logic (t : tree) : option tree :=
  let (right, t1) := pop t in
  let (op, t2) := pop t1 in
  let (left, t3) := pop t2 in
  Some (push (Some (Node NLogic VNone 0 false [] 0 [] [] [] [] None left op right [])) t3).

(** PopCompare, tree.go:137-148 *)
Definition pop_compare (t : tree) : option tree :=
  let (right, t1) := pop t in
  let (op, t2) := pop t1 in
  let (left, t3) := pop t2 in
  Some (push (Some (Node NCompare VNone 0 false [] 0 [] [] [] [] None left op right [])) t3).

(** PopParentheses, tree.go:150-155 *)
Definition pop_parentheses (t : tree) : option tree :=
  let (e, t1) := pop t in Some (push (Some (Node NParentheses VNone 0 false [] 0 [] [] [] [] e None None None [])) t1).

(** PopNot, tree.go:204-209 *)
Definition pop_not (t : tree) : option tree :=
  let (e, t1) := pop t in Some (push (Some (Node NNot VNone 0 false [] 0 [] [] [] [] e None None None [])) t1).

(** PopArray, tree.go:175-181 *)
Definition pop_array (t : tree) : option tree :=
  match pop_marked t with
  | None => None
  | Some (l, t1) => Some (push (Some (Node NValue VArray 0 false [] 0 l [] [] [] None None None None [])) t1)
  end.

(** AddName, AddString, AddNull, AddBoolean, AddInteger: tree.go:218-274.
    AddFloat (239-247) is not reachable from the grammar and not modelled. *)
Definition add_name (s : list N) (t : tree) : tree := push (Some (Node NIdentifier VNone 0 false [] 0 [] [] s [] None None None None [])) t.
Definition add_string (s : list N) (t : tree) : tree := push (Some (Node NValue VString 0 false s 0 [] [] [] [] None None None None [])) t.
Definition add_null (t : tree) : tree := push (Some (Node NValue VNull 0 false [] 0 [] [] [] [] None None None None [])) t.
Definition add_boolean (s : list N) (t : tree) : tree :=
  let (b, e) := parse_bool s in push (Some (Node NValue VBool 0 b [] 0 [] [] [] [] None None None None [])) (add_error e t).
Definition add_integer (s : list N) (t : tree) : tree :=
  let (z, e) := atoi s in push (Some (Node NValue VInt z false [] 0 [] [] [] [] None None None None [])) (add_error e t).

Section Normalize.
  (** unicode.ToLower on runes above 127: an arbitrary function. *)
  Variable lower_hi : N -> N.

  Definition to_lower_rune (c : N) : N := if (c <? 128)%N then lower_ascii c else lower_hi c.

  (** NormalizeOperation, tree.go:44-52 *)
  Definition normalize_operation (s : list N) : list N :=
    let s1 := trim_space s in
    let s2 := map to_lower_rune s1 in
    let s3 := collapse false s2 in
    match assoc s3 normalize_map with
    | Some v => v
    | None => s3
    end.

  (** AddOperation / AddCompare / AddLogic / AddMatch, tree.go:183-202, 211-216:
      four identical bodies. *)
  Definition add_operation (s : list N) (t : tree) : tree :=
    push (Some (Node NOperation VNone 0 false [] 0 [] (normalize_operation s) [] [] None None None None [])) t.

  (** The action switch of Execute, miniquery/miniquery.peg.go:369-428.
      [None] is a panic.  [text] is the last captured text. *)
  Definition run_action (n : nat) (text : list N) (t : tree) : option tree :=
    match n with
    | 0 => pop_logic t
    | 1 => pop_not t
    | 2 => pop_compare t
    | 3 => Some (add_operation text t)
    | 4 => pop_compare t
    | 5 => pop_predicate t
    | 6 => Some (add_operation text t)
    | 7 => pop_between t
    | 8 => pop_parentheses t
    | 9 => pop_function t
    | 10 => Some (add_mark t)
    | 11 => pop_array t
    | 12 => Some (add_mark t)
    | 13 => pop_identifier_reference t
    | 14 => Some (add_name text t)
    | 15 | 16 | 17 | 18 | 19 | 20 => Some (add_operation text t)
    | 21 => Some (add_mark t)
    | 22 => pop_array t
    | 23 => Some (add_mark t)
    | 24 => pop_array t
    | 25 => Some (add_integer text t)
    | 26 => Some (add_boolean text t)
    | 27 => Some (add_null t)
    | 28 | 29 => Some (add_string text t)
    | _ => Some t
    end.
End Normalize.
