(** Model of miniquery/node.go:91-266 (String, Build, buildValue, printPretty)
    and miniquery/join.go.  [None] is a panic: nil dereference or index out of
    range.  Two library functions are arbitrary parameters: [is_print]
    (strconv.IsPrint) and [fmt_float] (fmt of a float64). *)
From Verif Require Import Base Node Tree.

(** ** fmt *)
(** decimal digits of [n], most significant first *)
Fixpoint dec_digits (fuel : nat) (n : N) (acc : list N) : list N :=
  match fuel with
  | O => acc
  | S f => let acc' := (48 + n mod 10)%N :: acc in
           if (n <? 10)%N then acc' else dec_digits f (n / 10)%N acc'
  end.
Definition print_N (n : N) : list N := dec_digits (S (N.size_nat n)) n [].
(** fmt of an int *)
Definition print_int (z : Z) : list N :=
  if (z <? 0)%Z then 45%N :: print_N (Z.to_N (- z)) else print_N (Z.to_N z).

Definition hexdigit (d : N) : N := if (d <? 10)%N then (48 + d)%N else (87 + d)%N.
(** [k] lower-case hexadecimal digits of [n] *)
Fixpoint hex (k : nat) (n : N) : list N :=
  match k with O => [] | S k' => hex k' (n / 16)%N ++ [hexdigit (n mod 16)%N] end.

(** [cat f l sep]: f x1 sep ... sep f xn; panics if one panics. *)
Definition ocat (a b : option (list N)) : option (list N) :=
  match a, b with Some x, Some y => Some (x ++ y) | _, _ => None end.
Definition ostr (s : list N) : option (list N) := Some s.

Section Print.
  Variable is_print : N -> bool.
  Variable fmt_float : Z -> list N.

  (** strconv.appendEscapedRune with a double quote, ASCIIonly = false *)
  Definition quote_rune (c : N) : list N :=
    if (c =? 34)%N || (c =? 92)%N then [92%N; c]
    else if is_print c then [c]
    else if (c =? 7)%N then #"\a" else if (c =? 8)%N then #"\b"
    else if (c =? 12)%N then #"\f" else if (c =? 10)%N then #"\n"
    else if (c =? 13)%N then #"\r" else if (c =? 9)%N then #"\t"
    else if (c =? 11)%N then #"\v"
    else if (c <? 32)%N || (c =? 127)%N then #"\x" ++ hex 2 c
    else if (c <? 65536)%N then #"\u" ++ hex 4 c
    else #"\U" ++ hex 8 c.
  (** fmt %q of a string = strconv.Quote *)
  Definition quoted (s : list N) : list N := 34%N :: concat (map quote_rune s) ++ [34%N].

  (** fmt.Fprint of the values that Node.Value returns *)
  Fixpoint fprint (v : gval) : list N :=
    match v with
    | GInt z => print_int z
    | GStr s => s
    | GFloat z => fmt_float z
    | GBool b => if b then #"true" else #"false"
    | GNil => #"<nil>"
    | GArr l =>
        #"[" ++ (fix go (l : list gval) : list N :=
                   match l with
                   | [] => []
                   | [x] => fprint x
                   | x :: l' => fprint x ++ #" " ++ go l'
                   end) l ++ #"]"
    end.

  (** ** Node.String, miniquery/node.go:91-138 *)
  Definition type_name (t : ntype) : list N :=
    match t with
    | NValue => #"value" | NOperation => #"operation" | NIdentifier => #"identifier"
    | NReference => #"reference" | NPredicates => #"predicates" | NCompare => #"compare"
    | NLogic => #"logic" | NParentheses => #"parentheses" | NNot => #"not"
    | NBetween => #"between" | NFunction => #"function" | NOther => #"other"
    end.
  (** strings.Join *)
  Fixpoint sjoin (sep : list N) (xs : list (list N)) : list N :=
    match xs with
    | [] => []
    | [x] => x
    | x :: xs' => x ++ sep ++ sjoin sep xs'
    end.
  Fixpoint node_string (n : node) : option (list N) :=
    let str (p : option node) : option (list N) :=
      match p with None => None | Some m => node_string m end in
    let body : option (list N) :=
      match nType n with
      | NBetween =>
          match nParams n with
          | a :: b :: _ => ocat (str a) (ocat (ostr #",") (str b))
          | _ => None
          end
      | NPredicates => ostr (nOperation n)
      | NLogic => ocat (str (nOp n)) (ocat (ostr #",") (ocat (str (nLeft n)) (ocat (ostr #",") (str (nRight n)))))
      | NCompare => ocat (str (nLeft n)) (ocat (ostr #",") (ocat (str (nOp n)) (ocat (ostr #",") (str (nRight n)))))
      | NParentheses | NNot => str (nExpression n)
      | NValue => match value n with Some v => Some (fprint v) | None => None end
      | NOperation => ostr (nOperation n)
      | NIdentifier => ostr (nName n)
      | NReference => ostr (sjoin #"." (nNames n))
      | NFunction =>
          ocat (ostr (nName n))
            ((fix go (l : list (option node)) : option (list N) :=
                match l with
                | [] => Some []
                | x :: l' => ocat (ostr #",") (ocat (str x) (go l'))
                end) (nParams n))
      | NOther => ostr #"unknown"
      end in
    ocat (ostr (type_name (nType n) ++ #"(")) (ocat body (ostr #")")).

  (** ** Build *)
  (** pretties, printPretty: miniquery/node.go:247-266 *)
  Definition pretties : list (list N * list N) :=
    [ (#"gte", #">="); (#"gt", #">"); (#"eq", #"=="); (#"neq", #"!="); (#"lt", #"<"); (#"lte", #"<=");
      (#"and", #"&&"); (#"or", #"||"); (#"isnull", #"is null"); (#"isnotnull", #"is not null");
      (#"notin", #"not in") ].
  Definition print_pretty (s : list N) : list N :=
    match assoc s pretties with Some v => v | None => s end.

  (** The closure visit of Build, miniquery/node.go:143-194, with buildValue
      (199-221) inlined.  [root] is the Name of the node handed to Build: the
      FunctionExpressionType case writes n.Name, where n is Build's argument
      and not the node visited (line 179). *)
  Fixpoint build_visit (root : list N) (n : node) : option (list N) :=
    let visit (p : option node) : option (list N) :=
      match p with None => None | Some m => build_visit root m end in
    let list_of : list (option node) -> option (list N) :=
      fix go (l : list (option node)) : option (list N) :=
        match l with
        | [] => Some []
        | [x] => visit x
        | x :: l' => ocat (visit x) (ocat (ostr #",") (go l'))
        end in
    match nType n with
    | NNot => ocat (ostr #"not ") (visit (nExpression n))
    | NBetween =>
        ocat (visit (nLeft n)) (ocat (ostr #" ") (ocat (visit (nOp n)) (ocat (ostr #" ")
          match nParams n with
          | a :: b :: _ => ocat (visit a) (ocat (ostr #" and ") (visit b))
          | _ => None
          end)))
    | NPredicates | NLogic | NCompare =>
        ocat (visit (nLeft n)) (ocat (ostr #" ") (ocat (visit (nOp n))
          match nRight n with
          | None => ostr []
          | Some _ => ocat (ostr #" ") (visit (nRight n))
          end))
    | NParentheses => ocat (ostr #"(") (ocat (visit (nExpression n)) (ostr #")"))
    | NOperation => ostr (print_pretty (nOperation n))
    | NIdentifier => ostr (nName n)
    | NReference => ostr (sjoin #"." (nNames n))
    | NFunction => ocat (ostr (root ++ #"(")) (ocat (list_of (nParams n)) (ostr #")"))
    | NValue =>
        match nVType n with
        | VArray => ocat (ostr #"[") (ocat (list_of (nArray n)) (ostr #"]"))
        | VString => ostr (quoted (nStr n))
        | _ => match value n with
               | None => None
               | Some GNil => ostr #"null"
               | Some v => ostr (fprint v)
               end
        end
    | NOther => ostr #"<unknown type>"
    end.
  (** Build, miniquery/node.go:140-197 *)
  Definition build (n : option node) : option (list N) :=
    match n with None => None | Some m => build_visit (nName m) m end.
End Print.

(** ** Join, miniquery/join.go:5-25 *)
Definition is_blank (s : list N) : bool := match trim_space s with [] => true | _ => false end.
(** the loop body; [sb] is the strings.Builder *)
Definition join_step (sb v : list N) : list N :=
  if is_blank v then sb
  else (match sb with [] => sb | _ => sb ++ #" and " end) ++ #"(" ++ v ++ #")".
Definition join (s : list (list N)) : list N :=
  match s with
  | [] => []
  | [x] => x
  | _ => fold_left join_step s []
  end.
