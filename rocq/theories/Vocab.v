(** Vocabulary of the specification.  No file of the model imports this file:
    what is defined here is written down a second time, independently of the
    model, so that a mistake in the model can not hide in the statements. *)
From Verif Require Import Base Node.

(** ** The nodes a query tree is made of *)
Definition mk_reference (names : list (list N)) : node :=
  Node NReference VNone 0 false [] 0 [] [] [] names None None None None [].
Definition mk_function (name : list N) (ps : list (option node)) : node :=
  Node NFunction VNone 0 false [] 0 [] [] name [] None None None None ps.
Definition mk_between (l op d u : option node) : node :=
  Node NBetween VNone 0 false [] 0 [] [] [] [] None l op None [d; u].
Definition mk_predicate (l op : option node) : node :=
  Node NPredicates VNone 0 false [] 0 [] [] [] [] None l op None [].
Definition mk_logic (l op r : option node) : node :=
  Node NLogic VNone 0 false [] 0 [] [] [] [] None l op r [].
Definition mk_compare (l op r : option node) : node :=
  Node NCompare VNone 0 false [] 0 [] [] [] [] None l op r [].
Definition mk_paren (e : option node) : node :=
  Node NParentheses VNone 0 false [] 0 [] [] [] [] e None None None [].
Definition mk_not (e : option node) : node :=
  Node NNot VNone 0 false [] 0 [] [] [] [] e None None None [].
Definition mk_array (l : list (option node)) : node :=
  Node NValue VArray 0 false [] 0 l [] [] [] None None None None [].
Definition mk_op (s : list N) : node :=
  Node NOperation VNone 0 false [] 0 [] s [] [] None None None None [].
Definition mk_ident (s : list N) : node :=
  Node NIdentifier VNone 0 false [] 0 [] [] s [] None None None None [].
Definition mk_string (s : list N) : node :=
  Node NValue VString 0 false s 0 [] [] [] [] None None None None [].
Definition mk_null : node :=
  Node NValue VNull 0 false [] 0 [] [] [] [] None None None None [].
Definition mk_bool (b : bool) : node :=
  Node NValue VBool 0 b [] 0 [] [] [] [] None None None None [].
Definition mk_int (z : Z) : node :=
  Node NValue VInt z false [] 0 [] [] [] [] None None None None [].

(** ** Characters and numbers *)
Definition is_digit (c : N) : bool := ((48 <=? c) && (c <=? 57))%N.
Definition ascii_lower (c : N) : N := if ((65 <=? c) && (c <=? 90))%N then (c + 32)%N else c.
(** a white character of a regular expression *)
Definition white (c : N) : bool := mem c [9; 10; 12; 13; 32]%N.
(** a blank in the sense of Unicode *)
Definition spacing (c : N) : bool :=
  mem c [9; 10; 11; 12; 13; 32; 133; 160; 5760; 8232; 8233; 8239; 8287; 12288]%N
  || ((8192 <=? c) && (c <=? 8202))%N.

(** the number a digit string denotes *)
Fixpoint dec_value (ds : list N) : Z :=
  match ds with
  | [] => 0
  | c :: r => (Z.of_N c - 48) * 10 ^ Z.of_nat (length r) + dec_value r
  end.
(** the largest int *)
Definition maxInt : Z := 2 ^ 63 - 1.
Arguments maxInt : simpl never.

(** x1 sep x2 sep ... xn *)
Fixpoint join_with (sep : list N) (xs : list (list N)) : list N :=
  match xs with
  | [] => []
  | [x] => x
  | x :: xs' => x ++ sep ++ join_with sep xs'
  end.

(** ** The name of an operation *)
(** the maximal pieces without white characters; [acc] is the piece being read *)
Fixpoint pieces (acc : list N) (s : list N) : list (list N) :=
  match s with
  | [] => match acc with [] => [] | _ => [acc] end
  | c :: t => if white c then match acc with [] => pieces [] t | _ => acc :: pieces [] t end
              else pieces (acc ++ [c]) t
  end.
Definition symbol_names : list (list N * list N) :=
  [ (#"=", #"eq"); (#"==", #"eq"); (#":", #"eq"); (#"!=", #"neq"); (#"<>", #"neq");
    (#"<", #"lt"); (#"<=", #"lte"); (#">", #"gt"); (#">=", #"gte");
    (#"&&", #"and"); (#",", #"and"); (#"||", #"or");
    (#"isnull", #"is null"); (#"notnull", #"is not null") ].

Section Name.
  Variable lower_hi : N -> N.
  Definition lower (c : N) : N := if (c <? 128)%N then ascii_lower c else lower_hi c.
  (** lower case, words one blank apart, symbols replaced by words *)
  Definition op_name (o : list N) : list N :=
    let s := join_with #" " (pieces [] (map lower o)) in
    match find (fun k => streq (fst k) s) symbol_names with
    | Some (_, n) => n
    | None => s
    end.
End Name.
