(** Which trees are trees of queries (C83): a grammar of trees. *)
From Verif Require Import Base Node Vocab Syntax.

(** a literal; a string can be written if it lacks one of the two quotes *)
Inductive lit_tree : node -> Prop :=
| lt_string : forall s, valid_runes s -> mem 39 s = false \/ mem 34 s = false -> lit_tree (mk_string s)
| lt_number : forall z, (0 <= z <= maxInt)%Z -> lit_tree (mk_int z)
| lt_truth : forall b, lit_tree (mk_bool b)
| lt_nothing : lit_tree mk_null.
Inductive val_tree : node -> Prop :=
| vt_literal : forall n, lit_tree n -> val_tree n
| vt_array : forall l, Forall lit_tree l -> val_tree (mk_array (map Some l)).

Section Image.
  Variable lower_hi : N -> N.
  (** the name of an operator of this kind *)
  Definition names (kind : list N -> Prop) (s : list N) : Prop := exists o, valid_runes o /\ kind o /\ s = op_name lower_hi o.

  (** [tree_at k n]: a tree whose outermost construct has level [k]: 0 operand
      or parentheses, 1 between, 2 predicate, 3 in, 4 comparison, 5 not, 6 and/or *)
  Inductive tree_at : nat -> node -> Prop :=
  | ta_val : forall n, val_tree n -> tree_at 0 n
  | ta_name : forall x, ident x -> ~ starts_word x -> tree_at 0 (mk_ident x)
  | ta_ref : forall x y xs, Forall ident (x :: y :: xs) -> ~ starts_word x -> tree_at 0 (mk_reference (x :: y :: xs))
  | ta_call : forall f args, ident f -> ~ starts_word f -> (forall p, In p args -> exists k, tree_at k p) -> tree_at 0 (mk_function f (map Some args))
  | ta_paren : forall k n, tree_at k n -> tree_at 0 (mk_paren (Some n))
  | ta_between : forall n s a b, tree_at 0 n -> names op_between s -> val_tree a -> val_tree b ->
      tree_at 1 (mk_between (Some n) (Some (mk_op s)) (Some a) (Some b))
  | ta_pred : forall k n s, k <= 1 -> tree_at k n -> names op_match s -> tree_at 2 (mk_predicate (Some n) (Some (mk_op s)))
  | ta_in : forall k n s l, k <= 2 -> tree_at k n -> names op_in s -> Forall lit_tree l ->
      tree_at 3 (mk_compare (Some n) (Some (mk_op s)) (Some (mk_array (map Some l))))
  | ta_cmp : forall k n s j m, k <= 4 -> j <= 3 -> tree_at k n -> names op_cmp s -> tree_at j m ->
      tree_at 4 (mk_compare (Some n) (Some (mk_op s)) (Some m))
  | ta_not : forall k n, k <= 4 -> tree_at k n -> tree_at 5 (mk_not (Some n))
  | ta_logic : forall k n s j m, k <= 6 -> j <= 5 -> tree_at k n -> names op_logic s -> tree_at j m ->
      tree_at 6 (mk_logic (Some n) (Some (mk_op s)) (Some m)).
  Definition query_tree (n : node) : Prop := exists k, tree_at k n.
End Image.

(** [part m n]: [m] is an operand somewhere in [n]. *)
Inductive part (m : node) : node -> Prop :=
| p_self : part m m
| p_expr : forall n k, nExpression n = Some k -> part m k -> part m n
| p_left : forall n k, nLeft n = Some k -> part m k -> part m n
| p_right : forall n k, nRight n = Some k -> part m k -> part m n
| p_param : forall n k, In (Some k) (nParams n) -> part m k -> part m n
| p_elem : forall n k, In (Some k) (nArray n) -> part m k -> part m n.
