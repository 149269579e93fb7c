(** Specification of the text of Node.String, miniquery/node.go:91-138, and of
    the trees it can not tell apart. *)
From Verif Require Import Base Node Vocab Tree QuoteSpec.

(** an integer as fmt prints it *)
Inductive int_text : Z -> list N -> Prop :=
| it_nat : forall n t, decimal n t -> int_text (Z.of_nat n) t
| it_neg : forall n t, n <> 0 -> decimal n t -> int_text (- Z.of_nat n) (#"-" ++ t).
(** a literal as fmt prints it: strings without quotes, arrays in brackets
    with blanks between the elements *)
Inductive value_text : node -> list N -> Prop :=
| vx_int : forall z t, int_text z t -> value_text (mk_int z) t
| vx_true : value_text (mk_bool true) #"true"
| vx_false : value_text (mk_bool false) #"false"
| vx_string : forall s, value_text (mk_string s) s
| vx_null : value_text mk_null #"<nil>"
| vx_array : forall ns ts, values_text ns ts -> value_text (mk_array ns) (#"[" ++ join_with #" " ts ++ #"]")
with values_text : list (option node) -> list (list N) -> Prop :=
| vxs_nil : values_text [] []
| vxs_cons : forall n ns t ts, value_text n t -> values_text ns ts -> values_text (Some n :: ns) (t :: ts).
Scheme value_text_mind := Induction for value_text Sort Prop
  with values_text_mind := Induction for values_text Sort Prop.
Combined Scheme value_texts_ind from value_text_mind, values_text_mind.

(** the kind of a node, then what it shows in parentheses *)
Definition form (kind inside : list N) : list N := kind ++ #"(" ++ inside ++ #")".
Inductive shows : node -> list N -> Prop :=
| sh_value : forall n t, value_text n t -> shows n (form #"value" t)
| sh_op : forall o, shows (mk_op o) (form #"operation" o)
| sh_ident : forall x, shows (mk_ident x) (form #"identifier" x)
| sh_reference : forall xs, shows (mk_reference xs) (form #"reference" (join_with #"." xs))
| sh_predicate : forall l o, shows (mk_predicate l o) (form #"predicates" [])
| sh_compare : forall l o r tl to tr, shows l tl -> shows o to -> shows r tr ->
    shows (mk_compare (Some l) (Some o) (Some r)) (form #"compare" (tl ++ #"," ++ to ++ #"," ++ tr))
| sh_logic : forall l o r tl to tr, shows l tl -> shows o to -> shows r tr ->
    shows (mk_logic (Some l) (Some o) (Some r)) (form #"logic" (to ++ #"," ++ tl ++ #"," ++ tr))
| sh_paren : forall e t, shows e t -> shows (mk_paren (Some e)) (form #"parentheses" t)
| sh_not : forall e t, shows e t -> shows (mk_not (Some e)) (form #"not" t)
| sh_between : forall l o a b ta tb, shows a ta -> shows b tb -> shows (mk_between l o (Some a) (Some b)) (form #"between" (ta ++ #"," ++ tb))
| sh_function : forall f ns t, shows_args ns t -> shows (mk_function f ns) (form #"function" (f ++ t))
with shows_args : list (option node) -> list N -> Prop :=
| sa_nil : shows_args [] []
| sa_cons : forall n ns t u, shows n t -> shows_args ns u -> shows_args (Some n :: ns) (#"," ++ t ++ u).
Scheme shows_mind := Induction for shows Sort Prop
  with shows_args_mind := Induction for shows_args Sort Prop.
Combined Scheme shows_all_ind from shows_mind, shows_args_mind.

(** Trees with the same text: those that differ only in what is not shown (the
    operand and operator of a predicate, the left operand and operator of a
    between) and in how a literal is written. *)
Inductive twin : node -> node -> Prop :=
| tw_value : forall n m t, value_text n t -> value_text m t -> twin n m
| tw_op : forall o, twin (mk_op o) (mk_op o)
| tw_ident : forall x, twin (mk_ident x) (mk_ident x)
| tw_reference : forall xs ys, join_with #"." xs = join_with #"." ys -> twin (mk_reference xs) (mk_reference ys)
| tw_predicate : forall l o l' o', twin (mk_predicate l o) (mk_predicate l' o')
| tw_compare : forall l o r l' o' r', twin l l' -> twin o o' -> twin r r' ->
    twin (mk_compare (Some l) (Some o) (Some r)) (mk_compare (Some l') (Some o') (Some r'))
| tw_logic : forall l o r l' o' r', twin l l' -> twin o o' -> twin r r' ->
    twin (mk_logic (Some l) (Some o) (Some r)) (mk_logic (Some l') (Some o') (Some r'))
| tw_paren : forall e e', twin e e' -> twin (mk_paren (Some e)) (mk_paren (Some e'))
| tw_not : forall e e', twin e e' -> twin (mk_not (Some e)) (mk_not (Some e'))
| tw_between : forall l o a b l' o' a' b', twin a a' -> twin b b' ->
    twin (mk_between l o (Some a) (Some b)) (mk_between l' o' (Some a') (Some b'))
| tw_function : forall f ns ms, twins ns ms -> twin (mk_function f ns) (mk_function f ms)
with twins : list (option node) -> list (option node) -> Prop :=
| tws_nil : twins [] []
| tws_cons : forall n m ns ms, twin n m -> twins ns ms -> twins (Some n :: ns) (Some m :: ms).
Scheme twin_mind := Induction for twin Sort Prop
  with twins_mind := Induction for twins Sort Prop.
Combined Scheme twin_all_ind from twin_mind, twins_mind.

(** No parenthesis and no comma in the literals, names and operators shown. *)
Definition clean (s : list N) : bool := forallb (fun c => negb (mem c #"(),")) s.
Inductive plain : node -> Prop :=
| pl_value : forall n t, value_text n t -> clean t = true -> plain n
| pl_op : forall o, clean o = true -> plain (mk_op o)
| pl_ident : forall x, clean x = true -> plain (mk_ident x)
| pl_reference : forall xs, clean (join_with #"." xs) = true -> plain (mk_reference xs)
| pl_predicate : forall l o, plain (mk_predicate l o)
| pl_compare : forall l o r, plain l -> plain o -> plain r -> plain (mk_compare (Some l) (Some o) (Some r))
| pl_logic : forall l o r, plain l -> plain o -> plain r -> plain (mk_logic (Some l) (Some o) (Some r))
| pl_paren : forall e, plain e -> plain (mk_paren (Some e))
| pl_not : forall e, plain e -> plain (mk_not (Some e))
| pl_between : forall l o a b, plain a -> plain b -> plain (mk_between l o (Some a) (Some b))
| pl_function : forall f ns, clean f = true -> (forall n, In (Some n) ns -> plain n) -> plain (mk_function f ns).
