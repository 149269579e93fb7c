(** Specification of the query language: what a query text *is*, independent of
    the parser.  An expression [e] is written by a text [t] when [lay e t]; a
    query is such a text with blanks around it.  Nothing here mentions the
    grammar, the parser or the stack machine; only the tree ([tree_of]) refers
    to the node type. *)
From Verif Require Import Base Node Vocab.

(** ** Blanks: spaces, tabs, line ends, and comments closed by a line end *)
Definition line_end (c : N) : bool := (c =? 10)%N || (c =? 13)%N.

Inductive blank : list N -> Prop :=
| blank_nil : blank []
| blank_char : forall c w, mem c [32; 9; 10; 13]%N = true -> blank w -> blank (c :: w)
| blank_comment : forall m body c w,
    m = #"--" \/ m = #"//" -> forallb (fun x => negb (line_end x)) body = true ->
    line_end c = true -> blank w -> blank (m ++ body ++ c :: w).

Definition gap1 (w : list N) : Prop := blank w /\ w <> [].

(** ** Words *)
Definition ci (w o : list N) : Prop := map ascii_lower o = w.   (* any letter case *)

Definition letter (c : N) : bool :=
  ((97 <=? c) && (c <=? 122))%N || ((65 <=? c) && (c <=? 90))%N.
Definition idchar (c : N) : bool := letter c || is_digit c || (c =? 95)%N.

Definition prefix (w s : list N) : Prop := exists r, s = w ++ r.
Definition iprefix (w s : list N) : Prop := exists v r, s = v ++ r /\ ci w v.

(** identifiers; no identifier may start with "not" in any letter case *)
Definition ident (x : list N) : Prop :=
  (exists c r, x = c :: r /\ letter c = true /\ forallb idchar r = true) /\ ~ iprefix #"not" x.

(** where a literal may also stand, a leading literal word wins *)
Definition starts_word (x : list N) : Prop :=
  prefix #"true" x \/ prefix #"false" x \/ prefix #"TRUE" x \/ prefix #"FALSE" x \/
  prefix #"null" x \/ prefix #"NULL" x.

(** ** Expressions *)
Inductive literal : Set :=
| LStr (double : bool) (s : list N)
| LInt (ds : list N)
| LBool (w : list N)
| LNull (w : list N).

Inductive val : Set :=
| VLit (l : literal)
| VArr (paren : bool) (ls : list literal).

Inductive expr : Set :=
| EVal (v : val)
| EName (x : list N)
| ERef (xs : list (list N))                                   (* a.b.c *)
| EJson (xs : list (list N))                                  (* a->b->c *)
| ECall (f : list N) (args : list expr)
| EParen (e : expr)
| EBetween (e : expr) (op : list N) (bracket : bool) (lo hi : val)
| EPred (e : expr) (op : list N)
| EIn (e : expr) (op : list N) (paren : bool) (ls : list literal)
| ECmp (l : expr) (op : list N) (r : expr)
| ENot (e : expr)
| ELogic (l : expr) (op : list N) (r : expr).

Definition level (e : expr) : nat :=
  match e with
  | EVal _ | EName _ | ERef _ | EJson _ | ECall _ _ | EParen _ => 0
  | EBetween _ _ _ _ _ => 1
  | EPred _ _ => 2
  | EIn _ _ _ _ => 3
  | ECmp _ _ _ => 4
  | ENot _ => 5
  | ELogic _ _ _ => 6
  end.

(** ** Literals and arrays *)
Inductive lit_text : literal -> list N -> Prop :=
| lt_sq : forall s, mem 39 s = false -> lit_text (LStr false s) (39%N :: s ++ [39%N])
| lt_dq : forall s, mem 34 s = false -> lit_text (LStr true s) (34%N :: s ++ [34%N])
| lt_zero : lit_text (LInt #"0") #"0"
| lt_int : forall c ds, is_digit c = true -> (c =? 48)%N = false -> forallb is_digit ds = true ->
    lit_text (LInt (c :: ds)) (c :: ds)
| lt_bool : forall w, In w [#"true"; #"false"; #"TRUE"; #"FALSE"] -> lit_text (LBool w) w
| lt_null : forall w, In w [#"null"; #"NULL"] -> lit_text (LNull w) w.

(** comma-separated literals *)
Inductive lits_text : list literal -> list N -> Prop :=
| lst_one : forall l t, lit_text l t -> lits_text [l] t
| lst_cons : forall l t w1 w2 ls ts,
    lit_text l t -> blank w1 -> blank w2 -> lits_text ls ts ->
    lits_text (l :: ls) (t ++ w1 ++ #"," ++ w2 ++ ts).

Definition opening (paren : bool) : list N := if paren then #"(" else #"[".
Definition closing (paren : bool) : list N := if paren then #")" else #"]".

(** [arr_text paren trailing_comma ls t] *)
Inductive arr_text (p : bool) : bool -> list literal -> list N -> Prop :=
| at_empty : forall w, blank w -> arr_text p false [] (opening p ++ w ++ closing p)
| at_list : forall ls t w1 w2, lits_text ls t -> blank w1 -> blank w2 ->
    arr_text p false ls (opening p ++ w1 ++ t ++ w2 ++ closing p)
| at_comma : forall ls t w1 w2 w3, lits_text ls t -> blank w1 -> blank w2 -> blank w3 ->
    arr_text p true ls (opening p ++ w1 ++ t ++ w2 ++ #"," ++ w3 ++ closing p).

Inductive val_text : val -> list N -> Prop :=
| vt_lit : forall l t, lit_text l t -> val_text (VLit l) t
| vt_arr : forall p c ls t, arr_text p c ls t -> val_text (VArr p ls) t.

(** ** Operators *)
(** "not" blanks x *)
Definition not_then (x o : list N) : Prop := exists n g, ci #"not" n /\ gap1 g /\ o = n ++ g ++ x.

Definition op_between (o : list N) : Prop := o = #"between" \/ not_then #"between" o.
Definition tfn (x : list N) : Prop := In x [#"true"; #"false"; #"null"].
Definition op_match (o : list N) : Prop :=
  o = #"isnull" \/ o = #"notnull" \/
  (exists g x, gap1 g /\ tfn x /\ o = #"is" ++ g ++ x) \/
  (exists g g' x, gap1 g /\ gap1 g' /\ tfn x /\ o = #"is" ++ g ++ #"not" ++ g' ++ x).
Definition op_in (o : list N) : Prop :=
  ci #"in" o \/ (exists x, ci #"in" x /\ not_then x o).
Definition cmp_symbols : list (list N) := [#">="; #"<="; #"=="; #"!="; #">"; #"<"; #"="].
(** The spellings <>, gte and lte of the published grammar are not here: they
    can not be reached (see C14). *)
Definition op_cmp (o : list N) : Prop :=
  In o cmp_symbols \/ ci #"gt" o \/ ci #"lt" o \/ ci #"eq" o \/ ci #"neq" o \/
  ci #"like" o \/ (exists x, ci #"like" x /\ not_then x o).
Definition op_logic (o : list N) : Prop :=
  ci #"and" o \/ ci #"or" o \/ o = #"&&" \/ o = #"||".

(** ** Seams *)
(** the text of [e] ends with an identifier *)
Fixpoint ends_ident (e : expr) : bool :=
  match e with
  | EName _ | ERef _ | EJson _ => true
  | ECmp _ _ r | ELogic _ _ r => ends_ident r
  | ENot e => ends_ident e
  | _ => false
  end.
(** ... and then what follows must not continue the identifier *)
Definition seam (e : expr) (r : list N) : Prop :=
  ends_ident e = true -> match r with c :: _ => idchar c = false | [] => True end.

(** [x between [1,2]] followed by [and] and a value is read as
    [x between ([1,2]) and value] *)
Fixpoint ends_bracket (e : expr) : bool :=
  match e with
  | EBetween _ _ true (VLit _) (VLit _) => true
  | ECmp _ _ r | ELogic _ _ r => ends_bracket r
  | ENot e => ends_bracket e
  | _ => false
  end.
Fixpoint starts_val (e : expr) : bool :=
  match e with
  | EVal _ => true
  | EParen (EVal (VLit _)) => true
  | EBetween e _ _ _ _ | EPred e _ | EIn e _ _ _ | ECmp e _ _ | ELogic e _ _ => starts_val e
  | _ => false
  end.
Definition bracket_clash (l : expr) (o : list N) (r : expr) : Prop :=
  ends_bracket l = true /\ ci #"and" o /\ starts_val r = true.

(** ** Layout *)
Inductive lay : expr -> list N -> Prop :=
| lay_lit : forall l t, lit_text l t -> lay (EVal (VLit l)) t
| lay_arr : forall p c ls t, arr_text p c ls t ->
    (* "(1)" is a parenthesised 1, not an array *)
    ~ (p = true /\ c = false /\ length ls = 1) ->
    lay (EVal (VArr p ls)) t
| lay_name : forall x, ident x -> ~ starts_word x -> lay (EName x) x
| lay_ref : forall x y xs, Forall ident (x :: y :: xs) -> ~ starts_word x ->
    lay (ERef (x :: y :: xs)) (join_with #"." (x :: y :: xs))
| lay_json : forall x y xs, Forall ident (x :: y :: xs) -> ~ starts_word x ->
    lay (EJson (x :: y :: xs)) (join_with #"->" (x :: y :: xs))
| lay_call0 : forall f w, ident f -> ~ starts_word f -> blank w ->
    lay (ECall f []) (f ++ #"(" ++ w ++ #")")
| lay_call : forall f args t w1 w2, ident f -> ~ starts_word f ->
    lays args t -> blank w1 -> blank w2 ->
    lay (ECall f args) (f ++ #"(" ++ w1 ++ t ++ w2 ++ #")")
| lay_callc : forall f args t w1 w2 w3, ident f -> ~ starts_word f ->
    lays args t -> blank w1 -> blank w2 -> blank w3 ->
    lay (ECall f args) (f ++ #"(" ++ w1 ++ t ++ w2 ++ #"," ++ w3 ++ #")")
| lay_paren : forall e t w1 w2, lay e t -> blank w1 -> blank w2 ->
    lay (EParen e) (#"(" ++ w1 ++ t ++ w2 ++ #")")
| lay_between : forall e t w1 o w2 lo tlo w3 a w4 hi thi,
    level e <= 0 -> lay e t -> blank w1 -> op_between o -> blank w2 ->
    val_text lo tlo -> blank w3 -> ci #"and" a -> blank w4 -> val_text hi thi ->
    seam e (w1 ++ o) ->
    lay (EBetween e o false lo hi) (t ++ w1 ++ o ++ w2 ++ tlo ++ w3 ++ a ++ w4 ++ thi)
| lay_between_br : forall e t w1 o w2 w3 lo tlo w4 w5 hi thi w6,
    level e <= 0 -> lay e t -> blank w1 -> op_between o -> blank w2 -> blank w3 ->
    val_text lo tlo -> blank w4 -> blank w5 -> val_text hi thi -> blank w6 ->
    seam e (w1 ++ o) ->
    lay (EBetween e o true lo hi)
        (t ++ w1 ++ o ++ w2 ++ #"[" ++ w3 ++ tlo ++ w4 ++ #"," ++ w5 ++ thi ++ w6 ++ #"]")
| lay_pred : forall e t w o, level e <= 1 -> lay e t -> gap1 w -> op_match o ->
    lay (EPred e o) (t ++ w ++ o)
| lay_in : forall e t w1 o w2 p c ls ta, level e <= 2 -> lay e t -> blank w1 -> op_in o ->
    blank w2 -> arr_text p c ls ta -> seam e (w1 ++ o) ->
    lay (EIn e o p ls) (t ++ w1 ++ o ++ w2 ++ ta)
| lay_cmp : forall l tl w1 o w2 r tr, level l <= 4 -> level r <= 3 ->
    lay l tl -> blank w1 -> op_cmp o -> blank w2 -> lay r tr -> seam l (w1 ++ o) ->
    lay (ECmp l o r) (tl ++ w1 ++ o ++ w2 ++ tr)
| lay_not : forall n g e t, ci #"not" n -> gap1 g -> level e <= 4 -> lay e t ->
    lay (ENot e) (n ++ g ++ t)
| lay_logic : forall l tl w1 o w2 r tr, level r <= 5 ->
    lay l tl -> blank w1 -> op_logic o -> blank w2 -> lay r tr -> seam l (w1 ++ o) ->
    ~ bracket_clash l o r ->
    lay (ELogic l o r) (tl ++ w1 ++ o ++ w2 ++ tr)
with lays : list expr -> list N -> Prop :=
| lays_one : forall e t, lay e t -> lays [e] t
| lays_cons : forall e t w1 w2 es ts, lay e t -> blank w1 -> blank w2 -> lays es ts ->
    lays (e :: es) (t ++ w1 ++ #"," ++ w2 ++ ts).

Scheme lay_mind := Induction for lay Sort Prop
  with lays_mind := Induction for lays Sort Prop.
Combined Scheme lay_lays_ind from lay_mind, lays_mind.

(** [q] is written as [e], completely. *)
Definition reads (q : list N) (e : expr) : Prop :=
  exists w1 t w2, q = w1 ++ t ++ w2 /\ blank w1 /\ blank w2 /\ lay e t.

(** ** Integers must fit *)
Definition lit_fits (l : literal) : bool :=
  match l with LInt ds => (dec_value ds <=? maxInt)%Z | _ => true end.
Definition val_fits (v : val) : bool :=
  match v with VLit l => lit_fits l | VArr _ ls => forallb lit_fits ls end.
Fixpoint fits (e : expr) : bool :=
  match e with
  | EVal v => val_fits v
  | EName _ | ERef _ | EJson _ => true
  | ECall _ args => forallb fits args
  | EParen e | EPred e _ | ENot e => fits e
  | EBetween e _ _ lo hi => fits e && val_fits lo && val_fits hi
  | EIn e _ _ ls => fits e && forallb lit_fits ls
  | ECmp l _ r | ELogic l _ r => fits l && fits r
  end.

(** no -> path anywhere *)
Fixpoint json_free (e : expr) : bool :=
  match e with
  | EJson _ => false
  | EVal _ | EName _ | ERef _ => true
  | ECall _ args => forallb json_free args
  | EParen e | EPred e _ | ENot e | EBetween e _ _ _ _ | EIn e _ _ _ => json_free e
  | ECmp l _ r | ELogic l _ r => json_free l && json_free r
  end.

(** ** The tree of an expression *)
Section TreeOf.
  Variable lower_hi : N -> N.
  Let op (o : list N) : option node := Some (mk_op (op_name lower_hi o)).

  Definition lit_node (l : literal) : node :=
    match l with
    | LStr _ s => mk_string s
    | LInt ds => mk_int (dec_value ds)
    | LBool w => mk_bool (streq w #"true" || streq w #"TRUE")
    | LNull _ => mk_null
    end.
  Definition val_node (v : val) : node :=
    match v with
    | VLit l => lit_node l
    | VArr _ ls => mk_array (map (fun l => Some (lit_node l)) ls)
    end.
  (** The tree of a json-free expression; [EJson] has no tree of its own. *)
  Fixpoint tree_of (e : expr) : option node :=
    match e with
    | EVal v => Some (val_node v)
    | EName x => Some (mk_ident x)
    | ERef xs => Some (mk_reference xs)
    | EJson _ => None
    | ECall f args => Some (mk_function f (map tree_of args))
    | EParen e => Some (mk_paren (tree_of e))
    | EBetween e o _ lo hi =>
        Some (mk_between (tree_of e) (op o) (Some (val_node lo)) (Some (val_node hi)))
    | EPred e o => Some (mk_predicate (tree_of e) (op o))
    | EIn e o p ls => Some (mk_compare (tree_of e) (op o) (Some (val_node (VArr p ls))))
    | ECmp l o r => Some (mk_compare (tree_of l) (op o) (tree_of r))
    | ENot e => Some (mk_not (tree_of e))
    | ELogic l o r => Some (mk_logic (tree_of l) (op o) (tree_of r))
    end.
End TreeOf.
