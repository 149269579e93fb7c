(** When two queries say the same (C91): they differ in layout and spelling
    only.  Nothing here refers to trees. *)
From Verif Require Import Base Node Vocab Syntax NormProofs.

(** The spellings of an operation. *)
Definition one_word : list (list N) := [#"between"; #"in"; #"gt"; #"lt"; #"eq"; #"neq"; #"like"; #"and"; #"or"].
Definition not_word : list (list N) := [#"between"; #"in"; #"like"].
Definition is_word : list (list N) := [#"null"; #"true"; #"false"].
Definition other_spellings : list (list N * list N) :=
  [(#"=", #"eq"); (#"==", #"eq"); (#"!=", #"neq"); (#"<", #"lt"); (#"<=", #"lte"); (#">", #"gt"); (#">=", #"gte");
   (#"&&", #"and"); (#"||", #"or"); (#"isnull", #"is null"); (#"notnull", #"is not null")].
(** between two words *)
Definition space (g : list N) : Prop := g <> [] /\ forallb white g = true.
Inductive spells : list N -> list N -> Prop :=
| sp_other : forall o c, In (o, c) other_spellings -> spells c o
| sp_word : forall w o, In w one_word -> ci w o -> spells w o
| sp_not : forall w x g y, In w not_word -> ci #"not" x -> space g -> ci w y -> spells (#"not " ++ w) (x ++ g ++ y)
| sp_is : forall w g, In w is_word -> space g -> spells (#"is " ++ w) (#"is" ++ g ++ w)
| sp_isnt : forall w g g', In w is_word -> space g -> space g' -> spells (#"is not " ++ w) (#"is" ++ g ++ #"not" ++ g' ++ w).
Definition same_op (o o' : list N) : Prop := exists c, spells c o /\ spells c o'.

(** Literals: the kind of quote, the case of true, false and null. *)
Inductive same_lit : literal -> literal -> Prop :=
| sl_string : forall b b' s, same_lit (LStr b s) (LStr b' s)
| sl_int : forall ds, same_lit (LInt ds) (LInt ds)
| sl_true : forall w w', In w [#"true"; #"TRUE"] -> In w' [#"true"; #"TRUE"] -> same_lit (LBool w) (LBool w')
| sl_false : forall w w', In w [#"false"; #"FALSE"] -> In w' [#"false"; #"FALSE"] -> same_lit (LBool w) (LBool w')
| sl_null : forall w w', same_lit (LNull w) (LNull w').
(** Arrays: the kind of brackets (a comma at the end is layout). *)
Inductive same_val : val -> val -> Prop :=
| sv_lit : forall l l', same_lit l l' -> same_val (VLit l) (VLit l')
| sv_arr : forall p p' ls ls', Forall2 same_lit ls ls' -> same_val (VArr p ls) (VArr p' ls').
(** Between with "and" or with brackets. *)
Inductive same : expr -> expr -> Prop :=
| sm_val : forall v v', same_val v v' -> same (EVal v) (EVal v')
| sm_name : forall x, same (EName x) (EName x)
| sm_ref : forall xs, same (ERef xs) (ERef xs)
| sm_call : forall f es es', sames es es' -> same (ECall f es) (ECall f es')
| sm_paren : forall e e', same e e' -> same (EParen e) (EParen e')
| sm_between : forall e e' o o' f f' a a' b b', same e e' -> same_op o o' -> same_val a a' -> same_val b b' -> same (EBetween e o f a b) (EBetween e' o' f' a' b')
| sm_pred : forall e e' o o', same e e' -> same_op o o' -> same (EPred e o) (EPred e' o')
| sm_in : forall e e' o o' p p' ls ls', same e e' -> same_op o o' -> Forall2 same_lit ls ls' -> same (EIn e o p ls) (EIn e' o' p' ls')
| sm_cmp : forall l l' o o' r r', same l l' -> same_op o o' -> same r r' -> same (ECmp l o r) (ECmp l' o' r')
| sm_not : forall e e', same e e' -> same (ENot e) (ENot e')
| sm_logic : forall l l' o o' r r', same l l' -> same_op o o' -> same r r' -> same (ELogic l o r) (ELogic l' o' r')
with sames : list expr -> list expr -> Prop :=
| sms_nil : sames [] []
| sms_cons : forall e e' es es', same e e' -> sames es es' -> sames (e :: es) (e' :: es').
Scheme same_mind := Induction for same Sort Prop with sames_mind := Induction for sames Sort Prop.
Combined Scheme same_sames_ind from same_mind, sames_mind.

(** No comment inside an operator, as in "not --x (new line) in". *)
Fixpoint commentless (e : expr) : Prop :=
  match e with
  | EVal _ | EName _ | ERef _ | EJson _ => True
  | ECall _ args => (fix all (es : list expr) : Prop := match es with [] => True | e :: es => commentless e /\ all es end) args
  | EParen e | ENot e => commentless e
  | EBetween e o _ _ _ | EPred e o | EIn e o _ _ => commentless e /\ marker_free o
  | ECmp l o r | ELogic l o r => commentless l /\ marker_free o /\ commentless r
  end.
