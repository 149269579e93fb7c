(** Templates with names for whole queries, and what it means to put queries in
    the place of the names (C85).  Nothing here mentions the grammar or the parser. *)
From Verif Require Import Base Node Vocab Syntax.

(** Texts, each followed by a hole, and a last text; [qs] is put into the holes. *)
Fixpoint insert (h : list (list N)) (b : list N) (qs : list (list N)) : list N :=
  match h, qs with
  | a :: h', q :: qs' => a ++ q ++ insert h' b qs'
  | _, _ => b
  end.
(** [x] occurs in [s] at one place only. *)
Definition once (x s : list N) : Prop := exists u, (exists v, s = u ++ x ++ v) /\ forall u' v', s = u' ++ x ++ v' -> u' = u.

(** An expression with others in the place of names. *)
Definition subst := list (list N * expr).
Fixpoint swap (m : subst) (e : expr) : expr :=
  match e with
  | EName x => match assoc x m with Some d => d | None => EName x end
  | EVal _ | ERef _ | EJson _ => e
  | ECall f args => ECall f (map (swap m) args)
  | EParen e => EParen (swap m e)
  | EBetween e o b lo hi => EBetween (swap m e) o b lo hi
  | EPred e o => EPred (swap m e) o
  | EIn e o p ls => EIn (swap m e) o p ls
  | ECmp l o r => ECmp (swap m l) o (swap m r)
  | ENot e => ENot (swap m e)
  | ELogic l o r => ELogic (swap m l) o (swap m r)
  end.
(** The names that stand for a column in [e] ... *)
Fixpoint mentions (e : expr) : list (list N) :=
  match e with
  | EName x => [x]
  | EVal _ | ERef _ | EJson _ => []
  | ECall _ args => concat (map mentions args)
  | EParen e | ENot e | EPred e _ | EBetween e _ _ _ _ | EIn e _ _ _ => mentions e
  | ECmp l _ r | ELogic l _ r => mentions l ++ mentions r
  end.
(** ... and those that are operands: not alone between parentheses, and not an
    argument by themselves. *)
Fixpoint operands (e : expr) : list (list N) :=
  let inside (e : expr) := match e with EName _ => [] | _ => operands e end in
  match e with
  | EName x => [x]
  | EVal _ | ERef _ | EJson _ => []
  | ECall _ args => concat (map inside args)
  | EParen e => inside e
  | ENot e | EPred e _ | EBetween e _ _ _ _ | EIn e _ _ _ => operands e
  | ECmp l _ r | ELogic l _ r => operands l ++ operands r
  end.
Definition operands_of (e : expr) : list (list N) := match e with EName _ => [] | _ => operands e end.
(** The exception: [x between [1,2]] takes a following "and" and value for its own. *)
Fixpoint bracketless (e : expr) : bool :=
  match e with
  | EBetween e _ b lo hi => bracketless e && negb (match b, lo, hi with true, VLit _, VLit _ => true | _, _, _ => false end)
  | EVal _ | EName _ | ERef _ | EJson _ => true
  | ECall _ args => forallb bracketless args
  | EParen e | ENot e | EPred e _ | EIn e _ _ _ => bracketless e
  | ECmp l _ r | ELogic l _ r => bracketless l && bracketless r
  end.
Definition bare_value (e : expr) : bool :=
  match e with EVal _ | EParen (EVal (VLit _)) => true | _ => false end.

(** The template [h], [b] with the names [xs] for its holes reads as [e], every
    name stands for a column, and the expressions [ds] suit their places. *)
Record accepts (h : list (list N)) (b : list N) (xs : list (list N)) (e : expr) (ds : list expr) : Prop := Accepts {
  acc_holes : length h = length xs;
  acc_size : length ds = length xs;
  acc_reads : reads (insert h b xs) e;
  acc_once : Forall (fun x => once x (insert h b xs) /\ In x (mentions e)) xs;
  acc_operand : Forall (fun p => In (fst p) (operands_of e) -> level (snd p) = 0) (combine xs ds);
  acc_clash : bracketless e = true \/ Forall (fun d => bare_value d = false) ds
}.

(** The same on trees: identifiers replaced. *)
Fixpoint graft (m : list (list N * node)) (n : node) : node :=
  let o := option_map (graft m) in
  let same := Node (nType n) (nVType n) (nInt n) (nBool n) (nStr n) (nFloat n) (map o (nArray n)) (nOperation n) (nName n) (nNames n)
    (o (nExpression n)) (o (nLeft n)) (o (nOp n)) (o (nRight n)) (map o (nParams n)) in
  match nType n with
  | NIdentifier => match assoc (nName n) m with Some d => d | None => same end
  | _ => same
  end.

(** The values of names, with those of [m] given. *)
Definition valued {V : Type} (nm : list (list N) -> V) (m : list (list N * V)) (xs : list (list N)) : V :=
  match xs with
  | [x] => match assoc x m with Some v => v | None => nm xs end
  | _ => nm xs
  end.
