(** The WHERE clause as a whole (C79). *)
From Verif Require Import Base Node Vocab Tree Syntax Gorm GormSpec GormSQL SqlSpec SqlSpecDb.

(** Arrays only after "in", and not empty. *)
Fixpoint listed (e : expr) : bool :=
  match e with
  | EVal v => scalar v
  | EName _ | ERef _ | EJson _ => true
  | ECall _ args => forallb listed args
  | EParen e | ENot e | EPred e _ => listed e
  | EBetween e _ _ a b => listed e && scalar a && scalar b
  | EIn e _ _ ls => listed e && negb (Nat.eqb (length ls) 0)
  | ECmp l _ r | ELogic l _ r => listed l && listed r
  end.
(** In quoted names there is no question mark, and something that is neither a
    digit nor a sign. *)
Definition no_numeral (t : list N) : bool := existsb (fun c => negb (is_digit c || mem c #"+-")) t.
Definition unmarked (quote : list N -> list N) (P : list N -> Prop) : Prop :=
  forall x, P x -> mem 63%N (quote x) = false /\ no_numeral (quote x) = true.
(** A list of values is a value. *)
Definition lists (w : world) : Prop := forall l, wVal w (GArr l) = wList w (map (wVal w) l).

Section Stands.
  Variable name_lex : list N -> option (list N * list N).
  Variable dialect : list N.
  Variable upper_hi : N -> N.
  Definition numbered : bool := streq dialect #"postgres".
  (** the tokens of a text with arguments *)
  Definition tokens (t : list N) (args : list gval) (us : list tok) : Prop :=
    exists f ts, lex name_lex f t = Some ts /\ (if numbered then bind_numbers else bind_marks) args ts = Some us.
  (** the arguments that matter after those of the text before, [pre] *)
  Definition seen (pre post : list gval) : list gval := if numbered then pre ++ post else post.
  (** The condition, as gorm writes it, is the tokens [bts] wherever it stands. *)
  Definition stands (c : list N * list gval) (bts : list tok) : Prop :=
    forall before pre, exists t vs, expr_build dialect false (fst c) (snd c) (Stmt before pre) = Stmt (before ++ t) (pre ++ vs) /\
      forall post rest br, ends_name rest -> tokens rest (seen (pre ++ vs) post) br -> tokens (t ++ rest) (seen pre (vs ++ post)) (bts ++ br).
  (** nothing or a closing parenthesis; the same or "and" *)
  Definition at_end (ts : list tok) : Prop := match ts with [] | TClose :: _ => True | _ => False end.
  Definition ends_conjunct (ts : list tok) : Prop :=
    match ts with [] | TClose :: _ => True | TWord w :: _ => w = #"and" | _ => False end.
  (** A condition that Where takes as it is and that is read as [a]; without "and"
      or "or" between blanks also where it is not put in parentheses. *)
  Definition conjunct (c : list N * list gval) (a : sql) : Prop :=
    build_condition c = Some [c] /\
    exists bts, stands c bts /\
      (forall rest, at_end rest -> exists f, rd f GOr (bts ++ rest) = Some (a, rest)) /\
      (spaced upper_hi (fst c) = false -> forall rest, ends_conjunct rest -> exists f, rd f GNot (bts ++ rest) = Some (a, rest)).
End Stands.
