(** Conditions beside each other in ent (C80). *)
From Verif Require Import Base Node Vocab Tree Syntax Gorm GormSpec EntSQL EntWhere SqlSpec SqlSpecDb SqlSpecEntDb SqlSpecWhere.

(** Tokens that are read as [xs] with "and" between them. *)
Inductive run : list tok -> list sql -> Prop :=
| run_one : forall t x, (forall rest, ends_conjunct rest -> exists f, rd f GNot (t ++ rest) = Some (x, rest)) -> run t [x]
| run_more : forall t x ts xs, (forall rest, ends_conjunct rest -> exists f, rd f GNot (t ++ rest) = Some (x, rest)) -> run ts xs ->
    run (t ++ TWord #"and" :: ts) (x :: xs).
Section Stands.
  Variable name_lex : list N -> option (list N * list N).
  Variable d : list N.
  (** What the function writes is the tokens [bts] wherever it stands. *)
  Definition writes (f : pfn) (bts : list tok) : Prop :=
    forall pre, exists t a, f d (N.of_nat (length pre)) = Some (t, a, []) /\
      forall post rest br, ends_name rest -> tokens name_lex d rest (seen d (pre ++ map arg_value a) post) br ->
        tokens name_lex d (t ++ rest) (seen d pre (map arg_value a ++ post)) (bts ++ br).
  Definition conjuncts (f : pfn) (xs : list sql) : Prop := exists bts, writes f bts /\ run bts xs.
End Stands.

(** The value of a query with a condition of value [g] "and" before it, where
    nothing is put in parentheses; and with one after it. *)
Section Led.
  Variable w : world.
  Variable lower_hi : N -> N.
  Variable nm : list (list N) -> wV w.
  Notation parts := (ent_parts w lower_hi nm).
  Fixpoint led_parts (g : wV w) (e : expr) : option (wV w) * list (wV w) :=
    match e with
    | ELogic l o r =>
        if is_or o then (Some (whole2 w (led_parts g l)), ands w (parts r))
        else (fst (led_parts g l), snd (led_parts g l) ++ ands w (parts r))
    | _ => (None, g :: snd (parts e))
    end.
  Definition led (g : wV w) (e : expr) : wV w := whole2 w (led_parts g e).
  Definition trailed (e : expr) (gs : list (wV w)) : wV w := whole2 w (fst (parts e), snd (parts e) ++ gs).
End Led.
