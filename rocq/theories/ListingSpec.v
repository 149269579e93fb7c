(** Specification for C93: a listing of spans, and a tree in post-order. *)
From Verif Require Import Base Peg Grammar Vocab QuoteSpec Ast AstSpec.

(** The line of a token: its rule as in miniquery.peg, or Action and its number,
    in blue; then where it begins and ends, in decimal. *)
Definition named (r : tokrule) (s : list N) : Prop :=
  match r with TAct n => exists d, decimal n d /\ s = #"Action" ++ d | _ => s = title r end.
Definition span_line (t : token) (l : list N) : Prop :=
  exists r b e, named (trule t) r /\ decimal (tbegin t) b /\ decimal (tend t) e /\ l = [27%N] ++ #"[34m" ++ r ++ [27%N] ++ #"[m " ++ b ++ #" " ++ e.
Definition lists (ts : list token) (out : list N) : Prop := exists ls, Forall2 span_line ts ls /\ out = concat (map (fun l => l ++ [10%N]) ls).

(** Children before their parent, from left to right. *)
Fixpoint postorder (n : node32) : list token :=
  match n with
  | N32 t up => (fix all (l : list node32) : list token := match l with [] => [] | c :: l' => postorder c ++ all l' end) up ++ [t]
  end.
Definition nonempty (t : token) : bool := negb (tbegin t =? tend t).
