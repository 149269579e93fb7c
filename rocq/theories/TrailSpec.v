(** Specification: the rules and captures that match some text while a parsing
    expression is tried on a text, in the order in which they are completed;
    those in alternatives given up later and in lookahead count as well. *)
From Verif Require Import Base Peg.

(** what matched, the text it matched, the text after it *)
Definition hit : Set := (tokrule * list N * list N)%type.
Definition mark (r : tokrule) (text rest : list N) : list hit :=
  match text with [] => [] | _ => [(r, text, rest)] end.

Section Trail.
  Variable G : rule -> pexp.

  (** [trail e s None T]: [e] does not match at the beginning of [s], after the
      hits [T]; [trail e s (Some r) T]: it matches, [r] remains. *)
  Inductive trail : pexp -> list N -> option (list N) -> list hit -> Prop :=
  | t_char_ok : forall c t, trail (PChar c) (c :: t) (Some t) []
  | t_char_no : forall c x t, x <> c -> trail (PChar c) (x :: t) None []
  | t_char_nil : forall c, trail (PChar c) [] None []
  | t_range_ok : forall lo hi x t, (lo <= x <= hi)%N -> trail (PRange lo hi) (x :: t) (Some t) []
  | t_range_no : forall lo hi x t, ~ (lo <= x <= hi)%N -> trail (PRange lo hi) (x :: t) None []
  | t_range_nil : forall lo hi, trail (PRange lo hi) [] None []
  | t_dot_ok : forall x t, trail PDot (x :: t) (Some t) []
  | t_dot_nil : trail PDot [] None []
  | t_seq_1 : forall a b s T, trail a s None T -> trail (PSeq a b) s None T
  | t_seq_2 : forall a b s s1 o T1 T2, trail a s (Some s1) T1 -> trail b s1 o T2 -> trail (PSeq a b) s o (T1 ++ T2)
  | t_alt_1 : forall a b s r T, trail a s (Some r) T -> trail (PAlt a b) s (Some r) T
  | t_alt_2 : forall a b s o T1 T2, trail a s None T1 -> trail b s o T2 -> trail (PAlt a b) s o (T1 ++ T2)
  | t_star_0 : forall a s T, trail a s None T -> trail (PStar a) s (Some s) T
  | t_star_1 : forall a s s1 s2 T1 T2, trail a s (Some s1) T1 -> trail (PStar a) s1 (Some s2) T2 ->
      trail (PStar a) s (Some s2) (T1 ++ T2)
  | t_opt_1 : forall a s r T, trail a s (Some r) T -> trail (POpt a) s (Some r) T
  | t_opt_0 : forall a s T, trail a s None T -> trail (POpt a) s (Some s) T
  | t_not_ok : forall a s T, trail a s None T -> trail (PNot a) s (Some s) T
  | t_not_no : forall a s r T, trail a s (Some r) T -> trail (PNot a) s None T
  | t_cap_ok : forall a p s1 T, trail a (p ++ s1) (Some s1) T -> trail (PCap a) (p ++ s1) (Some s1) (T ++ mark TPegText p s1)
  | t_cap_no : forall a s T, trail a s None T -> trail (PCap a) s None T
  | t_act : forall n s, trail (PAct n) s (Some s) []
  | t_rule_ok : forall r p s1 T, trail (G r) (p ++ s1) (Some s1) T -> trail (PRule r) (p ++ s1) (Some s1) (T ++ mark (TRule r) p s1)
  | t_rule_no : forall r s T, trail (G r) s None T -> trail (PRule r) s None T
  | t_sw_in : forall cs a d x t o T, mem x cs = true -> trail a (x :: t) o T -> trail (PSw cs a d) (x :: t) o T
  | t_sw_out : forall cs a d x t o T, mem x cs = false -> trail d (x :: t) o T -> trail (PSw cs a d) (x :: t) o T
  | t_sw_nil : forall cs a d o T, trail d [] o T -> trail (PSw cs a d) [] o T.
End Trail.

(** The first of the hits that reach farthest. *)
Definition farthest (T : list hit) (h : hit) : Prop :=
  exists T1 T2, T = T1 ++ h :: T2 /\
    Forall (fun g => length (snd h) < length (snd g)) T1 /\ Forall (fun g => length (snd h) <= length (snd g)) T2.
