(** Specification: the standard (big-step) semantics of parsing expressions,
    after Ford, POPL 2004, with the captured texts and actions in the order in
    which they are matched.  It has no token array, no buffer and no fuel. *)
From Verif Require Import Base Peg.

Section Matches.
  Variable G : rule -> pexp.

  (** [matches e s None]: [e] does not match at the beginning of [s];
      [matches e s (Some (ev, r))]: it matches, [r] remains, [ev] was recorded. *)
  Inductive matches : pexp -> list N -> option (list event * list N) -> Prop :=
  | m_char_ok : forall c t, matches (PChar c) (c :: t) (Some ([], t))
  | m_char_no : forall c x t, x <> c -> matches (PChar c) (x :: t) None
  | m_char_nil : forall c, matches (PChar c) [] None
  | m_range_ok : forall lo hi x t, (lo <= x <= hi)%N -> matches (PRange lo hi) (x :: t) (Some ([], t))
  | m_range_no : forall lo hi x t, ~ (lo <= x <= hi)%N -> matches (PRange lo hi) (x :: t) None
  | m_range_nil : forall lo hi, matches (PRange lo hi) [] None
  | m_dot_ok : forall x t, matches PDot (x :: t) (Some ([], t))
  | m_dot_nil : matches PDot [] None
  | m_seq_ok : forall a b s e1 s1 e2 s2, matches a s (Some (e1, s1)) -> matches b s1 (Some (e2, s2)) ->
      matches (PSeq a b) s (Some (e1 ++ e2, s2))
  | m_seq_no1 : forall a b s, matches a s None -> matches (PSeq a b) s None
  | m_seq_no2 : forall a b s e1 s1, matches a s (Some (e1, s1)) -> matches b s1 None -> matches (PSeq a b) s None
  | m_alt_1 : forall a b s r, matches a s (Some r) -> matches (PAlt a b) s (Some r)
  | m_alt_2 : forall a b s o, matches a s None -> matches b s o -> matches (PAlt a b) s o
  | m_star_0 : forall a s, matches a s None -> matches (PStar a) s (Some ([], s))
  | m_star_1 : forall a s e1 s1 e2 s2, matches a s (Some (e1, s1)) -> matches (PStar a) s1 (Some (e2, s2)) ->
      matches (PStar a) s (Some (e1 ++ e2, s2))
  | m_opt_1 : forall a s r, matches a s (Some r) -> matches (POpt a) s (Some r)
  | m_opt_0 : forall a s, matches a s None -> matches (POpt a) s (Some ([], s))
  | m_not_ok : forall a s, matches a s None -> matches (PNot a) s (Some ([], s))
  | m_not_no : forall a s r, matches a s (Some r) -> matches (PNot a) s None
  | m_cap_ok : forall a p s1 e1, matches a (p ++ s1) (Some (e1, s1)) -> matches (PCap a) (p ++ s1) (Some (e1 ++ [EText p], s1))
  | m_cap_no : forall a s, matches a s None -> matches (PCap a) s None
  | m_act : forall n s, matches (PAct n) s (Some ([EAct n], s))
  | m_rule : forall r s o, matches (G r) s o -> matches (PRule r) s o
  | m_sw_in : forall cs a d x t o, mem x cs = true -> matches a (x :: t) o -> matches (PSw cs a d) (x :: t) o
  | m_sw_out : forall cs a d x t o, mem x cs = false -> matches d (x :: t) o -> matches (PSw cs a d) (x :: t) o
  | m_sw_nil : forall cs a d o, matches d [] o -> matches (PSw cs a d) [] o.
End Matches.

(** Nesting depth of rule calls in a machine run: how deep the Go call stack
    gets.  Loops do not nest. *)
Section Depth.
  Variable G : rule -> pexp.
  Variable buf : list N.
  Fixpoint call_depth (fuel : nat) (e : pexp) (s : mstate) : nat :=
    match fuel with
    | O => 0
    | S f =>
      match e with
      | PSeq a b =>
          Nat.max (call_depth f a s) match mrun G buf f a s with MR true s1 => call_depth f b s1 | _ => 0 end
      | PAlt a b =>
          Nat.max (call_depth f a s)
            match mrun G buf f a s with MR false s1 => call_depth f b (mrestore s s1) | _ => 0 end
      | PStar a =>
          Nat.max (call_depth f a s) match mrun G buf f a s with MR true s1 => call_depth f (PStar a) s1 | _ => 0 end
      | POpt a | PNot a | PCap a => call_depth f a s
      | PRule r => S (call_depth f (G r) s)
      | PSw cs a d =>
          match nth_error buf (mpos s) with
          | Some x => if mem x cs then call_depth f a s else call_depth f d s
          | None => 0
          end
      | PChar _ | PRange _ _ | PDot | PAct _ => 0
      end
    end.
End Depth.
