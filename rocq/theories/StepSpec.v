(** Specification: how much work a run of the generated parser is. *)
From Verif Require Import Base Peg.

Section Steps.
  Variable G : rule -> pexp.
  Variable buf : list N.
  (** Number of constructs (character tests, loop rounds, alternatives, rule
      calls, ...) the machine [mrun] executes, abandoned alternatives included.
      It follows [mrun] and counts one for each. *)
  Fixpoint steps (fuel : nat) (e : pexp) (s : mstate) : N :=
    match fuel with
    | O => 0
    | S f =>
      1 + match e with
      | PSeq a b => steps f a s + match mrun G buf f a s with MR true s1 => steps f b s1 | _ => 0 end
      | PAlt a b => steps f a s + match mrun G buf f a s with MR false s1 => steps f b (mrestore s s1) | _ => 0 end
      | PStar a => steps f a s + match mrun G buf f a s with MR true s1 => steps f (PStar a) s1 | _ => 0 end
      | POpt a | PNot a | PCap a => steps f a s
      | PRule r => steps f (G r) s
      | PSw cs a d =>
          match nth_error buf (mpos s) with
          | Some x => if mem x cs then steps f a s else steps f d s
          | None => 0
          end
      | PChar _ | PRange _ _ | PDot | PAct _ => 0
      end
    end%N.
End Steps.
