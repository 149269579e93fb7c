(** An executable reader of queries, for examples: if it answers, [reads] holds. *)
From Verif Require Import Base Peg Grammar PegProofs Node Vocab Tree Parse GrammarProofs Syntax Complete CompleteMain Sound Unique.

Definition read_events (o : option (list event * list N)) : option expr :=
  match o with
  | Some (ev, _) => match decode ev ([], [], []) with Some (_, [IE e], _) => Some e | _ => None end
  | None => None
  end.
Definition read_of (q : list N) : option expr := read_events (eval Gann parse_depth (PRule rGrammar) q).
Lemma read_events_reads : forall q e o, E (PRule rGrammar) q = o -> read_events o = Some e -> reads q e.
Proof.
  intros q e [[ev r]|] HE H; [|discriminate H].
  destruct (grammar_sound _ _ _ HE) as (_ & e' & R & ->). destruct (dadds_evs e' [] [] []) as (t & D). unfold read_events in H. rewrite D in H. cbn in H. injection H as <-. exact R.
Qed.
Lemma read_of_reads : forall q e, read_of q = Some e -> reads q e.
Proof. intros q e. apply read_events_reads. apply EV_eq. Qed.
Lemma read_events_none : forall q o, E (PRule rGrammar) q = o -> read_events o = None -> forall e, ~ reads q e.
Proof.
  intros q o HE H e R. apply grammar_complete in R. rewrite R in HE. subst o. unfold read_events in H.
  destruct (dadds_evs e [] [] []) as (t & D). rewrite D in H. discriminate H.
Qed.
Lemma read_of_none : forall q, read_of q = None -> forall e, ~ reads q e.
Proof. intros q. apply read_events_none. apply EV_eq. Qed.
