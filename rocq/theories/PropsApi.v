(** Property C81: the generated parser used call by call (Init, Reset, Parse
    with a rule, Execute).  Statements only; proofs are in ApiProofs.v, what
    the calls mean is in ApiSpec.v. *)
From Verif Require Import Base Peg PegSpec MachineProofs Grammar Node Vocab Tree Parse Syntax ParseProofs ParserApi ApiSpec ApiProofs GormFacts4.
Strategy expand [parse_machine].
Strategy 1000 [parse_fuel mrun].

(** ** C81 *)
(** Every sequence of calls on a new parser that the specification covers
    ([talk]) does what the specification says, with these answers, and leaves
    the parser as the specification says ([shows]). *)
Theorem C81_calls : forall lo q cs, valid_runes q -> Forall fit_call cs -> (exists o, talk lo cs (begun q tree0) o) ->
  match session lo cs (new_parser q) with
  | Some (l, p) => exists a, talk lo cs (begun q tree0) (Some (l, a)) /\
      pTree p = aTree a /\ pBuffer p = aNext a /\ pRunes p = aText a ++ [endSymbol] /\
      skipn (mpos (pVars p)) (aText a) = aRest a /\ mpos (pVars p) <= length (aText a) /\
      (aFresh a = true -> toks_events (aText a) (pTokens p) = aDone a)
  | None => talk lo cs (begun q tree0) None
  end.
Proof. exact session_talk. Qed.
(** Only Execute without a Parse that succeeded just before is not covered. *)
Theorem C81_covers : forall lo c a, (c <> CExecute \/ aFresh a = true) -> exists o, says lo c a o.
Proof. exact says_total. Qed.
(** The specification leaves no choice but where an error is reported. *)
Theorem C81_determined : forall lo cs a o o', talk lo cs a o -> talk lo cs a o' ->
  match o, o' with Some (_, a1), Some (_, a2) => a1 = a2 | None, None => True | _, _ => False end.
Proof. exact talk_det. Qed.
(** The rule numbers for which Parse panics. *)
Theorem C81_numbers : forall z, (forall e, ~ numbered z e) <-> (z <= 0 \/ 64 <= z \/ z = 36)%Z.
Proof. exact numbered_none. Qed.
(** miniquery.Parse is Parse and Execute on a new parser. *)
Theorem C81_parse : forall lo q, valid_runes q ->
  parse lo q = match session lo [CParse []] (new_parser q) with
               | None => Panic
               | Some ([AErr b x], _) => Err (PESyntax b x)
               | Some (_, p) => match session lo [CExecute] p with
                                | None => Panic
                                | Some (_, p') => match tErrors (pTree p') with x :: _ => Err x | [] => Ok (fst (pop (pTree p'))) end
                                end
               end.
Proof. exact parse_calls. Qed.
(** One parser for many queries, with Reset before each: the answers are those
    of a new parser, and the tree holds the trees of all accepted queries. *)
Theorem C81_queries : forall lo xs, Forall read_right xs ->
  exists ls p, session lo (flat_map turn xs) (new_parser []) = Some (concat ls, p) /\ Forall2 turn_answers xs ls /\
    pTree p = Tree (flat_map (fun x => match snd x with Some e => [tree_of lo e] | None => [] end) xs) [] [].
Proof. exact many_queries. Qed.
(** A second Parse without Reset always fails. *)
Theorem C81_twice : forall lo q, valid_runes q -> exists w b x p, session lo [CParse []; CParse []] (new_parser q) = Some ([w; AErr b x], p).
Proof. exact second_parse. Qed.
(** Parse with a rule of its own does not look at the end of the text. *)
Theorem C81_whole_refuted : forall lo, exists q p, valid_runes q /\ (exists b e, parse lo q = Err (PESyntax b e)) /\
  session lo [CParse [2%Z]] (new_parser q) = Some ([AOk], p) /\ mpos (pVars p) < length q.
Proof.
  intro lo. exists #"a b". eexists. split; [apply valid_runesb_spec; vm_compute; reflexivity|]. split; [do 2 eexists; vm_compute; reflexivity|].
  split; [vm_compute; reflexivity|]. vm_compute. auto.
Qed.
(** Execute after a Parse that failed builds something nevertheless, and after
    a Reset to a shorter text it panics. *)
Theorem C81_stale_refuted : forall lo,
  (exists q b e p n, valid_runes q /\ session lo [CParse []; CExecute] (new_parser q) = Some ([AErr b e; AOk], p) /\ tStack (pTree p) = n :: nil /\ n <> None) /\
  (exists q q', valid_runes q /\ valid_runes q' /\ (exists p, session lo [CParse []; CBuffer q'; CReset] (new_parser q) = Some ([AOk; AOk; AOk], p)) /\
     session lo [CParse []; CBuffer q'; CReset; CExecute] (new_parser q) = None).
Proof.
  intro lo. split.
  - exists #"a b". do 4 eexists. split; [apply valid_runesb_spec; vm_compute; reflexivity|]. split; [vm_compute; reflexivity|]. split; [vm_compute; reflexivity|discriminate].
  - exists #"abc", []. do 2 (split; [apply valid_runesb_spec; vm_compute; reflexivity|]). split; [eexists; vm_compute; reflexivity|vm_compute; reflexivity].
Qed.
(** a text read rule by rule: a name, blanks, something that is not there, a
    comparison, a literal *)
Example C81_ex : exists p n, session (fun c => c) [CParse [15]; CParse [27]; CParse [21]; CParse [16]; CParse [21]; CParse [35]; CExecute]%Z (new_parser #"a  >= 'x' z") =
    Some ([AOk; AOk; AErr 2 3; AOk; AOk; AOk; AOk], p) /\ pTree p = Tree [Some n] [] [] /\ mpos (pVars p) = 9 /\
    parse (fun c => c) #"a >= 'x'" = Ok (Some n).
Proof. do 2 eexists. split; [vm_compute; reflexivity|]. split; [vm_compute; reflexivity|]. split; vm_compute; reflexivity. Qed.
Example C81_ex_queries : exists e1 e2, Forall read_right [(#"a = 1 or b = 2 and c = 3", Some e1); (#"a =", None); (#"a = 1 and not (b = 2 or c = 3)", Some e2)].
Proof.
  destruct reads_abc as [R1 R2]. do 2 eexists. repeat apply Forall_cons; [| | |constructor].
  - split; [apply valid_runesb_spec; vm_compute; reflexivity|]. cbn [fst snd]. split; [exact R1|split; vm_compute; reflexivity].
  - split; [apply valid_runesb_spec; vm_compute; reflexivity|]. cbn [fst snd]. eapply not_reads; [apply valid_runesb_spec|]; vm_compute; reflexivity.
  - split; [apply valid_runesb_spec; vm_compute; reflexivity|]. cbn [fst snd]. split; [exact R2|split; vm_compute; reflexivity].
Qed.
Example C81_ex_talk : exists o, talk (fun c => c) [CParse [15]; CParse [17]; CParse [16]; CReset; CParse []]%Z (begun #"a > 1" tree0) o.
Proof.
  assert (T : forall cs a, Forall (fun c => c <> CExecute) cs -> exists o, talk (fun c => c) cs a o).
  { induction cs as [|c cs IH]; intros a H; [eexists; constructor|]. inversion H as [|? ? N F]; subst.
    destruct (C81_covers (fun c => c) c a (or_introl N)) as [[[w a1]|] S]; [|eexists; now apply t_panic].
    destruct (IH a1 F) as [[[l a2]|] T]; eexists; [eapply t_cons; eassumption|eapply t_later; eassumption]. }
  apply T. repeat (constructor; [discriminate|]). constructor.
Qed.

Print Assumptions C81_calls. Print Assumptions C81_covers. Print Assumptions C81_determined. Print Assumptions C81_numbers. Print Assumptions C81_parse.
Print Assumptions C81_queries. Print Assumptions C81_twice. Print Assumptions C81_whole_refuted. Print Assumptions C81_stale_refuted.
