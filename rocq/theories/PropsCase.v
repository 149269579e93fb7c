(** Properties C62 and C63: letter case and the tables of unicode.ToLower.
    Statements only; proofs are in CaseFacts.v. *)
From Verif Require Import Base Peg Grammar Node Vocab Tree Parse Syntax NormProofs ParserMain CaseSpec CaseFacts.
Strategy expand [parse_machine].
Strategy 1000 [parse_fuel mrun].

Definition lo62 (c : N) : N := (c + 32)%N.

(** ** C62 *)
(** Any two queries that are written as the same expression up to the letter
    case of operators give the same tree (and the same error). *)
Theorem C62_same : forall lo q q' e e', valid_runes q -> valid_runes q' -> reads q e -> reads q' e' ->
  lower_ops e = lower_ops e' -> parse lo q = parse lo q'.
Proof. intro lo. exact (recase_parse lo). Qed.
(** and every letter case of the operators can be written, except between and
    the words after is ([fixed_ops]). *)
Theorem C62_keywords : forall lo q e e', valid_runes q -> reads q e -> lower_ops e' = lower_ops e -> fixed_ops e' ->
  exists q', reads q' e' /\ map ascii_lower q' = map ascii_lower q /\ parse lo q' = parse lo q.
Proof. exact recase_all. Qed.
(** Those exceptions are rejected, and the words true, false and null are
    values in lower or upper case only: True is a name. *)
Theorem C62_between_refuted : forall lo, exists n,
  parse lo #"a between 1 and 2" = Ok (Some n) /\ (exists b e, parse lo #"a BETWEEN 1 and 2" = Err (PESyntax b e)) /\
  parse lo #"a between 1 AND 2" = Ok (Some n).
Proof. intro lo. eexists. split; [vm_compute; reflexivity|]. split; [do 2 eexists|]; vm_compute; reflexivity. Qed.
Theorem C62_is_refuted : forall lo, exists n,
  parse lo #"a is null" = Ok (Some n) /\ (exists b e, parse lo #"a IS null" = Err (PESyntax b e)) /\
  (exists b e, parse lo #"a is NULL" = Err (PESyntax b e)).
Proof. intro lo. eexists. split; [vm_compute; reflexivity|]. split; do 2 eexists; vm_compute; reflexivity. Qed.
Theorem C62_literal_refuted : forall lo, exists v n,
  parse lo #"true" = Ok (Some v) /\ nType v = NValue /\ nBool v = true /\
  parse lo #"TRUE" = Ok (Some v) /\ parse lo #"True" = Ok (Some n) /\ nType n = NIdentifier /\ nName n = #"True".
Proof. intro lo. do 2 eexists. split; [vm_compute; reflexivity|]. do 2 (split; [reflexivity|]). do 2 (split; [vm_compute; reflexivity|]). split; reflexivity. Qed.
Example C62_ex : parse lo62 #"NOT a = 1 AND b LiKe 'X' Or c Not In (2)" = parse lo62 #"not a = 1 and b like 'X' or c not in (2)" /\
  parse lo62 #"not a = 1 and b like 'X'" <> parse lo62 #"not A = 1 and b like 'X'".
Proof. split; [vm_compute; reflexivity|]. vm_compute. intro K. discriminate K. Qed.

(** ** C63 *)
Theorem C63_tables : forall lo lo' q, valid_runes q -> marker_free q -> parse lo q = parse lo' q.
Proof. exact parse_tables. Qed.
(** The tables are used on a comment inside an operator. *)
Theorem C63_tables_refuted : exists lo lo' q, valid_runes q /\ (forall c, (c < 192)%N -> lo c = lo' c) /\ parse lo q <> parse lo' q.
Proof.
  exists (fun c => c), (fun c => if (c <? 192)%N then c else (c + 32)%N), (#"a not--" ++ [201%N; 10%N] ++ #"in (1)").
  split; [apply valid_runesb_spec; vm_compute; reflexivity|]. split.
  - intros c H. apply N.ltb_lt in H. now rewrite H.
  - vm_compute. intro K. discriminate K.
Qed.
Example C63_ex : let q := #"a NOT LIKE '" ++ [201%N; 937%N] ++ #"' and b = 1" in
  marker_free q /\ parse lo62 q = parse (fun c => c) q /\ exists n, parse lo62 q = Ok (Some n).
Proof.
  cbv zeta. split.
  - apply mfb_spec. vm_compute. reflexivity.
  - split; [vm_compute; reflexivity|]. eexists. vm_compute. reflexivity.
Qed.

Print Assumptions C62_same. Print Assumptions C62_keywords. Print Assumptions C62_between_refuted. Print Assumptions C62_is_refuted.
Print Assumptions C62_literal_refuted. Print Assumptions C63_tables. Print Assumptions C63_tables_refuted.
