(** C91: exactly which queries have the same tree. *)
From Verif Require Import Base Peg Grammar Node Vocab Tree Parse Syntax Blank ParseProofs NormProofs ParserFacts ParserFacts2 ParserMain Reader CaseFacts SameSpec SameFacts GormSample.
Strategy expand [parse_machine rule_trace].
Strategy 1000 [parse_fuel mrun tok_trace].

(** Two accepted queries have the same tree if and only if they differ only in
    layout, in the spelling of operators, in the kind of quotes and brackets, in
    the case of true, false and null, and in the form of between. *)
Theorem C91_same : forall lo q q' e e', valid_runes q -> valid_runes q' -> reads q e -> reads q' e' -> fits e = true -> fits e' = true ->
  json_free e = true -> json_free e' = true -> commentless e -> commentless e' -> (parse lo q = parse lo q' <-> same e e').
Proof. exact parse_same. Qed.
(** [commentless] holds of every query without -- and //. *)
Theorem C91_plain : forall q e, reads q e -> marker_free q -> commentless e.
Proof. exact marker_commentless. Qed.
(** The operations have exactly these spellings. *)
Theorem C91_spellings : forall o, any_operator o -> marker_free o -> exists! c, spells c o.
Proof.
  intros o A M. destruct (op_spelled o A M) as (c & H). exists c. split; [exact H|]. intros c' H'. now rewrite <- (spells_nm (fun x => x) c o H), <- (spells_nm (fun x => x) c' o H').
Qed.

Definition e_one : expr := ELogic (ECmp (EName #"a") #"==" (EVal (VLit (LStr false #"x")))) #"&&"
  (EIn (ECall #"f" [EBetween (EName #"b") #"between" true (VLit (LInt #"1")) (VLit (LInt #"2"))]) #"NOT  in" true [LBool #"TRUE"; LNull #"null"]).
Definition e_two : expr := ELogic (ECmp (EName #"a") #"EQ" (EVal (VLit (LStr true #"x")))) #"And"
  (EIn (ECall #"f" [EBetween (EName #"b") #"between" false (VLit (LInt #"1")) (VLit (LInt #"2"))]) #"not In" false [LBool #"true"; LNull #"NULL"]).
Lemma reads_one : reads #"a=='x'&&f(b between [1, 2])NOT  in (TRUE, null)" e_one.
Proof. apply read_of_reads. vm_compute. reflexivity. Qed.
Lemma reads_two : reads #"a EQ ""x"" And f(b between 1 and 2) not In [true,NULL,]" e_two.
Proof. apply read_of_reads. vm_compute. reflexivity. Qed.
Example C91_ex : same e_one e_two /\ fits e_one = true /\ fits e_two = true /\ json_free e_one = true /\ json_free e_two = true /\ commentless e_one /\ commentless e_two /\
  parse lo2 #"a=='x'&&f(b between [1, 2])NOT  in (TRUE, null)" = parse lo2 #"a EQ ""x"" And f(b between 1 and 2) not In [true,NULL,]" /\
  parse lo2 #"a = 1 and b = 2" <> parse lo2 #"(a = 1) and b = 2".
Proof.
  assert (C1 : commentless e_one) by (apply (C91_plain _ _ reads_one); now apply mfb_spec). assert (C2 : commentless e_two) by (apply (C91_plain _ _ reads_two); now apply mfb_spec).
  split; [apply (C91_same lo2 _ _ _ _ ltac:(now apply (valid_runesb_spec #"a=='x'&&f(b between [1, 2])NOT  in (TRUE, null)")) ltac:(now apply (valid_runesb_spec #"a EQ ""x"" And f(b between 1 and 2) not In [true,NULL,]")) reads_one reads_two eq_refl eq_refl eq_refl eq_refl C1 C2); vm_compute; reflexivity|].
  split; [reflexivity|]. split; [reflexivity|]. split; [reflexivity|]. split; [reflexivity|]. split; [exact C1|]. split; [exact C2|]. split; [vm_compute; reflexivity|]. vm_compute. intro K. discriminate K.
Qed.
(** A comment is layout everywhere but inside an operator, where it becomes part
    of the operation. *)
Theorem C91_comment_refuted : forall lo, exists e,
  reads #"a not in (1)" e /\ (exists e', reads #"a not --x
in (1)" e' /\ fits e' = true /\ json_free e' = true) /\ parse lo #"a not in (1)" <> parse lo #"a not --x
in (1)" /\ parse lo #"a not in (1)" = parse lo #"a --x
not in --x
(1)".
Proof.
  intro lo. exists (EIn (EName #"a") #"not in" true [LInt #"1"]). split; [apply read_of_reads; vm_compute; reflexivity|]. split.
  - exists (EIn (EName #"a") #"not --x
in" true [LInt #"1"]). split; [apply read_of_reads; vm_compute; reflexivity|]. now split.
  - split; [vm_compute; intro K; discriminate K|vm_compute; reflexivity].
Qed.
(** Of a path with -> only the last name is left (C17), so different queries have
    the same tree. *)
Theorem C91_json_refuted : forall lo, exists e e', reads #"a->b = 1" e /\ reads #"c->b = 1" e' /\ ~ same e e' /\ parse lo #"a->b = 1" = parse lo #"c->b = 1".
Proof.
  intro lo. exists (ECmp (EJson [#"a"; #"b"]) #"=" (EVal (VLit (LInt #"1")))), (ECmp (EJson [#"c"; #"b"]) #"=" (EVal (VLit (LInt #"1")))).
  split; [apply read_of_reads; vm_compute; reflexivity|]. split; [apply read_of_reads; vm_compute; reflexivity|]. split.
  - intro S. inversion S as [| | | | | | | |l l' o o' r r' S1 _ _| |]; subst. inversion S1.
  - vm_compute. reflexivity.
Qed.

Print Assumptions C91_same.
Print Assumptions C91_plain.
Print Assumptions C91_spellings.
Print Assumptions C91_comment_refuted.
Print Assumptions C91_json_refuted.
