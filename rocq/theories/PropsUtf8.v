(** Property C65: queries as bytes.  Statements only; proofs are in
    Utf8Proofs.v.  [utf8], [lossy] are in Utf8Spec.v. *)
From Verif Require Import Base Peg Grammar Node Vocab Tree Parse Syntax NormProofs ParserFacts NameFacts Build Utf8 Utf8Spec Utf8Proofs.
Strategy expand [parse_machine].
Strategy 1000 [parse_fuel mrun].

(** ** C65 *)
(** Whatever the bytes, Parse returns. *)
Theorem C65_total : forall lo b, Forall is_byte b ->
  (exists n, go_parse lo b = Ok (Some n)) \/ (exists e, go_parse lo b = Err e).
Proof. exact go_total. Qed.
(** The parser reads the characters of the query, each byte that is part of none
    as U+FFFD; and a query has one such reading. *)
Theorem C65_decode : forall b s, Forall is_byte b -> (decode b = s <-> lossy b s).
Proof. exact decode_spec. Qed.
(** It writes exactly the UTF-8 encoding of what it read. *)
Theorem C65_encode : forall b s, utf8 b s <-> Forall scalar s /\ encode s = b.
Proof. exact utf8_iff. Qed.
(** The end symbol of the parser is never read: the assumption [valid_runes] of
    the other properties holds of every query. *)
Theorem C65_valid : forall b, Forall is_byte b -> valid_runes (decode b) /\ Forall scalar (decode b).
Proof. intros b H. split; [exact (decode_valid b H)|exact (decode_scalar b H)]. Qed.
(** A string literal of well-formed bytes arrives byte for byte. *)
Theorem C65_verbatim : forall lo (d : bool) s, well_formed s -> mem (if d then 34%N else 39%N) s = false ->
  go_parse lo ((if d then 34%N else 39%N) :: s ++ [if d then 34%N else 39%N]) = Ok (Some (mk_string s)).
Proof. exact go_verbatim. Qed.
(** Every string of the tree of a well-formed query stands in it in quotes. *)
Theorem C65_literals : forall lo b n m, well_formed b -> go_parse lo b = Ok (Some n) -> reach n m -> is_string m = true ->
  quoted_in (nStr m) b.
Proof. exact go_strings. Qed.
(** Not so if the query is not well-formed: distinct literals become equal, and
    a string appears that the query does not contain. *)
Theorem C65_invalid_refuted : forall lo, exists b b' n m, Forall is_byte b /\ Forall is_byte b' /\ b <> b' /\
  go_parse lo b = Ok (Some n) /\ go_parse lo b' = Ok (Some n) /\ reach n m /\ is_string m = true /\
  nStr m = [239; 191; 189]%N /\ ~ part (nStr m) b.
Proof. exact invalid_refuted. Qed.
(** Join on bytes reads as Join on characters. *)
Theorem C65_join : forall l, Forall (Forall is_byte) l -> decode (go_join l) = join (map decode l).
Proof. exact join_bytes. Qed.

Definition lo65 (c : N) : N := c.
(** a='ä€𝄞' and b in ("x") *)
Definition q65 : list N := #"a='" ++ [195; 164; 226; 130; 172; 240; 157; 132; 158]%N ++ #"' and b in (""x"")".
Example C65_ex : well_formed q65 /\ decode q65 = #"a='" ++ [228; 8364; 119070]%N ++ #"' and b in (""x"")" /\
  exists n m, go_parse lo65 q65 = Ok (Some n) /\ reach n m /\ is_string m = true /\ nStr m = [195; 164; 226; 130; 172; 240; 157; 132; 158]%N.
Proof.
  split; [|split; [vm_compute; reflexivity|]].
  - exists (#"a='" ++ [228; 8364; 119070]%N ++ #"' and b in (""x"")"). apply utf8_iff. split; [|vm_compute; reflexivity].
    match goal with |- Forall _ ?l => let v := eval vm_compute in l in change l with v end. repeat (constructor; [unfold scalar; lia|]). constructor.
  - eexists. exists (mk_string [195; 164; 226; 130; 172; 240; 157; 132; 158]%N). split; [vm_compute; reflexivity|]. split; [|split; reflexivity].
    eapply reach_step; [cbn; right; left; reflexivity|]. eapply reach_step; [cbn; right; right; right; left; reflexivity|]. apply reach_refl.
Qed.
Example C65_ex_lossy : lossy [226; 130; 40; 255]%N [65533; 65533; 40; 65533]%N /\ decode [226; 130; 40; 255]%N = [65533; 65533; 40; 65533]%N.
Proof. split; [|reflexivity]. apply decode_spec; [|reflexivity]. repeat (constructor; [reflexivity|]). constructor. Qed.

Print Assumptions C65_total. Print Assumptions C65_decode. Print Assumptions C65_encode. Print Assumptions C65_valid.
Print Assumptions C65_verbatim. Print Assumptions C65_literals. Print Assumptions C65_invalid_refuted. Print Assumptions C65_join.
