(** Samples for C83. *)
From Verif Require Import Base Peg Node Vocab Tree Parse Syntax ParseProofs NormProofs ParserFacts ParserFacts2 ParserMain GormSample ImageSpec ImageProofs GormFacts4.
From Coq Require Import Lia.
Strategy expand [parse_machine rule_trace].
Strategy 1000 [parse_fuel mrun tok_trace].

Lemma ident1 : forall c, letter c = true -> ident [c] /\ ~ starts_word [c].
Proof.
  intros c H. split; [split; [exists c, []; auto|]|].
  - intros (v & r & E & C). destruct v as [|x [|y v]]; try discriminate.
  - intros S. unfold starts_word, prefix in S. repeat destruct S as [S|S]; destruct S as (r & E); discriminate E.
Qed.
Lemma op_plain : forall (K : list N -> Prop) o s, valid_runesb o = true -> K o -> op_name lo2 o = s -> names lo2 K s.
Proof. intros K o s V H E. exists o. split; [now apply valid_runesb_spec|]. auto. Qed.
Lemma image_samples : query_tree lo2 (mk_logic (Some (mk_not (Some (mk_compare (Some (mk_ident #"a")) (Some (mk_op #"eq")) (Some (mk_string #"it's"))))))
    (Some (mk_op #"and")) (Some (mk_between (Some (mk_function #"f" [Some (mk_int 7); Some (mk_ident #"b")])) (Some (mk_op #"between")) (Some (mk_array [])) (Some mk_null)))) /\
  ~ query_tree lo2 (mk_string #"both ' and """) /\ ~ query_tree lo2 (mk_not (Some (mk_not (Some (mk_ident #"a"))))) /\
  ~ query_tree lo2 (mk_int (-1)).
Proof.
  split; [|split; [|split]].
  - exists 6. apply (ta_logic lo2 5 _ _ 1); [lia|lia| | |].
    + apply (ta_not lo2 4); [lia|]. apply (ta_cmp lo2 0 _ _ 0); [lia|lia| | |].
      * apply ta_name; now apply ident1.
      * apply (op_plain _ #"="); [reflexivity|left; cbn; tauto|reflexivity].
      * apply ta_val, vt_literal, lt_string; [now apply valid_runesb_spec|now right].
    + apply (op_plain _ #"and"); [reflexivity|left; reflexivity|reflexivity].
    + apply ta_between.
      * apply (ta_call lo2 #"f" [mk_int 7; mk_ident #"b"]); [now apply ident1|now apply ident1|]. intros p [<-|[<-|[]]]; exists 0.
        -- apply ta_val, vt_literal, lt_number. unfold maxInt. lia.
        -- apply ta_name; now apply ident1.
      * apply (op_plain _ #"between"); [reflexivity|left; reflexivity|reflexivity].
      * apply (vt_array []). constructor.
      * apply vt_literal, lt_nothing.
  - intros (k & H). inversion H as [n V| | | | | | | | | |]; subst. inversion V as [n L|l L]; subst. inversion L as [s Vs [Q|Q]| | |]; discriminate Q.
  - intros (k & H). inversion H as [n V| | | | | | | | |k' n Hk H'|]; subst; [inversion V as [n L|l L]; subst; inversion L|].
    inversion H' as [n2 V| | | | | | | | |k2 n2 Hk2 H2|]; subst; [inversion V as [n3 L|l L]; subst; inversion L|lia].
  - intros (k & H). inversion H as [n V| | | | | | | | | |]; subst. inversion V as [n L|l L]; subst. inversion L as [|z Hz| |]; subst. lia.
Qed.
Lemma json_outside : forall lo, exists q n, valid_runes q /\ parse lo q = Ok (Some n) /\ ~ query_tree lo n.
Proof.
  intros lo. exists #"a and b->c". eexists. split; [apply valid_runesb_spec; reflexivity|]. split; [vm_compute; reflexivity|].
  intros (k & H). inversion H as [n V| | | | | | | | | |]; subst. inversion V as [n L|l L]; subst; inversion L.
Qed.
