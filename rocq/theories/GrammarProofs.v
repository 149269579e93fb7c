(** Well-formedness of the two grammars and their equivalence. *)
From Verif Require Import Base Peg Grammar PegProofs Node Vocab Tree Parse.
Require Import Arith.

Definition nl (r : rule) : bool := match r with r_ | rEndOfFile => true | _ => false end.

Definition drk (r : rule) : nat :=
  match r with
  | rGrammar => 34 | rExpression => 31 | rLogicExpression => 30 | rNotExpression => 28
  | rCompareExpression => 26 | rCompareInExpression => 24 | rPredicateExpression => 22
  | rBetweenExpression => 20 | rPrimaryExpression => 18 | rArgumentList => 2
  | rArgument => 32 | rReference => 13 | rIdentifierReference => 11 | rJsonReference => 8
  | rIdentifier => 6 | rCompare => 14 | rLogic => 13 | rMatch => 12 | rValue => 13
  | rArray => 3 | rLiteral => 11 | rInteger => 5 | rBoolean => 7 | rNull => 5
  | rString => 3 | rSpaceComment => 8 | r_ => 10 | r__ => 10 | rComment => 4
  | rSpace => 6 | rEndOfLine => 3 | rEndOfFile => 2
  end.

Definition wf (e : pexp) : bool := wfp nl drk parse_depth e.

Lemma nl_peg : forall r, nullable nl (Gpeg r) = true -> nl r = true.
Proof. destruct r; vm_compute; congruence. Qed.
Lemma nl_go : forall r, nullable nl (Ggo r) = true -> nl r = true.
Proof. destruct r; vm_compute; congruence. Qed.
Lemma drk_peg : forall r, ld nl drk (Gpeg r) <= drk r.
Proof. intro r. apply Nat.leb_le. destruct r; vm_compute; reflexivity. Qed.
Lemma drk_go : forall r, ld nl drk (Ggo r) <= drk r.
Proof. intro r. apply Nat.leb_le. destruct r; vm_compute; reflexivity. Qed.
Lemma wf_peg : forall r, wfp nl drk parse_depth (Gpeg r) = true.
Proof. destruct r; vm_compute; reflexivity. Qed.
Lemma wf_go : forall r, wfp nl drk parse_depth (Ggo r) = true.
Proof. destruct r; vm_compute; reflexivity. Qed.

(** The published grammar with two ghost actions (numbers from 30 on, which
    Execute ignores): they mark a -> path and the bracketed form of between, so
    that a sequence of actions determines the expression.  Only a proof device;
    [E_erase] relates it to [Gpeg]. *)
Definition Gann (r : rule) : pexp :=
  (match r with
  | rReference => PRule rIdentifierReference // (PAct 30 ;; PRule rJsonReference ;; PAct 31) // PRule rIdentifier
  | rBetweenExpression =>
      PRule rPrimaryExpression
      ;; POpt (W ;; PCap (POpt (ilit #"not" ;; WW) ;; lit #"between") ;; PAct 6 ;; W
               ;; ((PRule rValue ;; W ;; ilit #"and" ;; W ;; PRule rValue)
                   // (ch #"[" ;; W ;; PRule rValue ;; W ;; ch #"," ;; W ;; PRule rValue ;; W ;; ch #"]" ;; PAct 32))
               ;; PAct 7)
  | r => Gpeg r
  end)%peg.
Lemma nl_ann : forall r, nullable nl (Gann r) = true -> nl r = true.
Proof. destruct r; vm_compute; congruence. Qed.
Lemma drk_ann : forall r, ld nl drk (Gann r) <= drk r.
Proof. intro r. apply Nat.leb_le. destruct r; vm_compute; reflexivity. Qed.
Lemma wf_ann : forall r, wfp nl drk parse_depth (Gann r) = true.
Proof. destruct r; vm_compute; reflexivity. Qed.

(** Total evaluators of the grammars. *)
(* sealed, so that conversion never starts to run it *)
Lemma EV_sig : { f : (rule -> pexp) -> pexp -> list N -> option (list event * list N)
                   | f = fun G => eval G parse_depth }.
Proof. exists (fun G => eval G parse_depth). reflexivity. Qed.
Definition EV := proj1_sig EV_sig.
Lemma EV_unf : EV = fun G => eval G parse_depth.
Proof. exact (proj2_sig EV_sig). Qed.
Lemma EV_eq : forall G e s, EV G e s = eval G parse_depth e s.
Proof. intros. now rewrite EV_unf. Qed.
Notation E := (EV Gann).
Notation Ep := (EV Gpeg).
Notation Eg := (EV Ggo).

Section Both.
  (** The same equations for both. *)
  Variable G : rule -> pexp.
  Hypothesis GG : G = Gpeg \/ G = Ggo \/ G = Gann.
  Lemma G_nl : forall r, nullable nl (G r) = true -> nl r = true.
  Proof. destruct GG as [->|[->| ->]]; [apply nl_peg|apply nl_go|apply nl_ann]. Qed.
  Lemma G_drk : forall r, ld nl drk (G r) <= drk r.
  Proof. destruct GG as [->|[->| ->]]; [apply drk_peg|apply drk_go|apply drk_ann]. Qed.
  Lemma G_wf : forall r, wfp nl drk parse_depth (G r) = true.
  Proof. destruct GG as [->|[->| ->]]; [apply wf_peg|apply wf_go|apply wf_ann]. Qed.

  Lemma EE_seq : forall a b s, wf (PSeq a b) = true ->
    EV G (PSeq a b) s =
      match EV G a s with
      | Some (e1, s1) => match EV G b s1 with
                         | Some (e2, s2) => Some (e1 ++ e2, s2)
                         | None => None end
      | None => None
      end.
  Proof. intros. rewrite ?EV_unf in *. eapply eval_seq with (nl := nl) (drk := drk); auto using G_nl, G_drk, G_wf. Qed.
  Lemma EE_alt : forall a b s, wf (PAlt a b) = true ->
    EV G (PAlt a b) s = match EV G a s with Some r => Some r | None => EV G b s end.
  Proof. intros. rewrite ?EV_unf in *. eapply eval_alt with (nl := nl) (drk := drk); auto using G_nl, G_drk, G_wf. Qed.
  Lemma EE_star : forall a s, wf (PStar a) = true ->
    EV G (PStar a) s =
      match EV G a s with
      | Some (e1, s1) => match EV G (PStar a) s1 with
                         | Some (e2, s2) => Some (e1 ++ e2, s2)
                         | None => None end
      | None => Some ([], s)
      end.
  Proof. intros. rewrite ?EV_unf in *. eapply eval_star with (nl := nl) (drk := drk); auto using G_nl, G_drk, G_wf. Qed.
  Lemma EE_star_some : forall a s, wf (PStar a) = true -> EV G (PStar a) s <> None.
  Proof. intros. rewrite ?EV_unf in *. eapply eval_star_some with (nl := nl) (drk := drk); auto using G_nl, G_drk, G_wf. Qed.
  Lemma EE_opt : forall a s, wf (POpt a) = true ->
    EV G (POpt a) s = match EV G a s with Some r => Some r | None => Some ([], s) end.
  Proof. intros. rewrite ?EV_unf in *. eapply eval_opt with (nl := nl) (drk := drk); auto using G_nl, G_drk, G_wf. Qed.
  Lemma EE_not : forall a s, wf (PNot a) = true ->
    EV G (PNot a) s = match EV G a s with Some _ => None | None => Some ([], s) end.
  Proof. intros. rewrite ?EV_unf in *. eapply eval_not with (nl := nl) (drk := drk); auto using G_nl, G_drk, G_wf. Qed.
  Lemma EE_cap : forall a s, wf (PCap a) = true ->
    EV G (PCap a) s = match EV G a s with
      | Some (e1, s1) => Some (e1 ++ [EText (consumed s s1)], s1) | None => None end.
  Proof. intros. rewrite ?EV_unf in *. eapply eval_cap with (nl := nl) (drk := drk); auto using G_nl, G_drk, G_wf. Qed.
  Lemma EE_rule : forall r s, EV G (PRule r) s = EV G (G r) s.
  Proof.
    intros. rewrite ?EV_unf in *. eapply eval_rule with (nl := nl) (drk := drk); auto using G_nl, G_drk, G_wf.
    destruct r; vm_compute; reflexivity.
  Qed.
  Lemma EE_sw : forall cs a d s, wf (PSw cs a d) = true ->
    EV G (PSw cs a d) s =
      match s with
      | x :: _ => if mem x cs then EV G a s else EV G d s
      | [] => EV G d s
      end.
  Proof. intros. rewrite ?EV_unf in *. eapply eval_sw with (nl := nl) (drk := drk); auto using G_nl, G_drk, G_wf. Qed.
  Lemma EE_char : forall c s,
    EV G (PChar c) s = match s with x :: t => if (x =? c)%N then Some ([], t) else None | [] => None end.
  Proof. intros. rewrite ?EV_unf in *. eapply eval_char with (nl := nl) (drk := drk); auto using G_nl, G_drk, G_wf. Qed.
  Lemma EE_range : forall lo hi s,
    EV G (PRange lo hi) s = match s with
      | x :: t => if (x <? lo)%N || (hi <? x)%N then None else Some ([], t) | [] => None end.
  Proof. intros. rewrite ?EV_unf in *. eapply eval_range with (nl := nl) (drk := drk); auto using G_nl, G_drk, G_wf. Qed.
  Lemma EE_dot : forall s,
    EV G PDot s = match s with x :: t => Some ([], t) | [] => None end.
  Proof. intros. rewrite ?EV_unf in *. eapply eval_dot with (nl := nl) (drk := drk); auto using G_nl, G_drk, G_wf. Qed.
  Lemma EE_act : forall n s, EV G (PAct n) s = Some ([EAct n], s).
  Proof. intros. rewrite ?EV_unf in *. eapply eval_act with (nl := nl) (drk := drk); auto using G_nl, G_drk, G_wf. Qed.
  Lemma EE_suffix : forall e s ev s', EV G e s = Some (ev, s') -> exists p, s = p ++ s'.
  Proof. intros e s ev s' H. rewrite ?EV_unf in *. exact (eval_suffix G nl G_nl parse_depth e s ev s' H). Qed.
  Lemma EE_consumes : forall e s ev s', nullable nl e = false ->
    EV G e s = Some (ev, s') -> length s' < length s.
  Proof. intros e s ev s' Hn H. rewrite ?EV_unf in *. exact (eval_consumes G nl G_nl parse_depth e s ev s' Hn H). Qed.
  Lemma EE_frun : forall f e s r, wf e = true -> frun G f e s = Some r -> r = EV G e s.
  Proof. intros f e s r Hw H. rewrite ?EV_unf in *. exact (frun_eval G nl G_nl drk parse_depth G_drk G_wf f e s r Hw H). Qed.
  Lemma EE_enough : forall e s, wf e = true ->
    frun G (S (length s) * parse_depth) e s = Some (EV G e s).
  Proof. intros e s Hw. rewrite ?EV_unf in *. exact (eval_frun G nl G_nl drk parse_depth G_drk G_wf e s Hw). Qed.
End Both.
Global Opaque EV.


(** ** Equivalence *)
Definition ppe : Gpeg = Gpeg \/ Gpeg = Ggo \/ Gpeg = Gann := or_introl eq_refl.
Definition ge : Ggo = Gpeg \/ Ggo = Ggo \/ Ggo = Gann := or_intror (or_introl eq_refl).
Definition pe : Gann = Gpeg \/ Gann = Ggo \/ Gann = Gann := or_intror (or_intror eq_refl).

Definition same (a b : pexp) : Prop := forall s, Eg a s = Eg b s.

Lemma same_seq : forall a b a' b', wf (PSeq a b) = true -> wf (PSeq a' b') = true ->
  same a a' -> same b b' -> same (PSeq a b) (PSeq a' b').
Proof.
  intros a b a' b' H H' A B s. rewrite (EE_seq _ ge), (EE_seq _ ge) by auto.
  rewrite A. destruct (Eg a' s) as [[e1 s1]|]; [|reflexivity].
  now rewrite B.
Qed.
Lemma same_alt : forall a b a' b', wf (PAlt a b) = true -> wf (PAlt a' b') = true ->
  same a a' -> same b b' -> same (PAlt a b) (PAlt a' b').
Proof.
  intros a b a' b' H H' A B s. rewrite (EE_alt _ ge), (EE_alt _ ge) by auto.
  rewrite A. destruct (Eg a' s) as [[e1 s1]|]; [reflexivity|]. apply B.
Qed.
Lemma same_cap : forall a a', wf (PCap a) = true -> wf (PCap a') = true ->
  same a a' -> same (PCap a) (PCap a').
Proof.
  intros a a' H H' A s. rewrite (EE_cap _ ge), (EE_cap _ ge) by auto.
  now rewrite A.
Qed.
Lemma same_star : forall a a', wf (PStar a) = true -> wf (PStar a') = true ->
  same a a' -> same (PStar a) (PStar a').
Proof.
  intros a a' H H' A s. remember (length s) as n eqn:Hl. revert s Hl.
  induction n as [n IH] using lt_wf_ind. intros s Hl.
  rewrite (EE_star _ ge _ _ H), (EE_star _ ge _ _ H').
  rewrite A. destruct (Eg a' s) as [[e1 s1]|] eqn:Ea; [|reflexivity].
  assert (length s1 < length s).
  { eapply (EE_consumes _ ge); [|exact Ea]. unfold wf in H'. cbn [wfp] in H'.
    apply andb_true_iff in H'; destruct H' as [_ H'];
    apply andb_true_iff in H'; destruct H' as [Hn _]. now apply negb_true_iff. }
  rewrite (IH (length s1)) by (auto; lia). reflexivity.
Qed.
Lemma same_refl : forall a, same a a.
Proof. intros a s. reflexivity. Qed.

(** ** Literals *)
Fixpoint strip (w s : list N) : option (list N) :=
  match w, s with
  | [], _ => Some s
  | c :: w', x :: s' => if (x =? c)%N then strip w' s' else None
  | _, [] => None
  end.
(** the same up to ASCII letter case; [w] is lower-case *)
Fixpoint istrip (w s : list N) : option (list N) :=
  match w, s with
  | [], _ => Some s
  | c :: w', x :: s' => if (ascii_lower x =? c)%N then istrip w' s' else None
  | _, [] => None
  end.
Definition ret (o : option (list N)) : option (list event * list N) :=
  match o with Some r => Some ([], r) | None => None end.
Definition is_lower (c : N) : bool := ((97 <=? c) && (c <=? 122))%N.

Lemma ld_lit : forall w, ld nl drk (lit w) <= 4.
Proof.
  destruct w as [|c [|d w]]; [vm_compute; lia|vm_compute; lia|]. cbn. lia.
Qed.
Lemma wf_lit : forall w, wf (lit w) = true.
Proof.
  induction w as [|c w IH]; [reflexivity|]. destruct w as [|d w]; [reflexivity|].
  change (lit (c :: d :: w)) with (PSeq (PChar c) (lit (d :: w))).
  unfold wf in *. cbn [wfp]. rewrite IH. reflexivity.
Qed.
Lemma wf_ilit : forall w, wf (ilit w) = true.
Proof.
  induction w as [|c w IH]; [reflexivity|]. destruct w as [|d w]; [reflexivity|].
  change (ilit (c :: d :: w)) with (PSeq (ichar c) (ilit (d :: w))).
  unfold wf in *. cbn [wfp]. rewrite IH. reflexivity.
Qed.

Section BothLit.
  Variable G : rule -> pexp.
  Hypothesis GG : G = Gpeg \/ G = Ggo \/ G = Gann.
  Lemma EE_lit : forall w s, w <> [] -> EV G (lit w) s = ret (strip w s).
  Proof.
    induction w as [|c w IH]; intros s Hw; [congruence|].
    destruct w as [|d w].
    - cbn [lit strip]. rewrite (EE_char G GG). destruct s as [|x s]; [reflexivity|].
      destruct (x =? c)%N; reflexivity.
    - pose proof (wf_lit (c :: d :: w)) as HW.
      change (lit (c :: d :: w)) with (PSeq (PChar c) (lit (d :: w))) in *.
      rewrite (EE_seq G GG) by exact HW. rewrite (EE_char G GG).
      destruct s as [|x s]; [reflexivity|].
      change (strip (c :: d :: w) (x :: s)) with (if (x =? c)%N then strip (d :: w) s else None).
      destruct (x =? c)%N; [|reflexivity].
      rewrite IH by discriminate. destruct (strip (d :: w) s); reflexivity.
  Qed.
  Lemma EE_ichar : forall c s, is_lower c = true ->
    EV G (ichar c) s = ret (istrip [c] s).
  Proof.
    intros c s Hc. unfold ichar. rewrite (EE_alt G GG) by reflexivity. rewrite !(EE_char G GG).
    destruct s as [|x s]; [reflexivity|]. cbn [istrip]. unfold is_lower in Hc.
    unfold ascii_lower. destruct (N.eqb_spec x c) as [->|Hn].
    - destruct (N.leb_spec 65 c); destruct (N.leb_spec c 90); cbn [andb];
        try (rewrite N.eqb_refl; reflexivity).
      exfalso. apply andb_true_iff in Hc. rewrite !N.leb_le in Hc. lia.
    - apply andb_true_iff in Hc. rewrite !N.leb_le in Hc.
      destruct (N.eqb_spec x (c - 32)).
      + subst x. destruct (N.leb_spec 65 (c - 32)); destruct (N.leb_spec (c - 32) 90); try lia.
        cbn [andb]. replace (c - 32 + 32)%N with c by lia. rewrite N.eqb_refl. reflexivity.
      + destruct ((65 <=? x)%N && (x <=? 90)%N) eqn:Eu.
        * destruct (N.eqb_spec (x + 32) c); [lia|reflexivity].
        * destruct (N.eqb_spec x c); [lia|reflexivity].
  Qed.
  Lemma EE_ilit : forall w s, w <> [] -> forallb is_lower w = true -> EV G (ilit w) s = ret (istrip w s).
  Proof.
    induction w as [|c w IH]; intros s Hw Hl; [congruence|].
    cbn [forallb] in Hl. apply andb_true_iff in Hl; destruct Hl as [Hc Hl].
    destruct w as [|d w].
    - cbn [ilit]. apply EE_ichar. exact Hc.
    - pose proof (wf_ilit (c :: d :: w)) as HW.
      change (ilit (c :: d :: w)) with (PSeq (ichar c) (ilit (d :: w))) in *.
      rewrite (EE_seq G GG) by exact HW. rewrite EE_ichar by exact Hc.
      destruct s as [|x s]; [reflexivity|].
      change (istrip (c :: d :: w) (x :: s))
        with (if (ascii_lower x =? c)%N then istrip (d :: w) s else None).
      change (istrip [c] (x :: s)) with (if (ascii_lower x =? c)%N then Some s else None).
      destruct (ascii_lower x =? c)%N; [|reflexivity]. cbn [ret].
      rewrite IH by (discriminate || exact Hl). destruct (istrip (d :: w) s); reflexivity.
  Qed.
End BothLit.

Definition wrap (o : option (list N)) := ret o.
Ltac lits :=
  repeat first
   [ rewrite (EE_lit _ ge) by discriminate
   | rewrite (EE_ilit _ ge) by (discriminate || reflexivity)
   | rewrite (EE_alt _ ge) by reflexivity
   | rewrite (EE_sw _ ge) by reflexivity ].

Lemma mem_range : forall lo n x,
  mem x (map (fun i => (lo + N.of_nat i)%N) (seq 0 n)) = ((lo <=? x)%N && (x <? lo + N.of_nat n)%N).
Proof.
  intros lo n x. unfold mem. apply eq_true_iff_eq. rewrite existsb_exists, andb_true_iff, N.leb_le, N.ltb_lt.
  split.
  - intros (y & Hy & He). apply N.eqb_eq in He. subst y. apply in_map_iff in Hy.
    destruct Hy as (i & <- & Hi). apply in_seq in Hi. lia.
  - intros [H1 H2]. exists x. split; [|apply N.eqb_refl]. apply in_map_iff.
    exists (N.to_nat (x - lo)). split; [lia|]. apply in_seq. lia.
Qed.
Lemma digits_range : forall x, mem x digits = ((48 <=? x)%N && (x <? 58)%N).
Proof. intro x. exact (mem_range 48 10 x). Qed.
Lemma upper_range : forall x, mem x letters_upper = ((65 <=? x)%N && (x <? 91)%N).
Proof. intro x. exact (mem_range 65 26 x). Qed.
Lemma lower_range : forall x, mem x letters_lower = ((97 <=? x)%N && (x <? 123)%N).
Proof. intro x. exact (mem_range 97 26 x). Qed.

Ltac ncase :=
  repeat match goal with
  | |- context [(?x <? ?c)%N] => destruct (N.ltb_spec x c); try lia
  | |- context [(?x <=? ?c)%N] => destruct (N.leb_spec x c); try lia
  | |- context [(?x =? ?c)%N] => destruct (N.eqb_spec x c); try lia
  end; cbn [negb andb orb]; try reflexivity; try lia.

Lemma same_ident_char :
  same (PAlt (ch #"_") (PAlt az (PAlt AZ d09)))
       (PSw digits d09 (PSw letters_upper AZ (PSw #"_" (ch #"_") az))).
Proof.
  intro s.
  rewrite !(EE_alt _ ge) by reflexivity. rewrite !(EE_sw _ ge) by reflexivity.
  unfold az, AZ, d09, ch. cbn [lit runes_of].
  rewrite !(EE_range _ ge), !(EE_char _ ge).
  destruct s as [|x t]; [reflexivity|].
  rewrite digits_range, upper_range.
  cbn [mem existsb N_of_ascii runes_of]. change (N_of_ascii "_"%char) with 95%N. ncase.
Qed.


Ltac xcase x :=
  repeat match goal with
  | |- context [(x =? ?c)%N] => destruct (N.eqb_spec x c); [subst x; cbn|]
  end; try congruence.

Lemma same_cmp_sym :
  same (PAlt (lit #">=") (PAlt (lit #"<=") (PAlt (lit #"==") (PAlt (lit #"!=") (PAlt (lit #">")
          (PAlt (lit #"<") (PAlt (lit #"<>") (lit #"="))))))))
       (PAlt (lit #">=") (PAlt (lit #"<=") (PAlt (lit #"==") (PAlt (lit #"<")
          (PSw #"=" (lit #"=") (PSw #"<" (lit #"<>") (PSw #">" (lit #">") (lit #"!=")))))))).
Proof.
  intro s. lits. destruct s as [|x s]; [reflexivity|]. cbn.
  xcase x; try reflexivity; destruct s as [|y s]; try reflexivity; cbn; xcase y; reflexivity.
Qed.

Lemma mem_lower2 : forall x a, is_lower a = true ->
  mem x [a - 32; a]%N = (ascii_lower x =? a)%N.
Proof.
  intros x a Ha. unfold is_lower in Ha. apply andb_true_iff in Ha. rewrite !N.leb_le in Ha.
  unfold mem, ascii_lower. cbn [existsb].
  destruct (N.leb_spec 65 x); destruct (N.leb_spec x 90); cbn [andb]; ncase.
Qed.

Lemma same_cmp_word :
  same (PAlt (ilit #"gt") (PAlt (ilit #"lt") (PAlt (ilit #"gte") (PAlt (ilit #"lte")
          (PAlt (ilit #"eq") (ilit #"neq"))))))
       (PAlt (ilit #"gt") (PAlt (ilit #"lt")
          (PSw #"Nn" (ilit #"neq") (PSw #"Ee" (ilit #"eq") (PSw #"Ll" (ilit #"lte") (ilit #"gte")))))).
Proof.
  intro s. lits. destruct s as [|x s]; [reflexivity|].
  change #"Nn" with [110 - 32; 110]%N. change #"Ee" with [101 - 32; 101]%N.
  change #"Ll" with [108 - 32; 108]%N.
  rewrite !mem_lower2 by reflexivity. cbn. set (y := ascii_lower x). clearbody y.
  destruct (N.eqb_spec y 103) as [->|]; [cbn|].
  { repeat match goal with |- context [istrip ?a ?b] => destruct (istrip a b) end;
    destruct s as [|z s]; try reflexivity; cbn;
    destruct (ascii_lower z =? 116)%N; try reflexivity; destruct s as [|z2 s]; try reflexivity;
    destruct (ascii_lower z2 =? 101)%N; reflexivity. }
  destruct (N.eqb_spec y 108) as [->|]; [cbn|].
  { destruct s as [|z s]; try reflexivity; cbn;
    destruct (ascii_lower z =? 116)%N; try reflexivity; destruct s as [|z2 s]; try reflexivity;
    destruct (ascii_lower z2 =? 101)%N; reflexivity. }
  destruct (N.eqb_spec y 101) as [->|]; [cbn|].
  { destruct s as [|z s]; try reflexivity; cbn;
    destruct (ascii_lower z =? 113)%N; try reflexivity. }
  destruct (N.eqb_spec y 110) as [->|]; reflexivity.
Qed.

Lemma same_tfn :
  same (PAlt (lit #"true") (PAlt (lit #"false") (lit #"null")))
       (PSw #"n" (lit #"null") (PSw #"f" (lit #"false") (lit #"true"))).
Proof.
  intro s. lits. destruct s as [|x s]; [reflexivity|]. cbn.
  xcase x; try reflexivity;
  repeat match goal with
  | |- context [match s with _ => _ end] => destruct s; try reflexivity
  | |- context [(?a =? ?b)%N] => destruct (a =? b)%N; try reflexivity
  end.
Qed.

Lemma same_bool :
  same (PAlt (lit #"true") (PAlt (lit #"false") (PAlt (lit #"TRUE") (lit #"FALSE"))))
       (PSw #"F" (lit #"FALSE") (PSw #"T" (lit #"TRUE") (PSw #"f" (lit #"false") (lit #"true")))).
Proof.
  intro s. lits. destruct s as [|x s]; [reflexivity|]. cbn.
  xcase x; try reflexivity;
  repeat match goal with
  | |- context [match s with _ => _ end] => destruct s; try reflexivity
  | |- context [(?a =? ?b)%N] => destruct (a =? b)%N; try reflexivity
  end.
Qed.

(** First-rune facts of the literal rules, under the generated grammar. *)
Lemma Eg_null : forall x s, mem x #"Nn" = false -> Eg (PRule rNull) (x :: s) = None.
Proof.
  intros x s H. rewrite (EE_rule _ ge).
  change (Ggo rNull) with (PSeq (PCap (PAlt (lit #"null") (lit #"NULL"))) (PAct 27)).
  rewrite (EE_seq _ ge), (EE_cap _ ge) by reflexivity. lits.
  cbn in *. destruct (x =? 110)%N; [rewrite orb_true_r in H; discriminate|].
  destruct (x =? 78)%N; [discriminate|]. reflexivity.
Qed.
Lemma Eg_boolean : forall x s, mem x #"FTft" = false -> Eg (PRule rBoolean) (x :: s) = None.
Proof.
  intros x s H. rewrite (EE_rule _ ge). cbn [Ggo].
  rewrite (EE_seq _ ge), (EE_cap _ ge) by reflexivity. rewrite <- same_bool. lits.
  cbn in *. destruct (x =? 70)%N; [discriminate|]. destruct (x =? 84)%N; [discriminate|].
  destruct (x =? 102)%N; [discriminate|]. destruct (x =? 116)%N; [discriminate|]. reflexivity.
Qed.
Lemma Eg_string : forall x s, mem x [34; 39]%N = false -> Eg (PRule rString) (x :: s) = None.
Proof.
  intros x s H. rewrite (EE_rule _ ge). cbn [Ggo Gpeg].
  rewrite (EE_alt _ ge), !(EE_seq _ ge), !(EE_char _ ge) by reflexivity.
  cbn in *. destruct (x =? 34)%N; [discriminate|]. destruct (x =? 39)%N; [discriminate|]. reflexivity.
Qed.
Lemma Eg_integer : forall x s, mem x digits = false -> Eg (PRule rInteger) (x :: s) = None.
Proof.
  intros x s H. rewrite digits_range in H. rewrite (EE_rule _ ge). cbn [Ggo Gpeg].
  rewrite (EE_seq _ ge), (EE_cap _ ge) by reflexivity.
  unfold ch. rewrite (EE_alt _ ge) by reflexivity. rewrite (EE_lit _ ge) by discriminate.
  rewrite (EE_seq _ ge) by reflexivity. unfold d19. rewrite (EE_range _ ge). cbn.
  destruct (N.eqb_spec x 48); [subst; discriminate|].
  apply andb_false_iff in H. rewrite N.leb_gt, N.ltb_ge in H.
  destruct (N.ltb_spec x 49); [reflexivity|]. destruct (N.ltb_spec 57 x); [reflexivity|lia].
Qed.
Lemma Eg_lit_nil : Eg (PRule rNull) [] = None /\ Eg (PRule rBoolean) [] = None /\
  Eg (PRule rString) [] = None /\ Eg (PRule rInteger) [] = None.
Proof. rewrite !EV_eq. vm_compute. auto. Qed.

Lemma same_literal :
  same (PAlt (PRule rString) (PAlt (PRule rInteger) (PAlt (PRule rBoolean) (PRule rNull))))
       (PSw #"Nn" (PRule rNull) (PSw #"FTft" (PRule rBoolean)
        (PSw [34; 39]%N (PRule rString) (PRule rInteger)))).
Proof.
  intro s. lits. destruct Eg_lit_nil as (A & B & C & D0).
  destruct s as [|x s].
  { rewrite A, B, C, D0. reflexivity. }
  assert (K : forall l1 l2, (forall c, In c l1 -> mem c l2 = false) -> mem x l1 = true -> mem x l2 = false).
  { intros l1 l2 H Hx. apply H. unfold mem in Hx. apply existsb_exists in Hx.
    destruct Hx as (c & Hc & Hcx). apply N.eqb_eq in Hcx. subst c. exact Hc. }
  assert (KN : forall l1 l2, forallb (fun c => negb (mem c l2)) l1 = true -> mem x l1 = true -> mem x l2 = false).
  { intros l1 l2 H Hx. apply (K l1 l2); [|exact Hx]. intros c Hc.
    rewrite forallb_forall in H. apply negb_true_iff. now apply H. }
  destruct (mem x #"Nn") eqn:HN.
  { rewrite Eg_string, Eg_integer, Eg_boolean; auto; eapply KN; try exact HN; reflexivity. }
  destruct (mem x #"FTft") eqn:HF.
  { rewrite Eg_string, Eg_integer, Eg_null; auto; try (eapply KN; try exact HF; reflexivity).
    destruct (Eg (PRule rBoolean) (x :: s)) as [[? ?]|]; reflexivity. }
  destruct (mem x [34; 39]%N) eqn:HS.
  { rewrite Eg_integer, Eg_boolean, Eg_null; auto; try (eapply KN; try exact HS; reflexivity).
    destruct (Eg (PRule rString) (x :: s)) as [[? ?]|]; reflexivity. }
  rewrite Eg_string, Eg_boolean, Eg_null; auto.
  destruct (Eg (PRule rInteger) (x :: s)) as [[? ?]|]; reflexivity.
Qed.

Lemma same_space :
  same (PAlt (PChar 32) (PAlt (PChar 9) (PRule rEndOfLine)))
       (PSw [9]%N (PChar 9) (PSw [32]%N (PChar 32) (PRule rEndOfLine))).
Proof.
  intro s. lits. rewrite !(EE_char _ ge). destruct s as [|x s]; [reflexivity|].
  assert (H : forall c, c = 9%N \/ c = 32%N -> Eg (PRule rEndOfLine) (c :: s) = None).
  { intros c Hc. rewrite (EE_rule _ ge). cbn [Ggo Gpeg]. lits.
    rewrite (EE_seq _ ge) by reflexivity. rewrite !(EE_char _ ge).
    destruct Hc as [->| ->]; reflexivity. }
  cbn. destruct (N.eqb_spec x 9) as [->|]; [reflexivity|].
  destruct (N.eqb_spec x 32) as [->|]; reflexivity.
Qed.

Lemma same_rule : forall r, same (Gpeg r) (Ggo r).
Proof.
  assert (R := same_refl).
  destruct r; try apply same_refl; cbn [Gpeg Ggo].
  - apply same_seq; try reflexivity; [apply R|].
    apply same_seq; try reflexivity; [|apply R]. apply same_cap; try reflexivity.
    apply same_seq; try reflexivity; [apply R|]. apply same_star; try reflexivity.
    apply same_ident_char.
  - repeat (apply same_alt; try reflexivity); [| |apply R];
      (apply same_seq; try reflexivity; [apply R|]; apply same_seq; try reflexivity; [|apply R];
       apply same_cap; try reflexivity; [apply same_cmp_sym || apply same_cmp_word]).
  - apply same_seq; try reflexivity; [apply R|]. apply same_seq; try reflexivity; [|apply R].
    apply same_cap; try reflexivity.
    apply same_alt; try reflexivity; [apply R|]. apply same_alt; try reflexivity; [apply R|].
    apply same_alt; try reflexivity.
    + apply same_seq; try reflexivity; [apply R|]. apply same_seq; try reflexivity; [apply R|].
      apply same_tfn.
    + do 4 (apply same_seq; try reflexivity; [apply R|]). apply same_tfn.
  - apply same_literal.
  - apply same_seq; try reflexivity; [|apply R]. apply same_cap; try reflexivity. apply same_bool.
  - apply same_space.
Qed.

Lemma peg_go : forall f e s r, wf e = true -> frun Gpeg f e s = Some r -> Eg e s = r.
Proof.
  induction f as [|f IH]; intros e s r Hw H; [discriminate|].
  assert (Hsub := Hw). unfold wf in Hsub.
  destruct e; cbn [frun] in H; cbn [wfp] in Hsub; apply andb_true_iff in Hsub; destruct Hsub as [_ Hsub].
  - rewrite (EE_char _ ge). congruence.
  - rewrite (EE_range _ ge). congruence.
  - rewrite (EE_dot _ ge). congruence.
  - rewrite (EE_seq _ ge) by exact Hw. apply andb_true_iff in Hsub; destruct Hsub as [Wa Wb].
    destruct (frun Gpeg f e1 s) as [[[ev1 s1]|]|] eqn:E1; try discriminate.
    + rewrite (IH _ _ _ Wa E1).
      destruct (frun Gpeg f e2 s1) as [[[ev2 s2]|]|] eqn:E2; try discriminate;
        rewrite (IH _ _ _ Wb E2); congruence.
    + rewrite (IH _ _ _ Wa E1). congruence.
  - rewrite (EE_alt _ ge) by exact Hw. apply andb_true_iff in Hsub; destruct Hsub as [Wa Wb].
    destruct (frun Gpeg f e1 s) as [[[ev1 s1]|]|] eqn:E1; try discriminate;
      rewrite (IH _ _ _ Wa E1); [congruence|]. exact (IH _ _ _ Wb H).
  - rewrite (EE_star _ ge) by exact Hw. apply andb_true_iff in Hsub; destruct Hsub as [Wn Wa].
    destruct (frun Gpeg f e s) as [[[ev1 s1]|]|] eqn:E1; try discriminate;
      rewrite (IH _ _ _ Wa E1); [|congruence].
    destruct (frun Gpeg f (PStar e) s1) as [[[ev2 s2]|]|] eqn:E2; try discriminate;
        rewrite (IH _ _ _ Hw E2); congruence.
  - rewrite (EE_opt _ ge) by exact Hw.
    destruct (frun Gpeg f e s) as [[[ev1 s1]|]|] eqn:E1; try discriminate;
      rewrite (IH _ _ _ Hsub E1); congruence.
  - rewrite (EE_not _ ge) by exact Hw.
    destruct (frun Gpeg f e s) as [[[ev1 s1]|]|] eqn:E1; try discriminate;
      rewrite (IH _ _ _ Hsub E1); congruence.
  - rewrite (EE_cap _ ge) by exact Hw.
    destruct (frun Gpeg f e s) as [[[ev1 s1]|]|] eqn:E1; try discriminate;
      rewrite (IH _ _ _ Hsub E1); congruence.
  - rewrite (EE_act _ ge). congruence.
  - rewrite (EE_rule _ ge). rewrite <- same_rule. apply IH; [apply wf_peg|exact H].
  - rewrite (EE_sw _ ge) by exact Hw. apply andb_true_iff in Hsub; destruct Hsub as [Wa Wb].
    destruct s as [|x t]; [exact (IH _ _ _ Wb H)|].
    destruct (mem x cs); [exact (IH _ _ _ Wa H)|exact (IH _ _ _ Wb H)].
Qed.

Lemma Ep_Eg : forall e s, wf e = true -> Eg e s = Ep e s.
Proof. intros e s H. eapply peg_go; [exact H|]. apply (EE_enough _ ppe). exact H. Qed.

(** ** The ghost actions *)
Definition ghost (e : event) : bool := match e with EAct n => Nat.leb 30 n | EText _ => false end.
Definition erase (l : list event) : list event := filter (fun e => negb (ghost e)) l.
Definition erz (o : option (list event * list N)) : option (list event * list N) :=
  match o with Some (ev, r) => Some (erase ev, r) | None => None end.
Lemma erase_app : forall a b, erase (a ++ b) = erase a ++ erase b.
Proof. intros. apply filter_app. Qed.

Lemma erz_ann : forall r s, erz (Ep (Gpeg r) s) = erz (Ep (Gann r) s).
Proof.
  intros r s. destruct r; try reflexivity; cbn [Gpeg Gann].
  - do 2 rewrite (EE_seq _ ppe) by reflexivity. destruct (Ep (PRule rPrimaryExpression) s) as [[e1 s1]|]; [|reflexivity].
    do 2 rewrite (EE_opt _ ppe) by reflexivity.
    do 2 (rewrite (EE_seq _ ppe (PRule r_)) by reflexivity). destruct (Ep (PRule r_) s1) as [[e2 s2]|]; [|reflexivity].
    do 2 (rewrite (EE_seq _ ppe (PCap _)) by reflexivity). destruct (Ep (PCap _) s2) as [[e3 s3]|]; [|reflexivity].
    do 2 (rewrite (EE_seq _ ppe (PAct _)) by reflexivity). rewrite (EE_act _ ppe).
    do 2 (rewrite (EE_seq _ ppe (PRule r_)) by reflexivity). destruct (Ep (PRule r_) s3) as [[e4 s4]|]; [|reflexivity].
    do 2 (rewrite (EE_seq _ ppe (PAlt _ _)) by reflexivity). do 2 rewrite (EE_alt _ ppe) by reflexivity.
    destruct (Ep (PSeq (PRule rValue) _) s4) as [[e5 s5]|]; [reflexivity|].
    do 2 (rewrite (EE_seq _ ppe (ch _)) by reflexivity). destruct (Ep (ch _) s4) as [[e6 s6]|]; [|reflexivity].
    do 2 (rewrite (EE_seq _ ppe (PRule r_)) by reflexivity). destruct (Ep (PRule r_) s6) as [[e7 s7]|]; [|reflexivity].
    do 2 (rewrite (EE_seq _ ppe (PRule rValue)) by reflexivity). destruct (Ep (PRule rValue) s7) as [[e8 s8]|]; [|reflexivity].
    do 2 (rewrite (EE_seq _ ppe (PRule r_)) by reflexivity). destruct (Ep (PRule r_) s8) as [[e9 s9]|]; [|reflexivity].
    do 2 (rewrite (EE_seq _ ppe (ch _)) by reflexivity). destruct (Ep (ch _) s9) as [[e10 s10]|]; [|reflexivity].
    do 2 (rewrite (EE_seq _ ppe (PRule r_)) by reflexivity). destruct (Ep (PRule r_) s10) as [[e11 s11]|]; [|reflexivity].
    do 2 (rewrite (EE_seq _ ppe (PRule rValue)) by reflexivity). destruct (Ep (PRule rValue) s11) as [[e12 s12]|]; [|reflexivity].
    do 2 (rewrite (EE_seq _ ppe (PRule r_)) by reflexivity). destruct (Ep (PRule r_) s12) as [[e13 s13]|]; [|reflexivity].
    rewrite (EE_seq _ ppe (ch _)) by reflexivity. destruct (Ep (ch _) s13) as [[e14 s14]|]; [|reflexivity].
    rewrite !(EE_act _ ppe). cbn [erz]. rewrite !erase_app. cbn. now rewrite !app_nil_r.
  - do 4 rewrite (EE_alt _ ppe) by reflexivity. destruct (Ep (PRule rIdentifierReference) s) as [[e1 s1]|]; [reflexivity|].
    rewrite (EE_seq _ ppe), (EE_act _ ppe), (EE_seq _ ppe) by reflexivity.
    destruct (Ep (PRule rJsonReference) s) as [[e2 s2]|]; [|reflexivity]. rewrite (EE_act _ ppe).
    cbn [erz]. rewrite !erase_app. cbn. now rewrite app_nil_r.
Qed.

Lemma ann_peg : forall f e s r, wf e = true -> frun Gann f e s = Some r -> erz (Ep e s) = erz r.
Proof.
  induction f as [|f IH]; intros e s r Hw H; [discriminate|].
  assert (Hsub := Hw). unfold wf in Hsub.
  destruct e; cbn [frun] in H; cbn [wfp] in Hsub; apply andb_true_iff in Hsub; destruct Hsub as [_ Hsub].
  - rewrite (EE_char _ ppe). congruence.
  - rewrite (EE_range _ ppe). congruence.
  - rewrite (EE_dot _ ppe). congruence.
  - rewrite (EE_seq _ ppe) by exact Hw. apply andb_true_iff in Hsub; destruct Hsub as [Wa Wb].
    destruct (frun Gann f e1 s) as [[[ev1 s1]|]|] eqn:E1; try discriminate; apply IH in E1; auto;
      destruct (Ep e1 s) as [[ev1' s1']|]; cbn [erz] in E1; try discriminate; [|congruence].
    injection E1 as Q1 ->.
    destruct (frun Gann f e2 s1) as [[[ev2 s2]|]|] eqn:E2; try discriminate; apply IH in E2; auto;
      destruct (Ep e2 s1) as [[ev2' s2']|]; cbn [erz] in E2; try discriminate; [|congruence].
    injection E2 as Q2 ->. injection H as <-. cbn [erz]. now rewrite !erase_app, Q1, Q2.
  - rewrite (EE_alt _ ppe) by exact Hw. apply andb_true_iff in Hsub; destruct Hsub as [Wa Wb].
    destruct (frun Gann f e1 s) as [[[ev1 s1]|]|] eqn:E1; try discriminate; apply IH in E1; auto;
      destruct (Ep e1 s) as [[ev1' s1']|]; cbn [erz] in E1; try discriminate.
    + injection H as <-. exact E1.
    + exact (IH _ _ _ Wb H).
  - rewrite (EE_star _ ppe) by exact Hw. apply andb_true_iff in Hsub; destruct Hsub as [Wn Wa].
    destruct (frun Gann f e s) as [[[ev1 s1]|]|] eqn:E1; try discriminate; apply IH in E1; auto;
      destruct (Ep e s) as [[ev1' s1']|]; cbn [erz] in E1; try discriminate; [|congruence].
    injection E1 as Q1 ->.
    destruct (frun Gann f (PStar e) s1) as [[[ev2 s2]|]|] eqn:E2; try discriminate; apply IH in E2; auto;
      destruct (Ep (PStar e) s1) as [[ev2' s2']|]; cbn [erz] in E2; try discriminate; [|congruence].
    injection E2 as Q2 ->. injection H as <-. cbn [erz]. now rewrite !erase_app, Q1, Q2.
  - rewrite (EE_opt _ ppe) by exact Hw.
    destruct (frun Gann f e s) as [[[ev1 s1]|]|] eqn:E1; try discriminate; apply IH in E1; auto;
      destruct (Ep e s) as [[ev1' s1']|]; cbn [erz] in E1; try discriminate; injection H as <-; [exact E1|reflexivity].
  - rewrite (EE_not _ ppe) by exact Hw.
    destruct (frun Gann f e s) as [[[ev1 s1]|]|] eqn:E1; try discriminate; apply IH in E1; auto;
      destruct (Ep e s) as [[ev1' s1']|]; cbn [erz] in E1; try discriminate; injection H as <-; reflexivity.
  - rewrite (EE_cap _ ppe) by exact Hw.
    destruct (frun Gann f e s) as [[[ev1 s1]|]|] eqn:E1; try discriminate; apply IH in E1; auto;
      destruct (Ep e s) as [[ev1' s1']|]; cbn [erz] in E1; try discriminate; [|congruence].
    injection E1 as Q1 ->. injection H as <-. cbn [erz]. now rewrite !erase_app, Q1.
  - rewrite (EE_act _ ppe). congruence.
  - rewrite (EE_rule _ ppe). rewrite erz_ann. apply IH; [apply wf_ann|exact H].
  - rewrite (EE_sw _ ppe) by exact Hw. apply andb_true_iff in Hsub; destruct Hsub as [Wa Wb].
    destruct s as [|x t]; [exact (IH _ _ _ Wb H)|].
    destruct (mem x cs); [exact (IH _ _ _ Wa H)|exact (IH _ _ _ Wb H)].
Qed.

Fixpoint noghost (e : pexp) : bool :=
  match e with
  | PAct n => negb (Nat.leb 30 n)
  | PSeq a b | PAlt a b | PSw _ a b => noghost a && noghost b
  | PStar a | POpt a | PNot a | PCap a => noghost a
  | _ => true
  end.
Lemma noghost_peg : forall r, noghost (Gpeg r) = true.
Proof. destruct r; vm_compute; reflexivity. Qed.
Lemma erase_id : forall f e s ev r, noghost e = true -> frun Gpeg f e s = Some (Some (ev, r)) -> erase ev = ev.
Proof.
  induction f as [|f IH]; intros e s ev r Hg H; [discriminate|].
  destruct e; cbn [frun] in H; cbn [noghost] in Hg; rewrite ?andb_true_iff in Hg.
  - destruct s as [|x t]; [discriminate|]. destruct (x =? c)%N; [injection H as <- _; reflexivity|discriminate].
  - destruct s as [|x t]; [discriminate|]. destruct (_ || _)%bool; [discriminate|injection H as <- _; reflexivity].
  - destruct s as [|x t]; [discriminate|injection H as <- _; reflexivity].
  - destruct (frun Gpeg f e1 s) as [[[ev1 s1]|]|] eqn:E1; try discriminate.
    destruct (frun Gpeg f e2 s1) as [[[ev2 s2]|]|] eqn:E2; try discriminate. injection H as <- _.
    rewrite erase_app, (IH _ _ _ _ (proj1 Hg) E1), (IH _ _ _ _ (proj2 Hg) E2). reflexivity.
  - destruct (frun Gpeg f e1 s) as [[[ev1 s1]|]|] eqn:E1; try discriminate.
    + injection H as <- <-. exact (IH _ _ _ _ (proj1 Hg) E1).
    + exact (IH _ _ _ _ (proj2 Hg) H).
  - destruct (frun Gpeg f e s) as [[[ev1 s1]|]|] eqn:E1; try discriminate; [|injection H as <- _; reflexivity].
    destruct (frun Gpeg f (PStar e) s1) as [[[ev2 s2]|]|] eqn:E2; try discriminate. injection H as <- _.
    rewrite erase_app, (IH _ _ _ _ Hg E1), (IH (PStar e) _ _ _ Hg E2). reflexivity.
  - destruct (frun Gpeg f e s) as [[[ev1 s1]|]|] eqn:E1; try discriminate; injection H as <- _; [|reflexivity]. exact (IH _ _ _ _ Hg E1).
  - destruct (frun Gpeg f e s) as [[[ev1 s1]|]|] eqn:E1; try discriminate. injection H as <- _. reflexivity.
  - destruct (frun Gpeg f e s) as [[[ev1 s1]|]|] eqn:E1; try discriminate. injection H as <- _.
    rewrite erase_app, (IH _ _ _ _ Hg E1). reflexivity.
  - injection H as <- _. cbn [erase filter ghost]. now rewrite Hg.
  - exact (IH _ _ _ _ (noghost_peg _) H).
  - destruct Hg. destruct s as [|x t]; [eapply IH; eauto|]. destruct (mem x cs); [exact (IH e1 _ _ _ H0 H)|exact (IH e2 _ _ _ H1 H)].
Qed.

(** the published grammar computes the annotated one without the ghosts *)
Lemma Ep_erase : forall e s, wf e = true -> noghost e = true -> Ep e s = erz (E e s).
Proof.
  intros e s Hw Hg. rewrite <- (ann_peg _ e s _ Hw (EE_enough _ pe e s Hw)).
  pose proof (EE_enough _ ppe e s Hw) as HE. destruct (Ep e s) as [[ev r]|]; [|reflexivity]. cbn [erz].
  now rewrite (erase_id _ _ _ _ _ Hg HE).
Qed.
Lemma E_Eg : forall e s, wf e = true -> noghost e = true -> Eg e s = erz (E e s).
Proof. intros e s Hw Hg. rewrite Ep_Eg by exact Hw. now apply Ep_erase. Qed.
