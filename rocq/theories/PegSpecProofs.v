(** [frun], and with it the machine, computes [matches]. *)
From Verif Require Import Base Peg PegSpec PegProofs MachineProofs Grammar Node Vocab Tree Parse GrammarProofs.

Lemma matches_suffix : forall G e s o, matches G e s o -> match o with Some (_, r) => exists p, s = p ++ r | None => True end.
Proof.
  intros G e s o H. induction H; auto; try (now exists []); try (now exists [c]); try (now exists [x]).
  - destruct IHmatches1 as (p & ->). destruct IHmatches2 as (p2 & ->). exists (p ++ p2). now rewrite app_assoc.
  - destruct IHmatches1 as (p & ->). destruct IHmatches2 as (p2 & ->). exists (p ++ p2). now rewrite app_assoc.
Qed.
Lemma frun_matches : forall G f e s o, frun G f e s = Some o -> matches G e s o.
Proof.
  intro G. induction f as [|f IH]; intros e s o H; [discriminate|]. destruct e; cbn [frun] in H.
  - destruct s as [|x t]; injection H as <-; [constructor|]. destruct (N.eqb_spec x c); [subst|]; now constructor.
  - destruct s as [|x t]; injection H as <-; [constructor|].
    destruct (N.ltb_spec x lo); cbn [orb]; [constructor; lia|]. destruct (N.ltb_spec hi x); constructor; lia.
  - destruct s as [|x t]; injection H as <-; constructor.
  - destruct (frun G f e1 s) as [[[v1 s1]|]|] eqn:E1; try discriminate; apply IH in E1; [|injection H as <-; now apply m_seq_no1].
    destruct (frun G f e2 s1) as [[[v2 s2]|]|] eqn:E2; try discriminate; apply IH in E2; injection H as <-.
    + eapply m_seq_ok; eassumption.
    + eapply m_seq_no2; eassumption.
  - destruct (frun G f e1 s) as [[[v1 s1]|]|] eqn:E1; try discriminate; apply IH in E1.
    + injection H as <-. now apply m_alt_1.
    + apply m_alt_2; auto.
  - destruct (frun G f e s) as [[[v1 s1]|]|] eqn:E1; try discriminate; apply IH in E1; [|injection H as <-; now apply m_star_0].
    destruct (frun G f (PStar e) s1) as [[[v2 s2]|]|] eqn:E2; try discriminate; apply IH in E2; injection H as <-.
    + eapply m_star_1; eassumption.
    + exfalso. clear -E2. remember (PStar e) as x eqn:Hx. remember None as o eqn:Ho. induction E2; try discriminate.
  - destruct (frun G f e s) as [[[v1 s1]|]|] eqn:E1; try discriminate; apply IH in E1; injection H as <-.
    + now apply m_opt_1.
    + now apply m_opt_0.
  - destruct (frun G f e s) as [[[v1 s1]|]|] eqn:E1; try discriminate; apply IH in E1; injection H as <-.
    + eapply m_not_no; eassumption.
    + now apply m_not_ok.
  - destruct (frun G f e s) as [[[v1 s1]|]|] eqn:E1; try discriminate; apply IH in E1; injection H as <-; [|now apply m_cap_no].
    destruct (matches_suffix _ _ _ _ E1) as (p & ->). unfold consumed. rewrite app_length, Nat.add_sub, firstn_app, Nat.sub_diag, firstn_all, firstn_O, app_nil_r.
    now apply m_cap_ok.
  - injection H as <-. constructor.
  - constructor. auto.
  - destruct s as [|x t]; [apply m_sw_nil; auto|]. destruct (mem x cs) eqn:Hm; [apply m_sw_in|apply m_sw_out]; auto.
Qed.
Lemma matches_det : forall G e s o, matches G e s o -> forall o', matches G e s o' -> o' = o.
Proof.
  intros G e s o H. induction H; intros o' H'; inversion H'; subst; try reflexivity; try congruence; try lia;
    repeat match goal with
    | IH : forall o', matches G ?e ?s o' -> o' = _, K : matches G ?e ?s _ |- _ =>
        first [apply IH in K; discriminate K | apply IH in K; injection K; clear K; intros; subst | apply IH in K; subst]
    end; try reflexivity; try congruence.
  rewrite H1 in H2. apply IHmatches in H2. injection H2 as -> ->. apply app_inv_tail in H1. now subst.
Qed.

(** ** The machine *)
Definition mstep (G : rule -> pexp) (buf : list N) (rec : pexp -> mstate -> mres) (e : pexp) (s : mstate) : mres :=
      match e with
      | PChar c =>
          match nth_error buf (mpos s) with
          | None => MPanic
          | Some x => if (x =? c)%N then MR true (madv s) else MR false s
          end
      | PRange lo hi =>
          match nth_error buf (mpos s) with
          | None => MPanic
          | Some x => if (x <? lo)%N || (hi <? x)%N then MR false s else MR true (madv s)
          end
      | PDot =>
          match nth_error buf (mpos s) with
          | None => MPanic
          | Some x => if (x =? endSymbol)%N then MR false s else MR true (madv s)
          end
      | PSeq a b =>
          match rec a s with
          | MR true s1 => rec b s1
          | r => r
          end
      | PAlt a b =>
          match rec a s with
          | MR false s1 => rec b (mrestore s s1)
          | r => r
          end
      | PStar a =>
          match rec a s with
          | MR true s1 => rec (PStar a) s1
          | MR false s1 => MR true (mrestore s s1)
          | r => r
          end
      | POpt a =>
          match rec a s with
          | MR false s1 => MR true (mrestore s s1)
          | r => r
          end
      | PNot a =>
          match rec a s with
          | MR true s1 => MR false s1
          | MR false s1 => MR true (mrestore s s1)
          | r => r
          end
      | PCap a =>
          match rec a s with
          | MR true s1 => MR true (madd TPegText (mpos s) s1)
          | r => r
          end
      | PAct n => MR true (madd (TAct n) (mpos s) s)
      | PRule r =>
          match rec (G r) s with
          | MR true s1 => MR true (madd (TRule r) (mpos s) s1)
          | MR false s1 => MR false (mrestore s s1)
          | x => x
          end
      | PSw cs a d =>
          match nth_error buf (mpos s) with
          | None => MPanic
          | Some x => if mem x cs then rec a s else rec d s
          end
      end.
Lemma mrun_S : forall G buf f e s, mrun G buf (S f) e s = mstep G buf (mrun G buf f) e s.
Proof. reflexivity. Qed.
Lemma mrun_mono : forall G buf f e s, mrun G buf f e s <> MFuel -> mrun G buf (S f) e s = mrun G buf f e s.
Proof.
  intros G buf. induction f as [|f IH]; intros e s H; [now destruct H|].
  rewrite (mrun_S _ _ (S f)). rewrite (mrun_S _ _ f) in H |- *. destruct e; cbn [mstep] in *; try reflexivity.
  - destruct (mrun G buf f e1 s) as [| |[|] s1] eqn:E1; try congruence; rewrite (IH e1 s) by congruence; rewrite E1; auto.
  - destruct (mrun G buf f e1 s) as [| |[|] s1] eqn:E1; try congruence; rewrite (IH e1 s) by congruence; rewrite E1; auto.
  - destruct (mrun G buf f e s) as [| |[|] s1] eqn:E1; try congruence; rewrite (IH e s) by congruence; rewrite E1; auto.
  - destruct (mrun G buf f e s) as [| |[|] s1] eqn:E1; try congruence; rewrite (IH e s) by congruence; rewrite E1; auto.
  - destruct (mrun G buf f e s) as [| |[|] s1] eqn:E1; try congruence; rewrite (IH e s) by congruence; rewrite E1; auto.
  - destruct (mrun G buf f e s) as [| |[|] s1] eqn:E1; try congruence; rewrite (IH e s) by congruence; rewrite E1; auto.
  - destruct (mrun G buf f (G r) s) as [| |[|] s1] eqn:E1; try congruence; rewrite (IH (G r) s) by congruence; rewrite E1; auto.
  - destruct (nth_error buf (mpos s)); [|reflexivity]. destruct (mem n cs); now apply IH.
Qed.
Lemma mrun_mono_le : forall G buf e s f f', f <= f' -> mrun G buf f e s <> MFuel -> mrun G buf f' e s = mrun G buf f e s.
Proof.
  intros G buf e s f f' H Hn. induction H as [|f' H IH]; [reflexivity|]. rewrite mrun_mono; congruence.
Qed.

(** the machine finds what the standard semantics says, from any state *)
Theorem machine_matches : forall G q f e s, valid_runes q -> (forall r, pok (G r) = true) -> pok e = true -> minv q s ->
  match mrun G (q ++ [endSymbol]) f e s with
  | MFuel => True
  | MPanic => False
  | MR false s' => matches G e (skipn (mpos s) q) None /\ minv q s' /\ mext s s'
  | MR true s' => matches G e (skipn (mpos s) q) (Some (toks_events q (new_toks s s'), skipn (mpos s') q)) /\ minv q s' /\ mext s s'
  end.
Proof.
  intros G q f e s Hq HG He Hi. pose proof (mrun_frun G q Hq HG f e s He Hi) as HS. unfold simulates in HS.
  destruct (frun G f e (skipn (mpos s) q)) as [[[ev r]|]|] eqn:HF.
  - apply frun_matches in HF. destruct HS as (s' & -> & H1 & H2 & H3 & H4). rewrite H3, H4. auto.
  - apply frun_matches in HF. destruct HS as (s' & -> & H1 & H2). auto.
  - now rewrite HS.
Qed.
