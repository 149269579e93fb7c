(** strconv.Quote and decimal printing meet their specifications. *)
From Verif Require Import Base Node Vocab Tree Parse Build BuildProofs QuoteSpec.

Lemma hexdigit_ok : forall d, (d < 16)%N -> hex_digit (hexdigit d) = Some d.
Proof.
  intros d H. unfold hexdigit, hex_digit. destruct (N.ltb_spec d 10).
  - rewrite (proj2 (N.leb_le 48 (48 + d))) by lia. rewrite (proj2 (N.leb_le (48 + d) 57)) by lia. cbn [andb]. f_equal. lia.
  - rewrite (proj2 (N.leb_gt (87 + d) 57)) by lia. rewrite andb_false_r.
    rewrite (proj2 (N.leb_le 97 (87 + d))) by lia. rewrite (proj2 (N.leb_le (87 + d) 102)) by lia. cbn [andb]. f_equal. lia.
Qed.
Lemma hex_value_app : forall a b acc, hex_value acc (a ++ b) = match hex_value acc a with Some v => hex_value v b | None => None end.
Proof. induction a as [|c a IH]; intros b acc; [reflexivity|]. cbn. destruct (hex_digit c); [apply IH|reflexivity]. Qed.
Lemma hex_ok : forall k n, (n < 16 ^ N.of_nat k)%N -> hex_value 0 (hex k n) = Some n /\ length (hex k n) = k.
Proof.
  induction k as [|k IH]; intros n H.
  - cbn in H. assert (n = 0%N) as -> by lia. split; reflexivity.
  - rewrite Nat2N.inj_succ, N.pow_succ_r' in H. destruct (IH (n / 16)%N) as [A B]; [apply N.div_lt_upper_bound; lia|].
    cbn [hex]. rewrite hex_value_app, A, app_length, B. cbn [hex_value length].
    rewrite hexdigit_ok by (apply N.mod_lt; lia). split; [|lia]. f_equal. symmetry. now apply N.div_mod.
Qed.
Lemma hex_digits : forall k n, Forall (fun c => (48 <= c <= 57)%N \/ (97 <= c <= 102)%N) (hex k n).
Proof.
  induction k as [|k IH]; intro n; [constructor|]. cbn [hex]. apply Forall_app. split; [apply IH|]. constructor; [|constructor].
  assert (M : (n mod 16 < 16)%N) by (apply N.mod_lt; lia). revert M. generalize (n mod 16)%N. intros d M. unfold hexdigit. destruct (N.ltb_spec d 10); lia.
Qed.

Section Quote.
  Variable ip : N -> bool.
  Lemma quote_rune_ok : forall c, (c < 4294967296)%N -> spells ip c (quote_rune ip c).
  Proof.
    intros c Hc. unfold quote_rune.
    destruct (N.eqb_spec c 34) as [->|H34]; [now apply sp_mark; left|].
    destruct (N.eqb_spec c 92) as [->|H92]; [now apply sp_mark; right|]. cbn [orb].
    destruct (ip c) eqn:Hp; [now apply sp_plain|].
    assert (E : forall k t, c = k -> In (k, t) escapes -> spells ip c (#"\" ++ t)) by (intros k t <- HI; now apply sp_escape).
    destruct (N.eqb_spec c 7) as [H7|H7]; [now apply (E 7%N #"a"); [|unfold escapes; auto 8 with datatypes]|].
    destruct (N.eqb_spec c 8) as [H8|H8]; [now apply (E 8%N #"b"); [|unfold escapes; auto 10 with datatypes]|].
    destruct (N.eqb_spec c 12) as [H12|H12]; [now apply (E 12%N #"f"); [|unfold escapes; auto 10 with datatypes]|].
    destruct (N.eqb_spec c 10) as [H10|H10]; [now apply (E 10%N #"n"); [|unfold escapes; auto 10 with datatypes]|].
    destruct (N.eqb_spec c 13) as [H13|H13]; [now apply (E 13%N #"r"); [|unfold escapes; auto 10 with datatypes]|].
    destruct (N.eqb_spec c 9) as [H9|H9]; [now apply (E 9%N #"t"); [|unfold escapes; auto 10 with datatypes]|].
    destruct (N.eqb_spec c 11) as [H11|H11]; [now apply (E 11%N #"v"); [|unfold escapes; auto 10 with datatypes]|].
    destruct (N.ltb_spec c 32) as [H32|H32]; [|destruct (N.eqb_spec c 127) as [H127|H127]]; cbn [orb].
    - destruct (hex_ok 2 c) as [A B]; [cbn; lia|]. apply sp_x; auto.
      intros t K. unfold escapes in K. cbn in K. repeat (destruct K as [K|K]; [injection K as K _; congruence|]). exact K.
    - destruct (hex_ok 2 c) as [A B]; [cbn; lia|]. apply sp_x; auto.
      intros t K. unfold escapes in K. cbn in K. repeat (destruct K as [K|K]; [injection K as K _; congruence|]). exact K.
    - destruct (N.ltb_spec c 65536) as [HU|HU].
      + destruct (hex_ok 4 c) as [A B]; [cbn; lia|]. apply sp_u; auto.
      + destruct (hex_ok 8 c) as [A B]; [cbn; lia|]. apply sp_U; auto.
  Qed.
  Lemma quoted_ok : forall s, Forall (fun c => (c < 4294967296)%N) s -> literal ip s (quoted ip s).
  Proof.
    intros s H. exists (concat (map (quote_rune ip) s)). split; [|reflexivity]. induction H as [|c s Hc Hs IH]; [constructor|].
    cbn [map concat]. constructor; [now apply quote_rune_ok|exact IH].
  Qed.
  Lemma quoted_valid : forall s, valid_runes s -> literal ip s (quoted ip s).
  Proof. intros s H. apply quoted_ok. eapply Forall_impl; [|exact H]. cbv beta. unfold endSymbol. intros; lia. Qed.

  (** a literal of printable characters has no control characters *)
  Hypothesis ip_control : forall c, ip c = true -> control c = false.
  Lemma hexv_controls : forall ds acc v, hex_value acc ds = Some v -> forallb (fun c => negb (control c)) ds = true.
  Proof.
    induction ds as [|c ds IH]; intros acc v H; [reflexivity|]. cbn [hex_value] in H. destruct (hex_digit c) eqn:E; [|discriminate].
    cbn [forallb]. rewrite (IH _ _ H), andb_true_r. unfold hex_digit in E. unfold control.
    destruct (N.leb_spec 48 c), (N.leb_spec c 57), (N.leb_spec 97 c), (N.leb_spec c 102); cbn [andb] in E; try discriminate;
      (destruct (N.ltb_spec c 32); [lia|]); (destruct (N.eqb_spec c 127); [lia|]); reflexivity.
  Qed.
  Lemma spells_controls : forall c t, spells ip c t -> forallb (fun c => negb (control c)) t = true.
  Proof.
    intros c t H. destruct H as [c H1 H2 H3|c [->| ->]|c t H1 H2|c ds H1 H2 H3 H4 H5|c ds H1 H2 H3 H4 H5 H6 H7|c ds H1 H2 H3 H4]; try reflexivity.
    - cbn. now rewrite (ip_control c H1).
    - unfold escapes in H2. cbn in H2. repeat (destruct H2 as [H2|H2]; [injection H2 as _ <-; reflexivity|]). destruct H2.
    - rewrite forallb_app, (hexv_controls _ _ _ H5). reflexivity.
    - rewrite forallb_app, (hexv_controls _ _ _ H7). reflexivity.
    - rewrite forallb_app, (hexv_controls _ _ _ H4). reflexivity.
  Qed.
  Lemma literal_controls : forall s l, literal ip s l -> forallb (fun c => negb (control c)) l = true.
  Proof.
    intros s l (t & H & ->). cbn [forallb]. rewrite forallb_app. cbn [forallb]. rewrite andb_true_r. cbn.
    induction H as [|c s t u Hc _ IH]; [reflexivity|]. rewrite forallb_app, IH, (spells_controls _ _ Hc). reflexivity.
  Qed.
End Quote.

(** ** A literal stands for one text only *)
(** the character a spelling begins with, and what follows *)
Definition first_char (l : list N) : option (N * list N) :=
  match l with
  | [] => None
  | c :: r =>
      if (c =? 92)%N then
        match r with
        | k :: r' =>
            let hexn n := match hex_value 0 (firstn n r') with Some v => Some (v, skipn n r') | None => None end in
            if (k =? 120)%N then hexn 2 else if (k =? 117)%N then hexn 4 else if (k =? 85)%N then hexn 8
            else if (k =? 97)%N then Some (7%N, r') else if (k =? 98)%N then Some (8%N, r') else if (k =? 102)%N then Some (12%N, r')
            else if (k =? 110)%N then Some (10%N, r') else if (k =? 114)%N then Some (13%N, r') else if (k =? 116)%N then Some (9%N, r')
            else if (k =? 118)%N then Some (11%N, r') else Some (k, r')
        | [] => None
        end
      else Some (c, r)
  end.
Lemma spells_first : forall ip c t u, spells ip c t -> first_char (t ++ u) = Some (c, u) /\ hd_error (t ++ u) <> Some 34%N.
Proof.
  assert (HX : forall n (ds u : list N), length ds = n -> firstn n (ds ++ u) = ds /\ skipn n (ds ++ u) = u).
  { intros n ds u <-. rewrite firstn_app, firstn_all, Nat.sub_diag, skipn_app, skipn_all, Nat.sub_diag, app_nil_r. split; reflexivity. }
  intros ip c t u H. destruct H as [c H1 H2 H3|c [->| ->]|c t H1 H2|c ds H1 H2 H3 H4 H5|c ds H1 H2 H3 H4 H5 H6 H7|c ds H1 H2 H3 H4].
  - cbn [app first_char hd_error]. rewrite (proj2 (N.eqb_neq c 92) H3). split; [reflexivity|congruence].
  - split; [reflexivity|discriminate].
  - split; [reflexivity|discriminate].
  - unfold escapes in H2. cbn in H2. repeat (destruct H2 as [H2|H2]; [injection H2 as <- <-; split; [reflexivity|discriminate]|]). destruct H2.
  - destruct (HX 2 ds u H4) as [A B]. rewrite <- app_assoc. change (#"\x" ++ ds ++ u) with (92%N :: 120%N :: ds ++ u).
    split; [|discriminate]. cbn [first_char N.eqb Pos.eqb]. now rewrite A, H5, B.
  - destruct (HX 4 ds u H6) as [A B]. rewrite <- app_assoc. change (#"\u" ++ ds ++ u) with (92%N :: 117%N :: ds ++ u).
    split; [|discriminate]. cbn [first_char N.eqb Pos.eqb]. now rewrite A, H7, B.
  - destruct (HX 8 ds u H3) as [A B]. rewrite <- app_assoc. change (#"\U" ++ ds ++ u) with (92%N :: 85%N :: ds ++ u).
    split; [|discriminate]. cbn [first_char N.eqb Pos.eqb]. now rewrite A, H4, B.
Qed.
Lemma spelling_unique : forall ip ip' s t s' t' r r', spelling ip s t -> spelling ip' s' t' -> t ++ 34%N :: r = t' ++ 34%N :: r' -> s = s' /\ r = r'.
Proof.
  intros ip ip' s t s' t' r r' H. revert s' t'. induction H as [|c s t u Hc Hs IH]; intros s' t' H' E.
  - destruct H' as [|c' s' t' u' Hc' Hs']; [cbn in E; injection E as ->; auto|]. exfalso. rewrite <- app_assoc in E.
    destruct (spells_first _ _ _ (u' ++ 34%N :: r') Hc') as [_ K]. apply K. rewrite <- E. reflexivity.
  - destruct H' as [|c' s' t' u' Hc' Hs'].
    + exfalso. rewrite <- app_assoc in E. destruct (spells_first _ _ _ (u ++ 34%N :: r) Hc) as [_ K]. apply K. rewrite E. reflexivity.
    + rewrite <- !app_assoc in E. destruct (spells_first _ _ _ (u ++ 34%N :: r) Hc) as [A _].
      destruct (spells_first _ _ _ (u' ++ 34%N :: r') Hc') as [B _]. rewrite E, B in A. injection A as -> A. symmetry in A.
      destruct (IH _ _ Hs' A) as [-> ->]. auto.
Qed.
Lemma literal_unique : forall ip ip' s s' l, literal ip s l -> literal ip' s' l -> s = s'.
Proof.
  intros ip ip' s s' l (t & H & ->) (t' & H' & E). injection E as E. exact (proj1 (spelling_unique ip ip' s t s' t' [] [] H H' E)).
Qed.

(** ** Numbers *)
Lemma print_decimal : forall n, decimal n (print_N (N.of_nat n)).
Proof.
  intro n. destruct (print_N_ok (N.of_nat n)) as (A & B & c & r & E & C). split; [|split; [|split; [|split]]].
  - apply Forall_forall. intros x Hx. rewrite forallb_forall in A. specialize (A x Hx). unfold is_digit in A.
    apply andb_true_iff in A as [A1 A2]. apply N.leb_le in A1, A2. lia.
  - rewrite E. discriminate.
  - rewrite B. lia.
  - intro H. exists c, r. split; [exact E|]. destruct C as [C|[C _]]; [now apply N.eqb_neq|lia].
  - intros ->. reflexivity.
Qed.
Lemma decimal_controls : forall n ds, decimal n ds -> forallb (fun c => negb (control c)) ds = true.
Proof.
  intros n ds (H & _). apply forallb_forall. intros c Hc. rewrite Forall_forall in H. specialize (H c Hc). cbv beta in H. unfold control.
  destruct (N.ltb_spec c 32); [lia|]. destruct (N.eqb_spec c 127); [lia|reflexivity].
Qed.
