(** Proofs for C65. *)
From Verif Require Import Base Peg Node Vocab Tree Parse Syntax ParseProofs Complete NormProofs Unique ParserFacts NameFacts Build Utf8 Utf8Spec.
From Coq Require Import Lia Arith.
Ltac nb1 := match goal with
  | |- context[(?a <? ?b)%N] => first [rewrite (proj2 (N.ltb_lt a b)) by lia|rewrite (proj2 (N.ltb_ge a b)) by lia]
  | |- context[(?a <=? ?b)%N] => first [rewrite (proj2 (N.leb_le a b)) by lia|rewrite (proj2 (N.leb_gt a b)) by lia]
  end.
Ltac nb := repeat nb1.
Lemma nosur : forall c, (c < 55296 \/ 57343 < c)%N -> ((55296 <=? c) && (c <=? 57343))%N = false.
Proof. intros c H. destruct (N.leb_spec 55296 c); [|reflexivity]. destruct (N.leb_spec c 57343); [lia|reflexivity]. Qed.
Lemma m64 : forall b, (128 <= b <= 191)%N -> (b mod 64 = b - 128)%N.
Proof. intros b H. symmetry. apply (N.mod_unique _ _ 2); lia. Qed.
Lemma m32 : forall b, (192 <= b < 224)%N -> (b mod 32 = b - 192)%N.
Proof. intros b H. symmetry. apply (N.mod_unique _ _ 6); lia. Qed.
Lemma m16 : forall b, (224 <= b < 240)%N -> (b mod 16 = b - 224)%N.
Proof. intros b H. symmetry. apply (N.mod_unique _ _ 14); lia. Qed.
Lemma m8 : forall b, (240 <= b < 248)%N -> (b mod 8 = b - 240)%N.
Proof. intros b H. symmetry. apply (N.mod_unique _ _ 30); lia. Qed.
Lemma d64 : forall x y, (y < 64)%N -> ((x * 64 + y) / 64 = x)%N.
Proof. intros x y H. symmetry. apply (N.div_unique _ _ _ y); lia. Qed.
Lemma r64 : forall x y, (y < 64)%N -> ((x * 64 + y) mod 64 = y)%N.
Proof. intros x y H. symmetry. apply (N.mod_unique _ _ x); lia. Qed.
Lemma d4096 : forall c, (c / 4096 = c / 64 / 64)%N.
Proof. intro c. rewrite N.div_div by lia. reflexivity. Qed.
Lemma d262144 : forall c, (c / 262144 = c / 64 / 64 / 64)%N.
Proof. intro c. rewrite !N.div_div by lia. reflexivity. Qed.
Lemma eu64 : forall c, (c = 64 * (c / 64) + c mod 64 /\ c mod 64 < 64)%N.
Proof. intro c. split; [apply N.div_mod|apply N.mod_lt]; lia. Qed.

Lemma decode_cons : forall b0 r, decode (b0 :: r) =
      if (b0 <? 128)%N then b0 :: decode r
      else if ((192 <=? b0) && (b0 <? 224))%N then
        match r with
        | b1 :: r1 =>
            let c := (b0 mod 32 * 64 + b1 mod 64)%N in
            if contb b1 && (127 <? c)%N then c :: decode r1 else 65533%N :: decode r
        | [] => 65533%N :: decode r
        end
      else if ((224 <=? b0) && (b0 <? 240))%N then
        match r with
        | b1 :: b2 :: r2 =>
            let c := (b0 mod 16 * 4096 + b1 mod 64 * 64 + b2 mod 64)%N in
            if contb b1 && contb b2 && (2047 <? c)%N && negb ((55296 <=? c) && (c <=? 57343))%N
            then c :: decode r2 else 65533%N :: decode r
        | _ => 65533%N :: decode r
        end
      else if ((240 <=? b0) && (b0 <? 248))%N then
        match r with
        | b1 :: b2 :: b3 :: r3 =>
            let c := (b0 mod 8 * 262144 + b1 mod 64 * 4096 + b2 mod 64 * 64 + b3 mod 64)%N in
            if contb b1 && contb b2 && contb b3 && (65535 <? c)%N && (c <=? 1114111)%N
            then c :: decode r3 else 65533%N :: decode r
        | _ => 65533%N :: decode r
        end
      else 65533%N :: decode r.
Proof. reflexivity. Qed.

Lemma decode_char : forall c x, utf8_char c x -> forall b, decode (x ++ b) = c :: decode b.
Proof.
  intros c x H b. destruct H as [a H|a e H1 H2|a e f H1 H2|a e f g H1 H2 H3]; unfold within in *; cbn [app]; rewrite decode_cons; unfold contb; cbv beta iota zeta.
  - destruct (N.ltb_spec a 128); [reflexivity|lia].
  - rewrite (m32 a), (m64 e) by lia. set (c := ((a - 192) * 64 + (e - 128))%N). assert (127 < c)%N by (subst c; lia). clearbody c. nb. reflexivity.
  - assert (224 <= a < 240 /\ 128 <= e <= 191)%N as (Ha & He) by lia.
    rewrite (m16 a), (m64 e), (m64 f) by lia. set (c := ((a - 224) * 4096 + (e - 128) * 64 + (f - 128))%N).
    assert (2047 < c /\ (c < 55296 \/ 57343 < c))%N as (? & ?) by (subst c; lia). clearbody c. clear H2. rewrite nosur by assumption. nb. reflexivity.
  - assert (240 <= a < 248 /\ 128 <= e <= 191)%N as (Ha & He) by lia.
    rewrite (m8 a), (m64 e), (m64 f), (m64 g) by lia. set (c := ((a - 240) * 262144 + (e - 128) * 4096 + (f - 128) * 64 + (g - 128))%N).
    assert (65535 < c /\ c <= 1114111)%N as (? & ?) by (subst c; lia). clearbody c. clear H3. nb. reflexivity.
Qed.
Lemma encode_char : forall c x, utf8_char c x -> encode_rune c = x.
Proof.
  intros c x H. destruct H as [a H|a e H1 H2|a e f H1 H2|a e f g H1 H2 H3]; unfold within in *; unfold encode_rune.
  - destruct (N.leb_spec a 127); [reflexivity|lia].
  - rewrite d64, r64 by lia. set (c := ((a - 192) * 64 + (e - 128))%N). assert (127 < c <= 2047)%N by (subst c; lia). clearbody c. nb. repeat f_equal; lia.
  - assert (224 <= a < 240 /\ 128 <= e <= 191)%N as (Ha & He) by lia.
    set (c := ((a - 224) * 4096 + (e - 128) * 64 + (f - 128))%N).
    assert (2047 < c <= 65535 /\ (c < 55296 \/ 57343 < c))%N as (? & ?) by (subst c; lia).
    assert (E : c = (((a - 224) * 64 + (e - 128)) * 64 + (f - 128))%N) by (subst c; lia). clearbody c.
    assert (E1 : (c / 64 = (a - 224) * 64 + (e - 128))%N) by (rewrite E; apply d64; lia).
    assert (E2 : (c mod 64 = f - 128)%N) by (rewrite E; apply r64; lia).
    rewrite d4096, E1, E2, d64, r64, nosur by lia. clear H2 E E1 E2. replace (1114111 <? c)%N with false by (symmetry; apply N.ltb_ge; lia). cbn [orb]. nb. repeat f_equal; lia.
  - assert (240 <= a < 248 /\ 128 <= e <= 191)%N as (Ha & He) by lia.
    set (c := ((a - 240) * 262144 + (e - 128) * 4096 + (f - 128) * 64 + (g - 128))%N).
    assert (65535 < c <= 1114111)%N as ? by (subst c; lia).
    assert (E : c = ((((a - 240) * 64 + (e - 128)) * 64 + (f - 128)) * 64 + (g - 128))%N) by (subst c; lia). clearbody c.
    assert (E1 : (c / 64 = ((a - 240) * 64 + (e - 128)) * 64 + (f - 128))%N) by (rewrite E; apply d64; lia).
    assert (E2 : (c mod 64 = g - 128)%N) by (rewrite E; apply r64; lia).
    rewrite d262144, d4096, E1, E2, !d64, !r64 by lia. clear H3 E E1 E2. nb. cbn [orb andb]. repeat f_equal; lia.
Qed.
Lemma char_scalar : forall c x, utf8_char c x -> scalar c.
Proof. intros c x H. destruct H; unfold within, scalar in *; lia. Qed.
Lemma scalar_char : forall c, scalar c -> utf8_char c (encode_rune c).
Proof.
  intros c H. unfold scalar in H. unfold encode_rune. rewrite d262144, d4096.
  pose proof (eu64 c) as (E1 & L1). pose proof (eu64 (c / 64)) as (E2 & L2). pose proof (eu64 (c / 64 / 64)) as (E3 & L3).
  set (r1 := (c mod 64)%N) in *. set (q1 := (c / 64)%N) in *. set (r2 := (q1 mod 64)%N) in *. set (q2 := (q1 / 64)%N) in *.
  set (r3 := (q2 mod 64)%N) in *. set (q3 := (q2 / 64)%N) in *. clearbody r1 q1 r2 q2 r3 q3.
  destruct (N.leb_spec c 127); [apply u1; unfold within; lia|].
  destruct (N.leb_spec c 2047).
  { replace c with ((192 + q1 - 192) * 64 + (128 + r1 - 128))%N at 1 by lia. apply u2; unfold within; lia. }
  assert (K : ((1114111 <? c) || (55296 <=? c) && (c <=? 57343))%N = false).
  { rewrite nosur by lia. replace (1114111 <? c)%N with false by (symmetry; apply N.ltb_ge; lia). reflexivity. }
  rewrite K. destruct (N.leb_spec c 65535).
  - replace c with ((224 + q2 - 224) * 4096 + (128 + r2 - 128) * 64 + (128 + r1 - 128))%N at 1 by lia.
    apply u3; unfold within; lia.
  - replace c with ((240 + q3 - 240) * 262144 + (128 + r3 - 128) * 4096 + (128 + r2 - 128) * 64 + (128 + r1 - 128))%N at 1 by lia.
    apply u4; unfold within; lia.
Qed.

Lemma decode_utf8 : forall b s, utf8 b s -> decode b = s.
Proof. intros b s H. induction H as [|c x b s Hc H IH]; [reflexivity|]. now rewrite (decode_char _ _ Hc), IH. Qed.
Lemma encode_utf8 : forall b s, utf8 b s -> encode s = b.
Proof. intros b s H. induction H as [|c x b s Hc H IH]; [reflexivity|]. unfold encode in *. cbn [map concat]. now rewrite (encode_char _ _ Hc), IH. Qed.
Lemma utf8_scalar : forall b s, utf8 b s -> Forall scalar s.
Proof. intros b s H. induction H; constructor; eauto using char_scalar. Qed.
Lemma utf8_iff : forall b s, utf8 b s <-> Forall scalar s /\ encode s = b.
Proof.
  intros b s. split; [intro H; split; [eapply utf8_scalar|now apply encode_utf8]; exact H|].
  intros (H & <-). induction H as [|c s Hc H IH]; [constructor|]. unfold encode in *. cbn [map concat]. constructor; [now apply scalar_char|exact IH].
Qed.

(** ** Arbitrary bytes *)
Lemma char_head : forall c x y a b, utf8_char c x -> a :: b = x ++ y ->
  ((a < 128 /\ x = [a] /\ y = b) \/
   (exists b1, x = [a; b1] /\ b = b1 :: y /\ within 194 223 a /\ within 128 191 b1) \/
   (exists b1 b2, x = [a; b1; b2] /\ b = b1 :: b2 :: y /\ within 128 191 b2 /\
     (a = 224 /\ within 160 191 b1 \/ within 225 236 a /\ within 128 191 b1 \/
      a = 237 /\ within 128 159 b1 \/ within 238 239 a /\ within 128 191 b1)) \/
   (exists b1 b2 b3, x = [a; b1; b2; b3] /\ b = b1 :: b2 :: b3 :: y /\ within 128 191 b2 /\ within 128 191 b3 /\
     (a = 240 /\ within 144 191 b1 \/ within 241 243 a /\ within 128 191 b1 \/ a = 244 /\ within 128 143 b1)))%N.
Proof.
  intros c x y a b H E. destruct H as [a' H|a' e H1 H2|a' e f H1 H2|a' e f g H1 H2 H3]; cbn in E; injection E as -> ->.
  - left. unfold within in H. split; [lia|]. now split.
  - right; left. exists e. now repeat split; destruct H1, H2.
  - right; right; left. exists e, f. auto.
  - right; right; right. exists e, f, g. auto 6.
Qed.
Ltac nobad := let c := fresh in let x := fresh in let y := fresh in let Hc := fresh in let E := fresh in
  intros c x y Hc E; apply (char_head _ _ _ _ _ Hc) in E; unfold within in E;
  destruct E as [(? & ? & ?)|[(? & ? & E & ?)|[(? & ? & ? & E & ?)|(? & ? & ? & ? & E & ?)]]];
  first [lia|discriminate E|inversion E; subst; lia].

Lemma decode_lossy : forall n b, length b <= n -> Forall is_byte b -> lossy b (decode b).
Proof.
  induction n as [|n IH]; intros b Hl HF.
  { destruct b; [constructor|cbn in Hl; lia]. }
  destruct b as [|b0 r]; [constructor|]. cbn [length] in Hl. inversion HF as [|? ? H0 HF0]; subst. unfold is_byte in H0.
  rewrite decode_cons. unfold contb; cbv beta iota zeta.
  destruct (N.ltb_spec b0 128) as [A|A].
  { apply (lossy_char b0 [b0]); [apply u1; unfold within; lia|]. apply IH; [lia|exact HF0]. }
  assert (IH0 : lossy r (decode r)) by (apply IH; [lia|exact HF0]).
  destruct (N.leb_spec 192 b0) as [B|B]; cbn [andb].
  2:{ nb. cbn [andb]. apply lossy_bad; [nobad|exact IH0]. }
  destruct (N.ltb_spec b0 224) as [B'|B'].
  { destruct r as [|b1 r1]; [apply lossy_bad; [nobad|exact IH0]|]. inversion HF0 as [|? ? H1 HF1]; subst. unfold is_byte in H1. cbn [length] in Hl.
    destruct (N.leb_spec 128 b1) as [C|C]; cbn [andb]; [|apply lossy_bad; [nobad|exact IH0]].
    destruct (N.leb_spec b1 191) as [C'|C']; cbn [andb]; [|apply lossy_bad; [nobad|exact IH0]].
    rewrite (m32 b0), (m64 b1) by lia. destruct (N.ltb_spec 127 ((b0 - 192) * 64 + (b1 - 128))) as [D|D]; [|apply lossy_bad; [nobad|exact IH0]].
    apply (lossy_char _ [b0; b1] r1); [apply u2; unfold within; lia|]. apply IH; [lia|exact HF1]. }
  destruct (N.leb_spec 224 b0) as [B2|B2]; [|lia]. cbn [andb].
  destruct (N.ltb_spec b0 240) as [B3|B3].
  { destruct r as [|b1 [|b2 r2]]; [apply lossy_bad; [nobad|exact IH0]|apply lossy_bad; [nobad|exact IH0]|].
    inversion HF0 as [|? ? H1 HF1]; subst. inversion HF1 as [|? ? H2 HF2]; subst. unfold is_byte in H1, H2. cbn [length] in Hl.
    destruct (N.leb_spec 128 b1) as [C|C]; cbn [andb]; [|apply lossy_bad; [nobad|exact IH0]].
    destruct (N.leb_spec b1 191) as [C'|C']; cbn [andb]; [|apply lossy_bad; [nobad|exact IH0]].
    destruct (N.leb_spec 128 b2) as [D|D]; cbn [andb]; [|apply lossy_bad; [nobad|exact IH0]].
    destruct (N.leb_spec b2 191) as [D'|D']; cbn [andb]; [|apply lossy_bad; [nobad|exact IH0]].
    rewrite (m16 b0), (m64 b1), (m64 b2) by lia.
    set (c := ((b0 - 224) * 4096 + (b1 - 128) * 64 + (b2 - 128))%N).
    destruct (N.ltb_spec 2047 c) as [E|E]; cbn [andb]; [|apply lossy_bad; [subst c; nobad|exact IH0]].
    assert (X : ((55296 <= c /\ c <= 57343) \/ (c < 55296 \/ 57343 < c))%N) by lia.
    destruct X as [X|X].
    - destruct (N.leb_spec 55296 c); [|lia]. destruct (N.leb_spec c 57343); [|lia]. cbn [andb negb]. apply lossy_bad; [subst c; nobad|exact IH0].
    - rewrite nosur by assumption.
      cbn [negb]. apply (lossy_char c [b0; b1; b2] r2); [apply u3; subst c; unfold within; lia|]. apply IH; [lia|exact HF2]. }
  destruct (N.leb_spec 240 b0) as [B4|B4]; [|lia]. cbn [andb].
  destruct (N.ltb_spec b0 248) as [B5|B5]; [|apply lossy_bad; [nobad|exact IH0]].
  destruct r as [|b1 [|b2 [|b3 r3]]]; [apply lossy_bad; [nobad|exact IH0]|apply lossy_bad; [nobad|exact IH0]|apply lossy_bad; [nobad|exact IH0]|].
  inversion HF0 as [|? ? H1 HF1]; subst. inversion HF1 as [|? ? H2 HF2]; subst. inversion HF2 as [|? ? H3 HF3]; subst. unfold is_byte in H1, H2, H3. cbn [length] in Hl.
  destruct (N.leb_spec 128 b1) as [C|C]; cbn [andb]; [|apply lossy_bad; [nobad|exact IH0]].
  destruct (N.leb_spec b1 191) as [C'|C']; cbn [andb]; [|apply lossy_bad; [nobad|exact IH0]].
  destruct (N.leb_spec 128 b2) as [D|D]; cbn [andb]; [|apply lossy_bad; [nobad|exact IH0]].
  destruct (N.leb_spec b2 191) as [D'|D']; cbn [andb]; [|apply lossy_bad; [nobad|exact IH0]].
  destruct (N.leb_spec 128 b3) as [F|F]; cbn [andb]; [|apply lossy_bad; [nobad|exact IH0]].
  destruct (N.leb_spec b3 191) as [F'|F']; cbn [andb]; [|apply lossy_bad; [nobad|exact IH0]].
  rewrite (m8 b0), (m64 b1), (m64 b2), (m64 b3) by lia.
  set (c := ((b0 - 240) * 262144 + (b1 - 128) * 4096 + (b2 - 128) * 64 + (b3 - 128))%N).
  destruct (N.ltb_spec 65535 c) as [E|E]; cbn [andb]; [|apply lossy_bad; [subst c; nobad|exact IH0]].
  destruct (N.leb_spec c 1114111) as [G|G]; cbn [andb]; [|apply lossy_bad; [subst c; nobad|exact IH0]].
  apply (lossy_char c [b0; b1; b2; b3] r3); [apply u4; subst c; unfold within; lia|]. apply IH; [lia|exact HF3].
Qed.

(** A character is read in one way only, and well-formed bytes have no prefix
    that is a character of another length. *)
Lemma char_prefix : forall c x c' x' y y', utf8_char c x -> utf8_char c' x' -> x ++ y = x' ++ y' -> c = c' /\ x = x' /\ y = y'.
Proof.
  intros c x c' x' y y' H H' E. pose proof (f_equal decode E) as D. rewrite (decode_char _ _ H), (decode_char _ _ H') in D. injection D as -> _.
  rewrite <- (encode_char _ _ H), <- (encode_char _ _ H') in *. split; [reflexivity|]. split; [reflexivity|]. now apply app_inv_head in E.
Qed.
Lemma lossy_det : forall b s, lossy b s -> forall s', lossy b s' -> s = s'.
Proof.
  intros b s H. induction H as [|c x b s Hc H IH|a b s Hn H IH]; intros s' H'.
  - inversion H' as [|c x b s Hc H E|]; [reflexivity|]. destruct Hc; discriminate E.
  - inversion H' as [E|c' x' b' s0 Hc' H0 E|a b0 s0 Hn H0 E]; subst.
    + destruct Hc; discriminate E.
    + destruct (char_prefix _ _ _ _ _ _ Hc' Hc E) as (-> & -> & ->). f_equal. now apply IH.
    + now elim (Hn c x b Hc).
  - inversion H' as [|c' x' b' s0 Hc' H0 E|? ? s0 Hn0 H0]; subst.
    + now elim (Hn c' x' b').
    + f_equal. now apply IH.
Qed.
Lemma decode_spec : forall b s, Forall is_byte b -> (decode b = s <-> lossy b s).
Proof.
  intros b s H. pose proof (decode_lossy (length b) b (le_n _) H) as L. split; [now intros <-|]. intro L'. now apply (lossy_det b).
Qed.
Lemma lossy_scalar : forall b s, lossy b s -> Forall scalar s.
Proof. intros b s H. induction H; constructor; eauto using char_scalar. unfold scalar. lia. Qed.
Lemma decode_scalar : forall b, Forall is_byte b -> Forall scalar (decode b).
Proof. intros b H. eapply lossy_scalar, decode_lossy; [apply le_n|exact H]. Qed.
Lemma scalar_valid : forall s, Forall scalar s -> valid_runes s.
Proof. intros s H. eapply Forall_impl; [|exact H]. intros c. unfold scalar, endSymbol. lia. Qed.
Lemma decode_valid : forall b, Forall is_byte b -> valid_runes (decode b).
Proof. intros b H. now apply scalar_valid, decode_scalar. Qed.
Lemma utf8_bytes : forall b s, utf8 b s -> Forall is_byte b.
Proof.
  intros b s H. induction H as [|c x b s Hc H IH]; [constructor|]. apply Forall_app. split; [|exact IH].
  destruct Hc; unfold within, is_byte in *; repeat constructor; lia.
Qed.
Lemma encode_app : forall a b, encode (a ++ b) = encode a ++ encode b.
Proof. intros a b. unfold encode. now rewrite map_app, concat_app. Qed.
Lemma encode_ascii : forall c s, (c < 128)%N -> encode (c :: s) = c :: encode s.
Proof. intros c s H. unfold encode, encode_rune. cbn [map concat]. destruct (N.leb_spec c 127); [reflexivity|lia]. Qed.

(** ** Joining at ASCII characters *)
Lemma decode_ascii : forall n a, length a <= n -> forall c b, (c < 128)%N -> Forall is_byte a -> decode (a ++ c :: b) = decode a ++ c :: decode b.
Proof.
  induction n as [|n IH]; intros a Hl c b Hc HF.
  { destruct a; [|cbn in Hl; lia]. cbn [app]. rewrite decode_cons. destruct (N.ltb_spec c 128); [reflexivity|lia]. }
  destruct a as [|b0 r]; [cbn [app]; rewrite decode_cons; destruct (N.ltb_spec c 128); [reflexivity|lia]|].
  assert (Hcc : contb c = false) by (unfold contb; destruct (N.leb_spec 128 c); [lia|reflexivity]).
  inversion HF as [|? ? H0 HF0]; subst. cbn [length] in Hl. cbn [app]. rewrite !decode_cons.
  destruct (b0 <? 128)%N; [cbn [app]; f_equal; apply IH; [lia|exact Hc|exact HF0]|].
  assert (IH0 : decode (r ++ c :: b) = decode r ++ c :: decode b) by (apply IH; [lia|exact Hc|exact HF0]).
  destruct ((192 <=? b0) && (b0 <? 224))%N.
  { destruct r as [|b1 r1]; cbn [app].
    - rewrite Hcc. cbn [andb]. f_equal. rewrite decode_cons. destruct (N.ltb_spec c 128); [reflexivity|lia].
    - cbv zeta. destruct (contb b1 && (127 <? b0 mod 32 * 64 + b1 mod 64)%N); cbn [app].
      + f_equal. inversion HF0; subst. apply IH; [cbn [length] in Hl; lia|exact Hc|assumption].
      + f_equal. exact IH0. }
  destruct ((224 <=? b0) && (b0 <? 240))%N.
  { destruct r as [|b1 [|b2 r2]]; cbn [app].
    - cbv zeta. destruct b as [|b2 b]; rewrite ?Hcc; cbn [andb]; f_equal; exact IH0.
    - cbv zeta. rewrite Hcc, andb_false_r. cbn [andb]. f_equal. exact IH0.
    - cbv zeta. match goal with |- (if ?x then _ else _) = _ => destruct x end; cbn [app]; f_equal.
      + inversion HF0 as [|? ? ? HF1]; subst. inversion HF1; subst. apply IH; [cbn [length] in Hl; lia|exact Hc|assumption].
      + exact IH0. }
  destruct ((240 <=? b0) && (b0 <? 248))%N.
  { destruct r as [|b1 [|b2 [|b3 r3]]]; cbn [app].
    - cbv zeta. destruct b as [|b2 [|b3 b]]; rewrite ?Hcc; cbn [andb]; f_equal; exact IH0.
    - cbv zeta. destruct b as [|b3 b]; rewrite ?Hcc, ?andb_false_r; cbn [andb]; f_equal; exact IH0.
    - cbv zeta. rewrite Hcc, !andb_false_r. cbn [andb]. f_equal. exact IH0.
    - cbv zeta. match goal with |- (if ?x then _ else _) = _ => destruct x end; cbn [app]; f_equal.
      + inversion HF0 as [|? ? ? HF1]; subst. inversion HF1 as [|? ? ? HF2]; subst. inversion HF2; subst. apply IH; [cbn [length] in Hl; lia|exact Hc|assumption].
      + exact IH0. }
  cbn [app]. f_equal. exact IH0.
Qed.
Lemma decode_mid : forall a c b, (c < 128)%N -> Forall is_byte a -> decode (a ++ c :: b) = decode a ++ c :: decode b.
Proof. intros a. apply (decode_ascii (length a)). apply le_n. Qed.
Lemma decode_lead : forall w b, forallb (fun c => (c <? 128)%N) w = true -> decode (w ++ b) = w ++ decode b.
Proof.
  induction w as [|c w IH]; intros b H; [reflexivity|]. cbn [forallb] in H. apply andb_prop in H as (H1 & H2). cbn [app]. rewrite decode_cons, H1. f_equal. now apply IH.
Qed.
Lemma join_step_bytes : forall sb v, Forall is_byte sb -> Forall is_byte v ->
  decode (go_join_step sb v) = join_step (decode sb) (decode v) /\ Forall is_byte (go_join_step sb v).
Proof.
  intros sb v Hs Hv. unfold go_join_step, join_step. destruct (is_blank (decode v)); [now split|].
  assert (P : Forall is_byte (#"(" ++ v ++ #")")) by (apply Forall_app; split; [repeat constructor|apply Forall_app; split; [exact Hv|repeat constructor]]).
  assert (E : decode (#"(" ++ v ++ #")") = #"(" ++ decode v ++ #")").
  { rewrite decode_lead by reflexivity. f_equal. apply (decode_mid v 41 []); [reflexivity|exact Hv]. }
  destruct sb as [|x sb]; [split; [exact E|exact P]|].
  assert (Q : Forall is_byte ((x :: sb) ++ #" and ")) by (apply Forall_app; split; [exact Hs|repeat constructor]).
  split; [|apply Forall_app; now split].
  rewrite <- app_assoc. change (#" and " ++ #"(" ++ v ++ #")") with (32%N :: #"and " ++ #"(" ++ v ++ #")").
  rewrite decode_mid by (reflexivity || exact Hs). rewrite decode_lead, E by reflexivity.
  destruct (decode (x :: sb)) eqn:D; [|cbn [app]; now rewrite <- !app_assoc].
  exfalso. rewrite decode_cons in D. cbv zeta in D. repeat match type of D with (if ?x then _ else _) = _ => destruct x | match ?x with _ => _ end = _ => destruct x end; discriminate D.
Qed.
Lemma join_fold_bytes : forall l sb, Forall is_byte sb -> Forall (Forall is_byte) l ->
  decode (fold_left go_join_step l sb) = fold_left join_step (map decode l) (decode sb).
Proof.
  induction l as [|v l IH]; intros sb Hs Hl; [reflexivity|]. inversion Hl; subst. cbn [fold_left map].
  destruct (join_step_bytes sb v) as (E & B); [assumption..|]. rewrite <- E. now apply IH.
Qed.
Lemma join_bytes : forall l, Forall (Forall is_byte) l -> decode (go_join l) = join (map decode l).
Proof.
  intros [|x [|y l]] H; [reflexivity|reflexivity|]. unfold go_join, join. cbn [map]. apply (join_fold_bytes (x :: y :: l) [] (Forall_nil _) H).
Qed.

(** ** String literals *)
Section Literals.
  Variable lo : N -> N.
  Definition strung (t : list N) (m : node) : Prop := is_string m = true -> quoted_in (nStr m) t.
  Definition below_strung (t : list N) (x : option node) : Prop :=
    match x with None => True | Some n => forall m, reach n m -> strung t m end.
  Lemma bs_node : forall t n, strung t n -> Forall (below_strung t) (children n) -> below_strung t (Some n).
  Proof.
    intros t n H HF m Hr. inversion Hr as [|? k ? Hk Hkm]; subst; [exact H|]. rewrite Forall_forall in HF. now apply (HF _ Hk).
  Qed.
  Lemma qin_app : forall a s t b, quoted_in s t -> quoted_in s (a ++ t ++ b).
  Proof. intros a s t b (p & q & d & Hd & ->). exists (a ++ p), (q ++ b), d. split; [exact Hd|]. rewrite <- !app_assoc. cbn [app]. now rewrite <- !app_assoc. Qed.
  Lemma bs_app : forall a t b x, below_strung t x -> below_strung (a ++ t ++ b) x.
  Proof. intros a t b [n|] H; [|exact I]. intros m Hr E. now apply qin_app, (H m Hr). Qed.
  Lemma bss_app : forall a t b l, Forall (below_strung t) l -> Forall (below_strung (a ++ t ++ b)) l.
  Proof. intros a t b l H. eapply Forall_impl; [|exact H]. intros x Hx. now apply bs_app. Qed.
  Lemma bs_opn : forall t o, below_strung t (opn lo o).
  Proof. intros t o. apply bs_node; [intro K; discriminate K|repeat constructor]. Qed.
  Lemma bs_lit : forall l t, lit_text l t -> below_strung t (Some (lnode l)).
  Proof.
    intros l t H. apply bs_node; [|destruct H; repeat constructor]. destruct H as [s H|s H| |c ds|w|w]; intro K; try discriminate K.
    - exists [], [], 39%N. auto.
    - exists [], [], 34%N. auto.
  Qed.
  Lemma bs_lits : forall ls t, lits_text ls t -> Forall (below_strung t) (map (fun l => Some (lnode l)) ls).
  Proof.
    intros ls t H. induction H as [l t Hl|l t w1 w2 ls ts Hl _ _ H IH]; cbn [map].
    - constructor; [now apply bs_lit|constructor].
    - constructor; [apply (bs_app [] t); now apply bs_lit|].
      replace (t ++ w1 ++ #"," ++ w2 ++ ts) with ((t ++ w1 ++ #"," ++ w2) ++ ts ++ []) by (rewrite app_nil_r; now rewrite <- !app_assoc). now apply bss_app.
  Qed.
  Lemma bs_arr : forall p c ls t, arr_text p c ls t -> below_strung t (Some (vnode (VArr p ls))).
  Proof.
    intros p c ls t H. apply bs_node; [intro K; discriminate K|]. cbn [vnode children mk_array nArray nExpression nLeft nOp nRight nParams].
    apply Forall_app. split; [|repeat constructor]. destruct H as [w|ls t w1 w2 H|ls t w1 w2 w3 H].
    - constructor.
    - replace (opening p ++ w1 ++ t ++ w2 ++ closing p) with ((opening p ++ w1) ++ t ++ w2 ++ closing p) by now rewrite <- !app_assoc. apply bss_app. now apply bs_lits.
    - replace (opening p ++ w1 ++ t ++ w2 ++ #"," ++ w3 ++ closing p) with ((opening p ++ w1) ++ t ++ w2 ++ #"," ++ w3 ++ closing p) by now rewrite <- !app_assoc.
      apply bss_app. now apply bs_lits.
  Qed.
  Lemma bs_val : forall v t, val_text v t -> below_strung t (Some (vnode v)).
  Proof. intros v t [l t' H|p c ls t' H]; [now apply bs_lit|now apply (bs_arr p c)]. Qed.
  Lemma last_bs : forall t l, Forall (below_strung t) l -> below_strung t (last l None).
  Proof. intros t l H. induction H as [|x l Hx Hl IH]; [exact I|]. destruct l; [exact Hx|exact IH]. Qed.
  Lemma removelast_bs : forall t l, Forall (below_strung t) l -> Forall (below_strung t) (removelast l).
  Proof. intros t l H. induction H as [|x l Hx Hl IH]; [constructor|]. destruct l; [constructor|]. constructor; [exact Hx|exact IH]. Qed.
  Lemma red1_bs : forall t f l, (forall x, below_strung t x -> below_strung t (Some (f x))) -> Forall (below_strung t) l -> Forall (below_strung t) (red1 f l).
  Proof. intros t f l Hf H. unfold red1. apply Forall_app. split; [now apply removelast_bs|]. constructor; [|constructor]. now apply Hf, last_bs. Qed.
  Lemma red3_bs : forall t f l, (forall x y z, below_strung t x -> below_strung t y -> below_strung t z -> below_strung t (Some (f x y z))) ->
    Forall (below_strung t) l -> Forall (below_strung t) (red3 f l).
  Proof.
    intros t f l Hf H. unfold red3. pose proof (removelast_bs _ _ H) as H1. pose proof (removelast_bs _ _ H1) as H2.
    apply Forall_app. split; [now apply removelast_bs|]. constructor; [|constructor]. apply Hf; now apply last_bs.
  Qed.
  Ltac bs := apply bs_node; [let K := fresh in intro K; discriminate K|]; cbn [children mk_function mk_compare mk_logic mk_not mk_paren mk_predicate mk_between nArray nExpression nLeft nOp nRight nParams app];
    repeat (apply Forall_cons || apply Forall_nil); try exact I; auto using bs_opn.
  Lemma stk_strung :
    (forall e t, lay e t -> Forall (below_strung t) (stk lo e)) /\
    (forall es t, lays es t -> Forall (below_strung t) (concat (map (stk lo) es))).
  Proof.
    apply lay_lays_ind; intros; cbn [stk map concat].
    - constructor; [now apply bs_lit|constructor].
    - constructor; [eapply bs_arr; eassumption|constructor].
    - constructor; [bs|constructor].
    - constructor; [bs|constructor].
    - apply Forall_forall. intros z Hz. change (In z (map (fun x => Some (mk_ident x)) (x :: y :: xs))) in Hz. apply in_map_iff in Hz as (w & <- & Hw). bs.
    - constructor; [bs|constructor].
    - constructor; [|constructor]. bs. replace (f ++ #"(" ++ w1 ++ t ++ w2 ++ #")") with ((f ++ #"(" ++ w1) ++ t ++ w2 ++ #")") by now rewrite <- !app_assoc.
      now apply bss_app.
    - constructor; [|constructor]. bs.
      replace (f ++ #"(" ++ w1 ++ t ++ w2 ++ #"," ++ w3 ++ #")") with ((f ++ #"(" ++ w1) ++ t ++ w2 ++ #"," ++ w3 ++ #")") by now rewrite <- !app_assoc.
      now apply bss_app.
    - apply red1_bs; [intros x Hx; bs|]. replace (#"(" ++ w1 ++ t ++ w2 ++ #")") with ((#"(" ++ w1) ++ t ++ w2 ++ #")") by now rewrite <- !app_assoc.
      now apply bss_app.
    - apply red1_bs; [|apply (bss_app [] t); assumption]. intros x Hx. bs.
      + replace (t ++ w1 ++ o ++ w2 ++ tlo ++ w3 ++ a ++ w4 ++ thi) with ((t ++ w1 ++ o ++ w2) ++ tlo ++ w3 ++ a ++ w4 ++ thi) by now rewrite <- !app_assoc.
        apply bs_app. now apply bs_val.
      + replace (t ++ w1 ++ o ++ w2 ++ tlo ++ w3 ++ a ++ w4 ++ thi) with ((t ++ w1 ++ o ++ w2 ++ tlo ++ w3 ++ a ++ w4) ++ thi ++ []) by (rewrite app_nil_r; now rewrite <- !app_assoc).
        apply bs_app. now apply bs_val.
    - apply red1_bs; [|apply (bss_app [] t); assumption]. intros x Hx. bs.
      + replace (t ++ w1 ++ o ++ w2 ++ #"[" ++ w3 ++ tlo ++ w4 ++ #"," ++ w5 ++ thi ++ w6 ++ #"]")
          with ((t ++ w1 ++ o ++ w2 ++ #"[" ++ w3) ++ tlo ++ w4 ++ #"," ++ w5 ++ thi ++ w6 ++ #"]") by now rewrite <- !app_assoc.
        apply bs_app. now apply bs_val.
      + replace (t ++ w1 ++ o ++ w2 ++ #"[" ++ w3 ++ tlo ++ w4 ++ #"," ++ w5 ++ thi ++ w6 ++ #"]")
          with ((t ++ w1 ++ o ++ w2 ++ #"[" ++ w3 ++ tlo ++ w4 ++ #"," ++ w5) ++ thi ++ w6 ++ #"]") by now rewrite <- !app_assoc.
        apply bs_app. now apply bs_val.
    - apply red1_bs; [intros x Hx; bs|apply (bss_app [] t); assumption].
    - apply red1_bs; [|apply (bss_app [] t); assumption]. intros x Hx. bs.
      replace (t ++ w1 ++ o ++ w2 ++ ta) with ((t ++ w1 ++ o ++ w2) ++ ta ++ []) by (rewrite app_nil_r; now rewrite <- !app_assoc).
      apply bs_app. eapply bs_arr; eassumption.
    - apply red3_bs; [intros x y z Hx Hy Hz; bs|]. apply Forall_app. split; [apply (bss_app [] tl); assumption|].
      constructor; [apply bs_opn|].
      replace (tl ++ w1 ++ o ++ w2 ++ tr) with ((tl ++ w1 ++ o ++ w2) ++ tr ++ []) by (rewrite app_nil_r; now rewrite <- !app_assoc). now apply bss_app.
    - apply red1_bs; [intros x Hx; bs|]. replace (n ++ g ++ t) with ((n ++ g) ++ t ++ []) by (rewrite app_nil_r; now rewrite <- !app_assoc). now apply bss_app.
    - apply red3_bs; [intros x y z Hx Hy Hz; bs|]. apply Forall_app. split; [apply (bss_app [] tl); assumption|].
      constructor; [apply bs_opn|].
      replace (tl ++ w1 ++ o ++ w2 ++ tr) with ((tl ++ w1 ++ o ++ w2) ++ tr ++ []) by (rewrite app_nil_r; now rewrite <- !app_assoc). now apply bss_app.
    - rewrite app_nil_r. assumption.
    - apply Forall_app. split; [apply (bss_app [] t); assumption|].
      replace (t ++ w1 ++ #"," ++ w2 ++ ts) with ((t ++ w1 ++ #"," ++ w2) ++ ts ++ []) by (rewrite app_nil_r; now rewrite <- !app_assoc). now apply bss_app.
  Qed.
  Lemma parse_strings : forall q n m, valid_runes q -> parse lo q = Ok (Some n) -> reach n m -> is_string m = true -> quoted_in (nStr m) q.
  Proof.
    intros q n m HQ HP Hr. destruct (parse_ok_inv lo _ _ HQ HP) as (e & (w1 & t & w2 & -> & _ & _ & Hl) & _ & Hn).
    assert (HU : below_strung t (Some n)) by (rewrite Hn; apply last_bs; now apply stk_strung). intro E. apply qin_app. now apply (HU m).
  Qed.

  (** ** Bytes *)
  Lemma children_bytes : forall n, children (node_bytes n) = map (option_map node_bytes) (children n).
  Proof. intros [t v i b s f a o nm ns e l p r ps]. unfold children. cbn. now rewrite !map_app. Qed.
  Lemma reach_bytes : forall n' m', reach n' m' -> forall n, n' = node_bytes n -> exists m, reach n m /\ m' = node_bytes m.
  Proof.
    intros n' m' H. induction H as [n'|n' k m' Hk H IH]; intros n ->.
    - exists n. split; [apply reach_refl|reflexivity].
    - rewrite children_bytes in Hk. apply in_map_iff in Hk as ([k0|] & E & Hk); [|discriminate E]. injection E as <-.
      destruct (IH k0 eq_refl) as (m & Hm & E). exists m. split; [eapply reach_step; eassumption|exact E].
  Qed.
  Lemma go_strings : forall b n m, well_formed b -> go_parse lo b = Ok (Some n) -> reach n m -> is_string m = true -> quoted_in (nStr m) b.
  Proof.
    intros b n m (s & Hb) HP Hr Hs. pose proof (decode_utf8 _ _ Hb) as D. pose proof (encode_utf8 _ _ Hb) as E.
    unfold go_parse in HP. rewrite D in HP. destruct (parse lo s) as [[n0|]|e|] eqn:P; try discriminate HP. injection HP as <-.
    destruct (reach_bytes _ _ Hr n0 eq_refl) as (m0 & Hr0 & ->).
    destruct (parse_strings s n0 m0) as (x & y & d & Hd & Q).
    - eapply scalar_valid, utf8_scalar, Hb.
    - exact P.
    - exact Hr0.
    - destruct m0; exact Hs.
    - exists (encode x), (encode y), d. split; [exact Hd|]. rewrite <- E, Q, encode_app. rewrite encode_ascii by (destruct Hd as [-> | ->]; lia).
      rewrite encode_app, encode_ascii by (destruct Hd as [-> | ->]; lia). now destruct m0.
  Qed.
End Literals.

Lemma mem_utf8 : forall b s c, utf8 b s -> (c < 128)%N -> mem c b = false -> mem c s = false.
Proof.
  intros b s c H Hc. induction H as [|x y b s Hx H IH]; [reflexivity|]. unfold mem in *. rewrite existsb_app. intro K. apply orb_false_iff in K as (K1 & K2).
  cbn [existsb]. rewrite (IH K2), orb_false_r. destruct (N.eqb_spec c x) as [->|]; [|reflexivity].
  destruct Hx; unfold within in *; [|lia|lia|lia]. cbn in K1. now rewrite N.eqb_refl in K1.
Qed.
Lemma go_total : forall lo b, Forall is_byte b -> (exists n, go_parse lo b = Ok (Some n)) \/ (exists e, go_parse lo b = Err e).
Proof.
  intros lo b H. unfold go_parse. destruct (parse_total lo (decode b) (decode_valid b H)) as [(n & E)|(e & E)]; rewrite E; [left|right]; eexists; reflexivity.
Qed.
Lemma go_verbatim : forall lo (d : bool) s, well_formed s -> mem (if d then 34%N else 39%N) s = false ->
  go_parse lo ((if d then 34%N else 39%N) :: s ++ [if d then 34%N else 39%N]) = Ok (Some (mk_string s)).
Proof.
  intros lo d s (r & H) Hm. unfold go_parse. set (c := if d then 34%N else 39%N) in *. assert (Hc : (c < 128)%N) by (destruct d; reflexivity).
  assert (E : decode (c :: s ++ [c]) = c :: r ++ [c]).
  { rewrite decode_cons. destruct (N.ltb_spec c 128); [|lia]. f_equal. rewrite decode_mid by (assumption || (eapply utf8_bytes; eassumption)).
    now rewrite (decode_utf8 _ _ H). }
  rewrite E. subst c. rewrite (string_parse lo d r).
  - change (Ok (E := perr) (Some (mk_string (encode r))) = Ok (Some (mk_string s))). now rewrite (encode_utf8 _ _ H).
  - eapply scalar_valid, utf8_scalar, H.
  - eapply mem_utf8; eassumption.
Qed.
Lemma invalid_refuted : forall lo, exists b b' n m, Forall is_byte b /\ Forall is_byte b' /\ b <> b' /\
  go_parse lo b = Ok (Some n) /\ go_parse lo b' = Ok (Some n) /\ reach n m /\ is_string m = true /\
  nStr m = [239; 191; 189]%N /\ ~ part (nStr m) b.
Proof.
  intro lo. exists [39; 255; 39]%N, [39; 254; 39]%N, (mk_string [239; 191; 189]%N), (mk_string [239; 191; 189]%N).
  split; [repeat constructor|]. split; [repeat constructor|]. split; [intro K; discriminate K|]. split; [vm_compute; reflexivity|]. split; [vm_compute; reflexivity|].
  split; [apply reach_refl|]. split; [reflexivity|]. split; [reflexivity|]. intros (x & y & E). cbn in E.
  assert (K : In 239%N [39; 255; 39]%N) by (rewrite E; apply in_or_app; right; left; reflexivity). cbn in K. intuition discriminate.
Qed.
