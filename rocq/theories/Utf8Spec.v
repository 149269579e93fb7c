(** Specification of UTF-8: table 3-7 of the Unicode standard, and the weight of
    each byte. *)
From Verif Require Import Base Node.

Definition within (lo hi b : N) : Prop := (lo <= b <= hi)%N.

(** [utf8_char c s]: the bytes [s] are the character [c]. *)
Inductive utf8_char : N -> list N -> Prop :=
| u1 : forall a, within 0 127 a -> utf8_char a [a]
| u2 : forall a b, within 194 223 a -> within 128 191 b ->
    utf8_char ((a - 192) * 64 + (b - 128)) [a; b]
| u3 : forall a b c, within 128 191 c ->
    (a = 224 /\ within 160 191 b \/ within 225 236 a /\ within 128 191 b \/
     a = 237 /\ within 128 159 b \/ within 238 239 a /\ within 128 191 b)%N ->
    utf8_char ((a - 224) * 4096 + (b - 128) * 64 + (c - 128)) [a; b; c]
| u4 : forall a b c d, within 128 191 c -> within 128 191 d ->
    (a = 240 /\ within 144 191 b \/ within 241 243 a /\ within 128 191 b \/ a = 244 /\ within 128 143 b)%N ->
    utf8_char ((a - 240) * 262144 + (b - 128) * 4096 + (c - 128) * 64 + (d - 128)) [a; b; c; d].

(** [utf8 b s]: the bytes [b] are well-formed and mean the characters [s]. *)
Inductive utf8 : list N -> list N -> Prop :=
| utf8_nil : utf8 [] []
| utf8_cons : forall c x b s, utf8_char c x -> utf8 b s -> utf8 (x ++ b) (c :: s).
Definition well_formed (b : list N) : Prop := exists s, utf8 b s.

(** What a program that replaces each byte it can not read by U+FFFD reads. *)
Inductive lossy : list N -> list N -> Prop :=
| lossy_nil : lossy [] []
| lossy_char : forall c x b s, utf8_char c x -> lossy b s -> lossy (x ++ b) (c :: s)
| lossy_bad : forall a b s, (forall c x y, utf8_char c x -> a :: b <> x ++ y) -> lossy b s ->
    lossy (a :: b) (65533%N :: s).

(** Unicode scalar values *)
Definition scalar (c : N) : Prop := (c < 55296 \/ 57343 < c < 1114112)%N.

Definition is_byte (b : N) : Prop := (b < 256)%N.

(** a value node that holds a string *)
Definition is_string (m : node) : bool :=
  match nType m, nVType m with NValue, VString => true | _, _ => false end.
(** [s] stands in [t] between two quotes of the same kind. *)
Definition quoted_in (s t : list N) : Prop :=
  exists x y d, (d = 34 \/ d = 39)%N /\ t = x ++ d :: s ++ d :: y.
