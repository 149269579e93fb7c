(** Specification: Go string literals in double quotes, as strconv.Quote writes
    them; and decimal numbers. *)
From Verif Require Import Base Vocab.

Definition hex_digit (c : N) : option N :=
  if (48 <=? c)%N && (c <=? 57)%N then Some (c - 48)%N
  else if (97 <=? c)%N && (c <=? 102)%N then Some (c - 87)%N else None.
(** the number [ds] stands for in base 16 *)
Fixpoint hex_value (acc : N) (ds : list N) : option N :=
  match ds with
  | [] => Some acc
  | c :: ds' => match hex_digit c with Some v => hex_value (16 * acc + v)%N ds' | None => None end
  end.

(** escapes of one letter, as in the Go specification *)
Definition escapes : list (N * list N) :=
  [(7, #"a"); (8, #"b"); (12, #"f"); (10, #"n"); (13, #"r"); (9, #"t"); (11, #"v")]%N.

Section Quote.
  Variable is_print : N -> bool.
  (** [spells c t]: the text [t] stands for the character [c]: printable
      characters for themselves, but quote and backslash escaped; others by the
      shortest escape there is. *)
  Inductive spells : N -> list N -> Prop :=
  | sp_plain : forall c, is_print c = true -> c <> 34%N -> c <> 92%N -> spells c [c]
  | sp_mark : forall c, c = 34%N \/ c = 92%N -> spells c (#"\" ++ [c])
  | sp_escape : forall c t, is_print c = false -> In (c, t) escapes -> spells c (#"\" ++ t)
  | sp_x : forall c ds, is_print c = false -> (forall t, ~ In (c, t) escapes) -> (c < 32 \/ c = 127)%N ->
      length ds = 2 -> hex_value 0 ds = Some c -> spells c (#"\x" ++ ds)
  | sp_u : forall c ds, is_print c = false -> (32 <= c < 65536)%N -> c <> 127%N -> c <> 34%N -> c <> 92%N ->
      length ds = 4 -> hex_value 0 ds = Some c -> spells c (#"\u" ++ ds)
  | sp_U : forall c ds, is_print c = false -> (65536 <= c)%N ->
      length ds = 8 -> hex_value 0 ds = Some c -> spells c (#"\U" ++ ds).
  Inductive spelling : list N -> list N -> Prop :=
  | spg_nil : spelling [] []
  | spg_cons : forall c s t u, spells c t -> spelling s u -> spelling (c :: s) (t ++ u).
  Definition literal (s l : list N) : Prop := exists t, spelling s t /\ l = 34%N :: t ++ [34%N].
End Quote.

(** [ds] is the number [n] in base 10, without leading zeros *)
Definition decimal (n : nat) (ds : list N) : Prop :=
  Forall (fun c => (48 <= c <= 57)%N) ds /\ ds <> [] /\ dec_value ds = Z.of_nat n /\
  (n <> 0 -> exists c r, ds = c :: r /\ c <> 48%N) /\ (n = 0 -> ds = [48%N]).

Definition control (c : N) : bool := (c <? 32)%N || (c =? 127)%N.
