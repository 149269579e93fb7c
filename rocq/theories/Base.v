(** Common vocabulary of the model.

    A Go string that the code treats as text is modelled by the list of its
    runes (Unicode code points) as [N]; this is what [[]rune(p.Buffer)] gives
    (miniquery/miniquery.peg.go:465).  Byte strings and UTF-8 are in Utf8.v
    only. *)
From Coq Require Export String Ascii.
From Coq Require Export NArith ZArith Lia Bool List.
Export ListNotations.

Notation rune := N (only parsing).
Notation str := (list N) (only parsing).

(** ASCII string literal to runes. *)
Fixpoint runes_of (s : string) : list N :=
  match s with
  | EmptyString => []
  | String a t => N_of_ascii a :: runes_of t
  end.
Arguments runes_of s%string.
Notation "# s" := (runes_of s%string) (at level 1, s at level 0, format "# s").

(** Rune-list equality test. *)
Fixpoint streq (a b : list N) : bool :=
  match a, b with
  | [], [] => true
  | x :: a', y :: b' => (x =? y)%N && streq a' b'
  | _, _ => false
  end.

Lemma streq_spec : forall a b, reflect (a = b) (streq a b).
Proof.
  induction a as [|x a IH]; destruct b as [|y b]; cbn; try (constructor; congruence).
  destruct (N.eqb_spec x y) as [->|Hn]; cbn.
  - destruct (IH b) as [->|Hn]; constructor; congruence.
  - constructor; congruence.
Qed.

Lemma streq_refl : forall a, streq a a = true.
Proof. intros a; destruct (streq_spec a a); congruence. Qed.

Lemma streq_eq : forall a b, streq a b = true -> a = b.
Proof. intros a b H; destruct (streq_spec a b); congruence. Qed.

(** Lookup in a Go map literal, modelled as an association list. *)
Fixpoint assoc {A} (k : list N) (m : list (list N * A)) : option A :=
  match m with
  | [] => None
  | (k', v) :: m' => if streq k k' then Some v else assoc k m'
  end.

Definition mem (c : N) (l : list N) : bool := existsb (N.eqb c) l.

(** Outcome of Go code that may return an error or panic. *)
Inductive outcome (E A : Type) : Type :=
| Ok (a : A)
| Err (e : E)
| Panic.
Arguments Ok {E A} a.
Arguments Err {E A} e.
Arguments Panic {E A}.

(** The rune that ends the parser's buffer: not a Unicode code point, so no
    Go string contains it (miniquery/miniquery.peg.go:14). *)
Definition endSymbol : N := 1114112.

(** [q] is the rune sequence of a Go string. *)
Definition valid_runes (q : list N) : Prop := Forall (fun c => (c < endSymbol)%N) q.
Definition valid_runesb (q : list N) : bool := forallb (fun c => (c <? endSymbol)%N) q.

Lemma valid_runesb_spec : forall q, valid_runesb q = true <-> valid_runes q.
Proof.
  intros q; unfold valid_runesb, valid_runes; rewrite forallb_forall, Forall_forall.
  split; intros H x Hx; specialize (H x Hx); rewrite N.ltb_lt in *; exact H.
Qed.
