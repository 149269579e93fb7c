(** Proofs for C94: queries with has_edge, read as SQL. *)
From Verif Require Import Base Peg Node Vocab Tree Parse Syntax Blank ParseProofs NormProofs Unique ParserFacts ParserFacts2 ParserMain Build BuildProofs NodeFacts SafeInd
  Gorm GormSpec GormProofs GormFacts GormFacts2 GormFacts3 GormFacts4 TreeFacts EntSQL EntSQLSpec EntSQLProofs EntSQLFacts EntSQLFacts2 SqlSpec SqlProofs SqlProofs2 SqlProofs3 SqlGorm SqlDialect
  SqlSpecDb SqlDbFacts SqlSpecEntDb SqlLoose SqlEnt EntSQLFacts3 SqlEntLoose SqlEntDbFacts SqlSpecWhere SqlWhere3 EntWhere SqlSpecEntWhere SqlEntWhere NestSpec.
Require Import Lia.
Strategy expand [parse_machine rule_trace].
Strategy 1000 [parse_fuel mrun tok_trace].

(** ** Marks in texts *)
Lemma spelled_app : forall word a b, spelled word (a ++ b) = spelled word a ++ spelled word b.
Proof. intros. unfold spelled. apply flat_map_app. Qed.
Lemma spelled_proper : forall word t, proper t -> spelled word t = t.
Proof.
  intros word t. unfold proper, spelled. induction t as [|c t IH]; intro H; [reflexivity|]. cbn [forallb] in H. apply andb_prop in H as [H1 H2]. apply Bool.negb_true_iff in H1.
  cbn [flat_map]. rewrite H1, IH by exact H2. reflexivity.
Qed.
Lemma proper_app : forall a b, proper a -> proper b -> proper (a ++ b).
Proof. intros a b A B. unfold proper in *. now rewrite forallb_app, A, B. Qed.
Lemma digits_proper : forall t, forallb is_digit t = true -> proper t.
Proof.
  unfold proper. induction t as [|c t IH]; intro H; [reflexivity|]. cbn [forallb] in *. apply andb_prop in H as [H1 H2]. rewrite IH by exact H2. rewrite Bool.andb_true_r.
  unfold is_digit in H1. apply andb_prop in H1 as [_ H1]. apply N.leb_le in H1. unfold is_mark. apply Bool.negb_true_iff, N.leb_gt. lia.
Qed.
Lemma unquoted_unmarked : forall c, unquoted c = true -> is_mark c = false.
Proof.
  intros c H. unfold is_mark. apply N.leb_gt. unfold unquoted, letter, sym_char in H. rewrite !Bool.orb_true_iff, !Bool.andb_true_iff in H.
  assert (M : forall l, forallb (fun x => x <=? 127)%N l = true -> mem c l = true -> (c <= 127)%N).
  { induction l as [|x l IH]; intros A B; [discriminate B|]. cbn [forallb] in A. apply andb_prop in A as [A1 A2]. cbn [mem existsb] in B. apply Bool.orb_prop in B as [B|B]; [apply N.eqb_eq in B; subst; now apply N.leb_le|now apply IH]. }
  destruct H as [[H|[[_ H]|[_ H]]]|H]; [apply M in H; [lia|reflexivity]|apply N.leb_le in H; lia|apply N.leb_le in H; lia|apply M in H; [lia|reflexivity]].
Qed.

(** ** Taking the subselects out *)
Section Cutting.
  Variable opens : N -> bool.
  Notation cl := (closed opens).
  Notation sub := (subselect opens).
  Definition bal (ts : list tok) : Prop := forall k r, cl k (ts ++ r) = cl k r.
  Lemma bal_nil : bal [].
  Proof. intros k r. reflexivity. Qed.
  Lemma bal_app : forall a b, bal a -> bal b -> bal (a ++ b).
  Proof. intros a b A B k r. now rewrite <- app_assoc, A, B. Qed.
  Lemma bal_closed : forall a, bal a -> cl 0 a = true.
  Proof. intros a H. specialize (H 0 []). now rewrite app_nil_r in H. Qed.
  Lemma closed_more : forall ts j k r, cl j ts = true -> cl (j + k) (ts ++ r) = cl k r.
  Proof.
    induction ts as [|x ts IH]; intros j k r H.
    - cbn [closed] in H. apply Nat.eqb_eq in H. now subst.
    - cbn [app closed] in *. destruct x; try (now apply (IH (S j))); try (destruct (sub _); [now apply (IH (S j))|now apply IH]).
      destruct j as [|j]; [discriminate H|]. cbn [Nat.add]. now apply IH.
  Qed.
  Lemma closed_bal : forall ts, cl 0 ts = true -> bal ts.
  Proof. intros ts H k r. exact (closed_more ts 0 k r H). Qed.
  Definition plain1 (x : tok) : bool := match x with TOpen | TClose => false | x => negb (sub x) end.
  Definition plains (ts : list tok) : Prop := forallb plain1 ts = true.
  Lemma plains_app : forall a b, plains a -> plains b -> plains (a ++ b).
  Proof. intros a b A B. unfold plains in *. now rewrite forallb_app, A, B. Qed.
  Lemma plains_bal : forall ts, plains ts -> bal ts.
  Proof.
    unfold plains. induction ts as [|x ts IH]; intros H k r; [reflexivity|]. cbn [forallb] in H. apply andb_prop in H as [H1 H2]. specialize (IH H2 k r).
    cbn [app closed]. destruct x; try discriminate H1; cbn [plain1] in H1; try exact IH. apply Bool.negb_true_iff in H1. rewrite H1. exact IH.
  Qed.
  Lemma bal_paren : forall a, bal a -> bal ([TOpen] ++ a ++ [TClose]).
  Proof. intros a A k r. cbn [app closed]. rewrite <- app_assoc, A. reflexivity. Qed.
  Lemma bal_sub : forall c a, sub (TName [c]) = true -> bal a -> bal (TName [c] :: a ++ [TClose]).
  Proof. intros c a H A k r. cbn [app closed]. rewrite H, <- app_assoc, A. reflexivity. Qed.

  Lemma reads_all_app : forall a x b y, reads_all opens a x -> reads_all opens b y -> reads_all opens (a ++ b) (x ++ y).
  Proof. intros a x b y H K. induction H; [exact K|]. cbn [app]. now constructor. Qed.
  Lemma reads_all_length : forall a x, reads_all opens a x -> length x = length a.
  Proof. induction 1; cbn; congruence. Qed.
  Lemma cuts_app : forall k a a' i b b' j, cuts opens k a a' i -> cuts opens (k + length i) b b' j -> cuts opens k (a ++ b) (a' ++ b') (i ++ j).
  Proof.
    intros k a a' i b b' j H. revert b b' j. induction H as [k|k x ts us ins S H IH|k c inner ts us ins S C H IH]; intros b b' j K.
    - cbn [length app] in *. now rewrite Nat.add_0_r in K.
    - cbn [app]. apply cuts_token; [exact S|]. now apply IH.
    - cbn [length app] in *. rewrite <- app_assoc. cbn [app]. apply cuts_sub; [exact S|exact C|]. apply IH. now rewrite Nat.add_succ_comm.
  Qed.
  Lemma cuts_plain : forall ts k, forallb (fun x => negb (sub x)) ts = true -> cuts opens k ts ts [].
  Proof.
    induction ts as [|x ts IH]; intros k H; [constructor|]. cbn [forallb] in H. apply andb_prop in H as [H1 H2]. apply cuts_token; [now apply Bool.negb_true_iff|now apply IH].
  Qed.
  Lemma plains_subs : forall ts, plains ts -> forallb (fun x => negb (sub x)) ts = true.
  Proof.
    unfold plains. induction ts as [|x ts IH]; intro H; [reflexivity|]. cbn [forallb] in *. apply andb_prop in H as [H1 H2]. rewrite IH by exact H2. rewrite Bool.andb_true_r. destruct x; (discriminate H1 || exact H1 || reflexivity).
  Qed.
  (** [bts] with the subselects [subs] taken out *)
  Definition Cut (k : nat) (bts cts : list tok) (subs : list nested) : Prop := exists ins, cuts opens k bts cts ins /\ reads_all opens ins subs.
  Lemma Cut_app : forall k a a' s b b' s', Cut k a a' s -> Cut (k + length s) b b' s' -> Cut k (a ++ b) (a' ++ b') (s ++ s').
  Proof.
    intros k a a' s b b' s' (i & C1 & R1) (j & C2 & R2). exists (i ++ j). split; [|now apply reads_all_app]. apply cuts_app; [exact C1|]. now rewrite <- (reads_all_length i s R1).
  Qed.
  Lemma Cut_plain : forall k ts, forallb (fun x => negb (sub x)) ts = true -> Cut k ts ts [].
  Proof. intros k ts H. exists []. split; [now apply cuts_plain|constructor]. Qed.
  Lemma Cut_plains : forall k ts, plains ts -> Cut k ts ts [].
  Proof. intros k ts H. apply Cut_plain. now apply plains_subs. Qed.
  Lemma Cut_before : forall k p a a' s, forallb (fun x => negb (sub x)) p = true -> Cut k a a' s -> Cut k (p ++ a) (p ++ a') s.
  Proof. intros k p a a' s H C. change s with ([] ++ s). apply Cut_app; [now apply Cut_plain|]. cbn [length]. now rewrite Nat.add_0_r. Qed.
  Lemma Cut_after : forall k p a a' s, forallb (fun x => negb (sub x)) p = true -> Cut k a a' s -> Cut k (a ++ p) (a' ++ p) s.
  Proof. intros k p a a' s H C. rewrite <- (app_nil_r s). apply Cut_app; [exact C|now apply Cut_plain]. Qed.
  Lemma Cut_sub : forall k c inner s, sub (TName [c]) = true -> bal inner -> reads_tokens opens inner s -> Cut k (TName [c] :: inner ++ [TClose]) [TName [c; N.of_nat k]] [s].
  Proof.
    intros k c inner s S B H. exists [inner]. split; [|now repeat constructor]. apply cuts_sub; [exact S|now apply bal_closed|constructor].
  Qed.
  Lemma Cut_reads : forall ts us subs a, Cut 0 ts us subs -> R GOr us (a, []) -> reads_tokens opens ts (Nest a subs).
  Proof. intros ts us subs a (ins & C & RA) (f & H). now apply (reads_tokens_intro opens ts us ins f a subs). Qed.

  (** there is one way to do it *)
  Lemma closed_split : forall a x b y, cl 0 a = true -> cl 0 b = true -> a ++ TClose :: x = b ++ TClose :: y -> a = b /\ x = y.
  Proof.
    assert (L : forall a z, cl 0 a = true -> cl 0 (a ++ TClose :: z) = false).
    { intros a z A. rewrite (closed_bal a A). reflexivity. }
    intros a x b y A B E. apply app_eq_app in E as (l & [[E1 E2]|[E1 E2]]).
    - destruct l as [|t l]; [rewrite app_nil_r in E1; injection E2 as ->; now split|]. injection E2 as <- ->. rewrite E1, (L b l B) in A. discriminate A.
    - destruct l as [|t l]; [rewrite app_nil_r in E1; injection E2 as ->; now split|]. injection E2 as <- ->. rewrite E1, (L a l A) in B. discriminate B.
  Qed.
  Lemma cuts_unique : forall k ts us ins, cuts opens k ts us ins -> forall us' ins', cuts opens k ts us' ins' -> us = us' /\ ins = ins'.
  Proof.
    induction 1 as [k|k x ts us ins S H IH|k c inner ts us ins S C H IH]; intros us' ins' K.
    - inversion K. now split.
    - inversion K; subst; [|congruence]. match goal with X : cuts _ _ ts _ _ |- _ => destruct (IH _ _ X) as [-> ->] end. now split.
    - inversion K as [|? ? ? ? ? S' K'|? ? inner' ts' us2 ins2 S' C' K' E1 E2]; subst; [congruence|].
      match goal with X : _ ++ TClose :: _ = _ ++ TClose :: _ |- _ => apply closed_split in X as [-> ->]; [|assumption..] end. destruct (IH _ _ K') as [-> ->]. now split.
  Qed.
  Scheme reads_tokens_mind := Induction for reads_tokens Sort Prop
  with reads_all_mind := Induction for reads_all Sort Prop.
  Lemma reads_tokens_unique : forall ts s, reads_tokens opens ts s -> forall s', reads_tokens opens ts s' -> s = s'.
  Proof.
    intros ts s H. refine (reads_tokens_mind opens (fun ts s _ => forall s', reads_tokens opens ts s' -> s = s') (fun tss ss _ => forall ss', reads_all opens tss ss' -> ss = ss') _ _ _ ts s H); clear ts s H.
    - intros ts us ins f a subs C RD RA IH s' K. inversion K as [ts' us' ins' f' a' subs' C' RD' RA']; subst. destruct (cuts_unique _ _ _ _ C _ _ C') as [<- <-].
      assert (E : Some (a, @nil tok) = Some (a', [])) by (rewrite <- (rd_fuel f (max f f') _ _ _ ltac:(lia) RD), <- (rd_fuel f' (max f f') _ _ _ ltac:(lia) RD'); reflexivity).
      injection E as <-. f_equal. now apply IH.
    - intros ss' K. now inversion K.
    - intros ts s tss ss _ IH1 _ IH2 ss' K. inversion K; subst. f_equal; auto.
  Qed.
End Cutting.

Definition at_ (k : nat) (subs S : list nested) : Prop := forall j s, nth_error subs j = Some s -> nth_error S (k + j) = Some s.
Lemma at_app : forall k a b S, at_ k (a ++ b) S -> at_ k a S /\ at_ (k + length a) b S.
Proof.
  intros k a b S H. split; intros j s E.
  - apply H. rewrite nth_error_app1; [exact E|]. apply nth_error_Some. congruence.
  - rewrite <- Nat.add_assoc. apply H. rewrite nth_error_app2 by lia. rewrite <- E. f_equal. lia.
Qed.
Lemma at_self : forall S, at_ 0 S S.
Proof. intros S j s E. exact E. Qed.
Definition view (w : world) (R : rows w) (env : list (rRow R)) (S : list nested) : list N -> wV w := in_view w R env (map (fun s r => nested_means w R (r :: env) s) S).
Lemma view_name : forall w R env S x, marked x = false -> view w R env S x = rGet R env x.
Proof. intros w R env S [|c l] H; [reflexivity|]. cbn [marked] in H. unfold view. cbn [in_view]. now rewrite H. Qed.
