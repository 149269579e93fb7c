(** The reader of SqlSpec: more fuel does no harm, its results are unique, and
    how it takes pieces apart. *)
From Verif Require Import Base Node Vocab Tree Syntax Gorm GormSpec SqlSpec.
Require Import Lia.

(** ** Fuel *)
Lemma lex_more : forall nl f t ts, lex nl f t = Some ts -> lex nl (S f) t = Some ts.
Proof.
  intros nl. induction f as [|f IH]; intros t ts H; [discriminate|]. cbn [lex] in H. cbn [lex].
  assert (N : forall k r ts, option_map (cons k) (lex nl f r) = Some ts -> option_map (cons k) (lex nl (S f) r) = Some ts).
  { intros k r u K. destruct (lex nl f r) as [v|] eqn:E; [|discriminate]. cbn [option_map] in K. injection K as <-. now rewrite (IH _ _ E). }
  destruct t as [|c r]; [exact H|]. destruct (nl (c :: r)) as [[x r']|]; [now apply N|].
  destruct (c =? 32)%N; [now apply IH|]. destruct (c =? 40)%N; [now apply N|]. destruct (c =? 41)%N; [now apply N|]. destruct (c =? 44)%N; [now apply N|].
  destruct (c =? 63)%N; [now apply N|].
  destruct (c =? 36)%N. { destruct (span is_digit r) as [[|d ds] r']; [discriminate|]. now apply N. }
  destruct (letter c). { destruct (span letter (c :: r)) as [w r']. now apply N. }
  destruct (sym_char c); [|discriminate]. destruct (span sym_char (c :: r)) as [w r']. now apply N.
Qed.
Lemma lex_fuel : forall nl f f' t ts, f <= f' -> lex nl f t = Some ts -> lex nl f' t = Some ts.
Proof. intros nl f f' t ts L H. induction L; [exact H|]. now apply lex_more. Qed.

Lemma rd_more : forall f g ts r, rd f g ts = Some r -> rd (S f) g ts = Some r.
Proof.
  induction f as [|f IH]; intros g ts r H; [discriminate|]. 
  assert (K : forall go go' : goal -> list tok -> option (sql * list tok), (forall g ts r, go g ts = Some r -> go' g ts = Some r) ->
    forall g ts r, step go g ts = Some r -> step go' g ts = Some r); [clear|exact (K _ _ IH _ _ _ H)].
  intros go go' IH' g ts r H. unfold step in *.
  destruct g;
    repeat match goal with
    | H : match go ?g ?ts with Some _ => _ | None => _ end = Some _ |- _ =>
        let E := fresh "E" in destruct (go g ts) as [[? ?]|] eqn:E; [apply IH' in E; rewrite E|discriminate]
    | H : go ?g ?ts = Some _ |- _ => apply IH' in H; exact H
    | H : Some _ = Some _ |- _ => exact H
    | H : None = Some _ |- _ => discriminate
    | H : match ?x with _ => _ end = Some _ |- _ => is_var x; destruct x
    | H : (if ?b then _ else _) = Some _ |- _ => destruct b
    end.
Qed.
Lemma rd_fuel : forall f f' g ts r, f <= f' -> rd f g ts = Some r -> rd f' g ts = Some r.
Proof. intros f f' g ts r L H. induction L; [exact H|]. now apply rd_more. Qed.

Lemma marks_unique : forall nl t args a b, reads_marks nl t args a -> reads_marks nl t args b -> a = b.
Proof.
  intros nl t args a b (f & ts & us & L & B & R) (f' & ts' & us' & L' & B' & R').
  apply (lex_fuel nl f (max f f')) in L; [|lia]. apply (lex_fuel nl f' (max f f')) in L'; [|lia]. rewrite L in L'. injection L' as <-.
  rewrite B in B'. injection B' as <-. apply (rd_fuel f (max f f')) in R; [|lia]. apply (rd_fuel f' (max f f')) in R'; [|lia]. rewrite R in R'. now injection R'.
Qed.
Lemma numbers_unique : forall nl t args a b, reads_numbers nl t args a -> reads_numbers nl t args b -> a = b.
Proof.
  intros nl t args a b (f & ts & us & L & B & R) (f' & ts' & us' & L' & B' & R').
  apply (lex_fuel nl f (max f f')) in L; [|lia]. apply (lex_fuel nl f' (max f f')) in L'; [|lia]. rewrite L in L'. injection L' as <-.
  rewrite B in B'. injection B' as <-. apply (rd_fuel f (max f f')) in R; [|lia]. apply (rd_fuel f' (max f f')) in R'; [|lia]. rewrite R in R'. now injection R'.
Qed.

(** ** What can be read *)
Definition R (g : goal) (ts : list tok) (r : sql * list tok) : Prop := exists f, rd f g ts = Some r.
Lemma R_or : forall ts a us r, R GAnd ts (a, us) -> R (GOrMore a) us r -> R GOr ts r.
Proof.
  intros ts a us r (f & H) (g & K). exists (S (max f g)). cbn [rd step]. rewrite (rd_fuel f (max f g) _ _ _ ltac:(lia) H). apply (rd_fuel g); [lia|exact K].
Qed.
Lemma R_and : forall ts a us r, R GNot ts (a, us) -> R (GAndMore a) us r -> R GAnd ts r.
Proof.
  intros ts a us r (f & H) (g & K). exists (S (max f g)). cbn [rd step]. rewrite (rd_fuel f (max f g) _ _ _ ltac:(lia) H). apply (rd_fuel g); [lia|exact K].
Qed.
Lemma R_cond : forall ts a us r, R GPrim ts (a, us) -> R (GCondMore a) us r -> R GCond ts r.
Proof.
  intros ts a us r (f & H) (g & K). exists (S (max f g)). cbn [rd step]. rewrite (rd_fuel f (max f g) _ _ _ ltac:(lia) H). apply (rd_fuel g); [lia|exact K].
Qed.
Lemma R_or_more : forall a ts b us r, R GAnd ts (b, us) -> R (GOrMore (QOr a b)) us r -> R (GOrMore a) (TWord #"or" :: ts) r.
Proof.
  intros a ts b us r (f & H) (g & K). exists (S (max f g)). cbn [rd step]. change (streq #"or" #"or") with true. cbv iota.
  rewrite (rd_fuel f (max f g) _ _ _ ltac:(lia) H). apply (rd_fuel g); [lia|exact K].
Qed.
Lemma R_and_more : forall a ts b us r, R GNot ts (b, us) -> R (GAndMore (QAnd a b)) us r -> R (GAndMore a) (TWord #"and" :: ts) r.
Proof.
  intros a ts b us r (f & H) (g & K). exists (S (max f g)). cbn [rd step]. change (streq #"and" #"and") with true. cbv iota.
  rewrite (rd_fuel f (max f g) _ _ _ ltac:(lia) H). apply (rd_fuel g); [lia|exact K].
Qed.
Lemma R_not : forall ts a us, R GNot ts (a, us) -> R GNot (TWord #"not" :: ts) (QNot a, us).
Proof. intros ts a us (f & H). exists (S f). cbn [rd step]. change (streq #"not" #"not") with true. cbv iota. now rewrite H. Qed.

(** the next token is not the word [w] *)
Definition no_word (w : list N) (ts : list tok) : Prop := match ts with TWord v :: _ => streq v w = false | _ => True end.
Lemma R_or_end : forall a ts, no_word #"or" ts -> R (GOrMore a) ts (a, ts).
Proof. intros a ts H. exists 1. cbn [rd step]. destruct ts as [|[]]; try reflexivity. cbn [no_word] in H. now rewrite H. Qed.
Lemma R_and_end : forall a ts, no_word #"and" ts -> R (GAndMore a) ts (a, ts).
Proof. intros a ts H. exists 1. cbn [rd step]. destruct ts as [|[]]; try reflexivity. cbn [no_word] in H. now rewrite H. Qed.
Lemma R_not_end : forall ts r, no_word #"not" ts -> R GCond ts r -> R GNot ts r.
Proof. intros ts r H (f & K). exists (S f). cbn [rd step]. destruct ts as [|[]]; try exact K. cbn [no_word] in H. now rewrite H. Qed.
(** nothing that continues a comparison *)
Definition stops (ts : list tok) : Prop :=
  match ts with TSym _ :: _ => False | TWord w :: _ => existsb (streq w) [#"like"; #"in"; #"between"; #"not"; #"is"] = false | _ => True end.
Lemma R_cond_end : forall a ts, stops ts -> R (GCondMore a) ts (a, ts).
Proof.
  intros a ts H. exists 1. cbn [rd step]. destruct ts as [|[]]; try reflexivity; [|destruct H]. cbn [stops existsb] in H.
  apply Bool.orb_false_iff in H as [H1 H]. apply Bool.orb_false_iff in H as [H2 H]. apply Bool.orb_false_iff in H as [H3 H]. apply Bool.orb_false_iff in H as [H4 H].
  apply Bool.orb_false_iff in H as [H5 _]. now rewrite H1, H2, H3, H4, H5.
Qed.
Lemma R_paren : forall ts a us, R GOr ts (a, TClose :: us) -> R GPrim (TOpen :: ts) (a, us).
Proof. intros ts a us (f & H). exists (S f). cbn [rd step]. now rewrite H. Qed.
Lemma R_date : forall ts a us, R GOr ts (a, TClose :: us) -> R GPrim (TWord #"date" :: TOpen :: ts) (QDate a, us).
Proof. intros ts a us (f & H). exists (S f). cbn [rd step]. change (streq #"date" #"null") with false. change (streq #"date" #"date") with true. cbv iota. now rewrite H. Qed.
Lemma R_name : forall x us, R GPrim (TName x :: us) (QCol x, us).
Proof. intros. now exists 1. Qed.
Lemma R_val : forall v us, R GPrim (TVal v :: us) (QVal v, us).
Proof. intros. now exists 1. Qed.
Lemma R_null : forall us, R GPrim (TWord #"null" :: us) (QVal GNil, us).
Proof. intros. now exists 1. Qed.
Lemma R_sym : forall s a ts b us, In s cmp_syms -> R GPrim ts (b, us) -> R (GCondMore a) (TSym s :: ts) (QCmp s a b, us).
Proof.
  intros s a ts b us I (f & H). exists (S f). cbn [rd step]. assert (E : existsb (streq s) cmp_syms = true) by (apply existsb_exists; exists s; split; [exact I|apply streq_refl]).
  rewrite E. now rewrite H.
Qed.
Lemma R_like : forall (neg : bool) a ts b us, R GPrim ts (b, us) ->
  R (GCondMore a) ((if neg then [TWord #"not"; TWord #"like"] else [TWord #"like"]) ++ ts) (QCmp (if neg then #"not like" else #"like") a b, us).
Proof. intros neg a ts b us (f & H). exists (S f). destruct neg; cbn; now rewrite H. Qed.
Lemma R_in : forall (neg : bool) a ts b us, R GRange ts (b, us) ->
  R (GCondMore a) ((if neg then [TWord #"not"; TWord #"in"] else [TWord #"in"]) ++ ts) (QCmp (if neg then #"not in" else #"in") a b, us).
Proof. intros neg a ts b us (f & H). exists (S f). destruct neg; cbn; now rewrite H. Qed.
Lemma R_between : forall (neg : bool) a ts b us c vs, R GPrim ts (b, TWord #"and" :: us) -> R GPrim us (c, vs) ->
  R (GCondMore a) ((if neg then [TWord #"not"; TWord #"between"] else [TWord #"between"]) ++ ts) (QBetween neg a b c, vs).
Proof.
  intros neg a ts b us c vs (f & H) (g & K). exists (S (max f g)). apply (rd_fuel f (max f g)) in H; [|lia]. apply (rd_fuel g (max f g)) in K; [|lia].
  destruct neg; cbn; rewrite H; cbn; now rewrite K.
Qed.
Lemma R_is : forall (neg : bool) w a us, In w [#"null"; #"true"; #"false"] ->
  R (GCondMore a) ((if neg then [TWord #"is"; TWord #"not"; TWord w] else [TWord #"is"; TWord w]) ++ us) (QPred ((if neg then #"is not " else #"is ") ++ w) a, us).
Proof. intros neg w a us I. exists 1. cbn [In] in I. destruct I as [<-|[<-|[<-|[]]]]; destruct neg; reflexivity. Qed.
Lemma R_range_val : forall v us, R GRange (TVal v :: us) (QVal v, us).
Proof. intros. now exists 1. Qed.
Lemma R_range : forall ts a us r, R GPrim ts (a, us) -> R (GMore [a]) us r -> R GRange (TOpen :: ts) r.
Proof.
  intros ts a us r (f & H) (g & K). exists (S (max f g)). cbn [rd step]. rewrite (rd_fuel f (max f g) _ _ _ ltac:(lia) H). apply (rd_fuel g); [lia|exact K].
Qed.
Lemma R_more : forall l ts a us r, R GPrim ts (a, us) -> R (GMore (l ++ [a])) us r -> R (GMore l) (TComma :: ts) r.
Proof.
  intros l ts a us r (f & H) (g & K). exists (S (max f g)). cbn [rd step]. rewrite (rd_fuel f (max f g) _ _ _ ltac:(lia) H). apply (rd_fuel g); [lia|exact K].
Qed.
Lemma R_close : forall l us, R (GMore l) (TClose :: us) (QList l, us).
Proof. intros. now exists 1. Qed.
