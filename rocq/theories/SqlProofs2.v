(** From the text to the tokens. *)
From Verif Require Import Base Node Vocab Tree Syntax Gorm GormSpec SqlSpec SqlProofs.
Require Import Lia.

Lemma span_all : forall p w t, forallb p w = true -> match t with c :: _ => p c = false | [] => True end -> span p (w ++ t) = (w, t).
Proof.
  intros p w t. induction w as [|c w IH]; intros H K; cbn [app span].
  - destruct t as [|c t]; cbn [span]; [reflexivity|]. now rewrite K.
  - cbn [forallb] in H. apply andb_prop in H as [H1 H2]. now rewrite H1, IH.
Qed.

Section Tok.
  Variable nl : list N -> option (list N * list N).
  Variable bind : list gval -> list tok -> option (list tok).
  (** the text and the arguments give the tokens *)
  Definition TK (t : list N) (args : list gval) (us : list tok) : Prop := exists f ts, lex nl f t = Some ts /\ bind args ts = Some us.

  Hypothesis bind_other : forall args k ts, k <> TMark -> (forall n, k <> TNumber n) -> bind args (k :: ts) = option_map (cons k) (bind args ts).
  Hypothesis plain_start : forall c t, unquoted c = true -> nl (c :: t) = None.

  Lemma TK_blank : forall t args us, TK t args us -> TK (#" " ++ t) args us.
  Proof. intros t args us (f & ts & L & B). exists (S f), ts. split; [|exact B]. change (#" " ++ t) with (32%N :: t). cbn [lex]. rewrite plain_start by reflexivity. exact L. Qed.
  Lemma TK_next : forall t args us s k, (forall f, lex nl (S f) (s ++ t) = option_map (cons k) (lex nl f t)) -> k <> TMark -> (forall n, k <> TNumber n) ->
    TK t args us -> TK (s ++ t) args (k :: us).
  Proof.
    intros t args us s k H K1 K2 (f & ts & L & B). exists (S f), (k :: ts). split; [now rewrite H, L|]. now rewrite bind_other, B.
  Qed.
  Lemma TK_open : forall t args us, TK t args us -> TK (#"(" ++ t) args (TOpen :: us).
  Proof. intros t args us. apply TK_next; try discriminate. intro f. change (#"(" ++ t) with (40%N :: t). cbn [lex]. now rewrite plain_start by reflexivity. Qed.
  Lemma TK_close : forall t args us, TK t args us -> TK (#")" ++ t) args (TClose :: us).
  Proof. intros t args us. apply TK_next; try discriminate. intro f. change (#")" ++ t) with (41%N :: t). cbn [lex]. now rewrite plain_start by reflexivity. Qed.
  Lemma TK_comma : forall t args us, TK t args us -> TK (#"," ++ t) args (TComma :: us).
  Proof. intros t args us. apply TK_next; try discriminate. intro f. change (#"," ++ t) with (44%N :: t). cbn [lex]. now rewrite plain_start by reflexivity. Qed.

  Definition no_letter (t : list N) : Prop := match t with c :: _ => letter c = false | [] => True end.
  Definition no_sym (t : list N) : Prop := match t with c :: _ => sym_char c = false | [] => True end.
  Lemma TK_word : forall w t args us, w <> [] -> forallb letter w = true -> no_letter t -> TK t args us -> TK (w ++ t) args (TWord (map ascii_lower w) :: us).
  Proof.
    intros w t args us Hw Hl Ht. apply TK_next; try discriminate. intro f. destruct w as [|c w]; [congruence|]. cbn [app]. unfold lex at 1. fold (lex nl).
    assert (Hc : letter c = true) by (cbn [forallb] in Hl; now apply andb_prop in Hl).
    assert (D : (65 <= c <= 90 \/ 97 <= c <= 122)%N).
    { unfold letter in Hc. apply Bool.orb_prop in Hc as [Hc|Hc]; apply andb_prop in Hc as [A B]; apply N.leb_le in A; apply N.leb_le in B; lia. }
    rewrite plain_start. 2:{ unfold unquoted. rewrite Hc. now rewrite Bool.orb_true_r. }
    rewrite (proj2 (N.eqb_neq c 32)), (proj2 (N.eqb_neq c 40)), (proj2 (N.eqb_neq c 41)), (proj2 (N.eqb_neq c 44)), (proj2 (N.eqb_neq c 63)), (proj2 (N.eqb_neq c 36)) by lia.
    rewrite Hc. change (c :: w ++ t) with ((c :: w) ++ t). now rewrite span_all.
  Qed.
  Lemma sym_three : forall c, sym_char c = true -> c = 60%N \/ c = 61%N \/ c = 62%N.
  Proof. intros c H. unfold sym_char in H. cbn in H. rewrite !Bool.orb_true_iff, !N.eqb_eq in H. destruct H as [H|[H|[H|H]]]; auto. discriminate. Qed.
  Lemma TK_sym : forall w t args us, w <> [] -> forallb sym_char w = true -> no_sym t -> TK t args us -> TK (w ++ t) args (TSym w :: us).
  Proof.
    intros w t args us Hw Hl Ht. apply TK_next; try discriminate. intro f. destruct w as [|c w]; [congruence|]. cbn [app]. unfold lex at 1. fold (lex nl).
    assert (Hc : sym_char c = true) by (cbn [forallb] in Hl; now apply andb_prop in Hl).
    rewrite plain_start. 2:{ unfold unquoted. rewrite Hc. now rewrite Bool.orb_true_r. }
    assert (S : span sym_char (c :: w ++ t) = (c :: w, t)) by (change (c :: w ++ t) with ((c :: w) ++ t); now apply span_all).
    destruct (sym_three c Hc) as [E|[E|E]]; subst c; cbn -[lex span]; now rewrite S.
  Qed.
  Lemma TK_name : forall quote col P x t args us, quotes nl quote col P -> P x -> ends_name t -> TK t args us -> TK (quote x ++ t) args (TName (col x) :: us).
  Proof.
    intros quote col P x t args us (_ & H1 & H2) Hx Ht. apply TK_next; try discriminate. intro f. specialize (H1 x Hx). pose proof (H2 x t Hx Ht) as E.
    destruct (quote x) as [|c q] eqn:Q; [congruence|]. cbn [app] in *. cbn [lex]. now rewrite E.
  Qed.
  Lemma TK_nil : bind [] [] = Some [] -> TK [] [] [].
  Proof. intro B. exists 1, []. now split. Qed.

  (** words and symbols, one blank apart *)
  Lemma ends_no_letter : forall t, ends_name t -> no_letter t.
  Proof.
    intros [|c t] H; [exact I|]. cbn [ends_name] in H. cbn [no_letter]. cbn in H. rewrite !Bool.orb_true_iff, !N.eqb_eq in H.
    destruct H as [H|[H|[H|H]]]; [| | |discriminate]; now rewrite H.
  Qed.
  Lemma ends_no_sym : forall t, ends_name t -> no_sym t.
  Proof.
    intros [|c t] H; [exact I|]. cbn [ends_name] in H. cbn [no_sym]. cbn in H. rewrite !Bool.orb_true_iff, !N.eqb_eq in H.
    destruct H as [H|[H|[H|H]]]; [| | |discriminate]; now rewrite H.
  Qed.
End Tok.

Lemma marks_other : forall args k ts, k <> TMark -> (forall n, k <> TNumber n) -> bind_marks args (k :: ts) = option_map (cons k) (bind_marks args ts).
Proof. intros args k ts H1 H2. destruct k; try reflexivity. congruence. Qed.
Lemma numbers_other : forall args k ts, k <> TMark -> (forall n, k <> TNumber n) -> bind_numbers args (k :: ts) = option_map (cons k) (bind_numbers args ts).
Proof. intros args k ts H1 H2. destruct k; try reflexivity. now destruct (H2 k). Qed.

(** ** Pieces of gormq *)
Definition optoks (s : list N) : list tok :=
  if existsb (streq s) cmp_syms then [TSym s] else map TWord (Vocab.pieces [] s).
Section Pieces.
  Variable nl : list N -> option (list N * list N).
  Variable quote : list N -> list N.
  Variable P : list N -> Prop.
  Hypothesis Q : quotes nl quote (fun c => c) P.
  Notation TKm := (TK nl bind_marks).
  Let ps0 : forall c t, unquoted c = true -> nl (c :: t) = None := proj1 Q.

  Definition L (ps : list piece) (bts : list tok) : Prop :=
    forall rest vr br, ends_name rest -> TKm rest vr br -> TKm (sql_text quote ps ++ rest) (values ps ++ vr) (bts ++ br).
  Lemma text_app : forall a b, sql_text quote (a ++ b) = sql_text quote a ++ sql_text quote b.
  Proof. intros. unfold sql_text. now rewrite map_app, concat_app. Qed.
  Lemma values_app : forall a b, values (a ++ b) = values a ++ values b.
  Proof. intros. unfold values. now rewrite map_app, concat_app. Qed.
  Lemma text_cons : forall t b, sql_text quote (PText t :: b) = t ++ sql_text quote b.
  Proof. reflexivity. Qed.
  Lemma values_cons : forall t b, values (PText t :: b) = values b.
  Proof. reflexivity. Qed.

  Lemma L_value : forall v, L [PValue v] [TVal v].
  Proof.
    intros v rest vr br _ (f & ts & H & B). exists (S f), (TMark :: ts). split.
    - change (sql_text quote [PValue v] ++ rest) with (63%N :: rest). cbn [lex]. rewrite ps0 by reflexivity. cbn -[lex]. now rewrite H.
    - change (values [PValue v] ++ vr) with (v :: vr). cbn [bind_marks]. now rewrite B.
  Qed.
  Lemma L_column : forall c, P c -> L [PColumn c] [TName c].
  Proof.
    intros c Hc rest vr br E K. replace (sql_text quote [PColumn c]) with (quote c) by (unfold sql_text; cbn; now rewrite app_nil_r).
    apply (TK_name nl bind_marks marks_other quote (fun c => c) P); assumption.
  Qed.
  Lemma L_paren : forall a ta, L a ta -> L (PText #"(" :: a ++ [PText #")"]) (TOpen :: ta ++ [TClose]).
  Proof.
    intros a ta H rest vr br E K. rewrite text_cons, text_app, values_cons, values_app. change (values [PText #")"]) with (@nil gval). rewrite app_nil_r.
    change (sql_text quote [PText #")"]) with #")". rewrite <- !app_assoc. cbn [app]. change (40%N :: sql_text quote a ++ 41%N :: rest) with (#"(" ++ sql_text quote a ++ #")" ++ rest).
    apply (TK_open nl bind_marks marks_other ps0). rewrite <- app_assoc. apply H; [reflexivity|]. now apply (TK_close nl bind_marks marks_other ps0).
  Qed.
  Lemma L_not : forall a ta, L a ta -> L (PText #"not " :: a) (TWord #"not" :: ta).
  Proof.
    intros a ta H rest vr br E K. rewrite text_cons, values_cons. change #"not " with (#"not" ++ #" "). rewrite <- !app_assoc.
    apply (TK_word nl bind_marks marks_other ps0 #"not"); [discriminate|reflexivity|reflexivity|]. apply (TK_blank nl bind_marks ps0). now apply H.
  Qed.
  Lemma L_date : forall a ta, L a ta -> L (PText #"date" :: PText #"(" :: a ++ [PText #")"]) (TWord #"date" :: TOpen :: ta ++ [TClose]).
  Proof.
    intros a ta H rest vr br E K. rewrite text_cons, values_cons. rewrite <- !app_assoc.
    apply (TK_word nl bind_marks marks_other ps0 #"date"); [discriminate|reflexivity|reflexivity|]. now apply (L_paren a ta H).
  Qed.
  Lemma L_blank : forall a ta b tb, L a ta -> L b tb -> L (a ++ PText #" " :: b) (ta ++ tb).
  Proof.
    intros a ta b tb A B rest vr br E K. rewrite text_app, values_app, text_cons, values_cons, <- !app_assoc. apply A; [reflexivity|].
    apply (TK_blank nl bind_marks ps0). now apply B.
  Qed.
  Lemma L_and : forall a ta b tb, L a ta -> L b tb -> L (a ++ PText #" and " :: b) (ta ++ TWord #"and" :: tb).
  Proof.
    intros a ta b tb A B rest vr br E K. rewrite text_app, values_app, text_cons, values_cons, <- !app_assoc. apply A; [reflexivity|].
    change (#" and " ++ sql_text quote b ++ rest) with (#" " ++ #"and" ++ #" " ++ sql_text quote b ++ rest).
    apply (TK_blank nl bind_marks ps0). cbn [app]. change (97%N :: 110%N :: 100%N :: 32%N :: sql_text quote b ++ rest) with (#"and" ++ #" " ++ sql_text quote b ++ rest).
    apply (TK_word nl bind_marks marks_other ps0 #"and"); [discriminate|reflexivity|reflexivity|]. apply (TK_blank nl bind_marks ps0). now apply B.
  Qed.
  Lemma L_sym : forall s, In s cmp_syms -> L [PText s] [TSym s].
  Proof.
    intros s I rest vr br E K. replace (sql_text quote [PText s]) with s by (unfold sql_text; cbn; now rewrite app_nil_r).
    apply (TK_sym nl bind_marks marks_other ps0); [| |now apply ends_no_sym|exact K]; cbn [In cmp_syms] in I; decompose [or] I; subst; try discriminate; try reflexivity; contradiction.
  Qed.
  Lemma L_word : forall w, w <> [] -> forallb letter w = true -> L [PText w] [TWord (map ascii_lower w)].
  Proof.
    intros w I1 I2 rest vr br E K. replace (sql_text quote [PText w]) with w by (unfold sql_text; cbn; now rewrite app_nil_r).
    apply (TK_word nl bind_marks marks_other ps0); [exact I1|exact I2|now apply ends_no_letter|exact K].
  Qed.
  (** the same text, in other pieces *)
  Lemma L_text : forall a b ta, sql_text quote a = sql_text quote b -> values a = values b -> L a ta -> L b ta.
  Proof. intros a b ta H1 H2 H rest vr br. rewrite <- H1, <- H2. apply H. Qed.
  Lemma L_two : forall v w s, s = v ++ #" " ++ w -> v <> [] -> w <> [] -> forallb letter v = true -> forallb letter w = true ->
    L [PText s] [TWord (map ascii_lower v); TWord (map ascii_lower w)].
  Proof.
    intros v w s -> V W Lv Lw. apply (L_text ([PText v] ++ PText #" " :: [PText w])).
    - unfold sql_text. cbn. now rewrite !app_nil_r.
    - reflexivity.
    - apply (L_blank [PText v] [_] [PText w] [_]); now apply L_word.
  Qed.
  Lemma L_three : forall u v w s, s = u ++ #" " ++ v ++ #" " ++ w -> u <> [] -> v <> [] -> w <> [] -> forallb letter u = true -> forallb letter v = true -> forallb letter w = true ->
    L [PText s] [TWord (map ascii_lower u); TWord (map ascii_lower v); TWord (map ascii_lower w)].
  Proof.
    intros u v w s -> U V W Lu Lv Lw. apply (L_text ([PText u] ++ PText #" " :: [PText (v ++ #" " ++ w)])).
    - unfold sql_text. cbn. now rewrite !app_nil_r.
    - reflexivity.
    - apply (L_blank [PText u] [_] [PText _] [_; _]); [now apply L_word|]. now apply L_two.
  Qed.
End Pieces.
