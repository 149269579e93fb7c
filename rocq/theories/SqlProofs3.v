(** From the text to the tokens: the pieces of entsql. *)
From Verif Require Import Base Node Vocab Tree Syntax Gorm GormSpec Build BuildProofs EntSQL EntSQLSpec EntSQLProofs SqlSpec SqlProofs SqlProofs2.
Require Import Lia.

Section Pieces2.
  Variable nl : list N -> option (list N * list N).
  Variable ident_sql : list N -> list N -> list N.
  Variable d : list N.
  Variable col : list N -> list N.
  Variable P : list N -> Prop.
  Hypothesis Q : quotes nl (ident_sql d) col P.
  Definition pg : bool := streq d #"postgres".
  Definition bindd : list gval -> list tok -> option (list tok) := if pg then bind_numbers else bind_marks.
  (** the arguments the binder sees, after [pre] and before [post] *)
  Definition argsd (pre post : list gval) : list gval := if pg then pre ++ post else post.
  Notation TKd := (TK nl bindd).
  Let ps0 : forall c t, unquoted c = true -> nl (c :: t) = None := proj1 Q.
  Lemma other : forall args k ts, k <> TMark -> (forall n, k <> TNumber n) -> bindd args (k :: ts) = option_map (cons k) (bindd args ts).
  Proof. unfold bindd. destruct pg; [exact numbers_other|exact marks_other]. Qed.

  Definition vals (ps : list spiece) : list gval := map arg_value (sargs ps).
  Lemma vals_app : forall a b, vals (a ++ b) = vals a ++ vals b.
  Proof. intros. unfold vals. now rewrite sargs_app, map_app. Qed.
  Lemma vals_fix : forall t a, vals (SFix t :: a) = vals a.
  Proof. reflexivity. Qed.
  Lemma args_shift : forall pre m post, argsd (pre ++ m) post = (if pg then argsd pre (m ++ post) else post).
  Proof. intros. unfold argsd. destruct pg; [now rewrite app_assoc|reflexivity]. Qed.

  Definition LE (ps : list spiece) (bts : list tok) : Prop :=
    forall pre post rest br, ends_name rest -> TKd rest (argsd (pre ++ vals ps) post) br ->
      TKd (sql_of ident_sql d (N.of_nat (length pre)) ps ++ rest) (argsd pre (vals ps ++ post)) (bts ++ br).

  (** ** Fixed text *)
  Definition fixes (w : list N) (ts : list tok) : Prop := forall t args us, TKd t args us -> TKd (w ++ t) args (ts ++ us).
  Definition closes (w : list N) (ts : list tok) : Prop := forall t args us, ends_name t -> TKd t args us -> TKd (w ++ t) args (ts ++ us).
  Lemma fix_app : forall v tv w tw, fixes v tv -> fixes w tw -> fixes (v ++ w) (tv ++ tw).
  Proof. intros v tv w tw A B t args us H. rewrite <- !app_assoc. apply A, B, H. Qed.
  Lemma fix_close : forall v tv w tw, fixes v tv -> closes w tw -> closes (v ++ w) (tv ++ tw).
  Proof. intros v tv w tw A B t args us E H. rewrite <- !app_assoc. apply A, B; assumption. Qed.
  Lemma close_fix : forall v tv w tw, closes v tv -> fixes w tw -> (forall t, ends_name (w ++ t)) -> fixes (v ++ w) (tv ++ tw).
  Proof. intros v tv w tw A B E t args us H. rewrite <- !app_assoc. apply A; [apply E|]. now apply B. Qed.
  Lemma close_close : forall v tv w tw, closes v tv -> closes w tw -> (forall t, ends_name (w ++ t)) -> closes (v ++ w) (tv ++ tw).
  Proof. intros v tv w tw A B E t args us K H. rewrite <- !app_assoc. apply A; [apply E|]. now apply B. Qed.
  Lemma fix_blank : fixes #" " [].
  Proof. intros t args us. apply (TK_blank nl bindd ps0). Qed.
  Lemma close_word : forall w v, w <> [] -> forallb letter w = true -> v = map ascii_lower w -> closes w [TWord v].
  Proof. intros w v H1 H2 -> t args us E H. apply (TK_word nl bindd other ps0); [exact H1|exact H2|now apply ends_no_letter|exact H]. Qed.
  Lemma close_sym : forall s, In s cmp_syms -> closes s [TSym s].
  Proof.
    intros s I t args us E H. apply (TK_sym nl bindd other ps0); [| |now apply ends_no_sym|exact H]; cbn [In cmp_syms] in I; decompose [or] I; subst; try discriminate; try reflexivity; contradiction.
  Qed.
  (** with blanks around it *)
  Lemma fix_padded : forall w ts, closes w ts -> fixes (#" " ++ w ++ #" ") ts.
  Proof.
    intros w ts H. change ts with ([] ++ ts). apply fix_app; [exact fix_blank|]. rewrite <- (app_nil_r ts). apply close_fix; [exact H|exact fix_blank|reflexivity].
  Qed.
  Lemma close_two : forall v tv w tw, closes v tv -> closes w tw -> closes (v ++ #" " ++ w) (tv ++ tw).
  Proof.
    intros v tv w tw A B. apply close_close; [exact A| |reflexivity]. change tw with ([] ++ tw). apply fix_close; [exact fix_blank|exact B].
  Qed.

  (** ** Pieces *)
  Lemma sql_text_app : forall k a b, sql_of ident_sql d k (a ++ b) = sql_of ident_sql d k a ++ sql_of ident_sql d (k + N.of_nat (length (vals a))) b.
  Proof. intros. rewrite sql_app. unfold vals. now rewrite map_length. Qed.
  Lemma len_app : forall (pre : list gval) m, (N.of_nat (length pre) + N.of_nat (length m))%N = N.of_nat (length (pre ++ m)).
  Proof. intros. rewrite app_length. lia. Qed.
  Lemma LE_prefix : forall w ts a ta, fixes w ts -> LE a ta -> LE (SFix w :: a) (ts ++ ta).
  Proof.
    intros w ts a ta F A pre post rest br E H. cbn [sql_of]. rewrite vals_fix in *. rewrite <- !app_assoc. apply F. now apply A.
  Qed.
  Lemma LE_suffix : forall w ts a ta, closes w ts -> (forall t, ends_name (w ++ t)) -> LE a ta -> LE (a ++ [SFix w]) (ta ++ ts).
  Proof.
    intros w ts a ta F B A pre post rest br E H. rewrite vals_app in *. change (vals [SFix w]) with (@nil gval) in *. rewrite app_nil_r in *.
    rewrite sql_text_app. cbn [sql_of]. rewrite app_nil_r, <- !app_assoc. apply A; [apply B|]. now apply F.
  Qed.
  Lemma LE_infix : forall w ts a ta b tb, fixes w ts -> (forall t, ends_name (w ++ t)) -> LE a ta -> LE b tb -> LE (a ++ SFix w :: b) (ta ++ ts ++ tb).
  Proof.
    intros w ts a ta b tb F B A K pre post rest br E H. rewrite vals_app, vals_fix in *. rewrite sql_text_app. cbn [sql_of]. rewrite <- !app_assoc.
    apply A; [apply B|]. apply F. rewrite len_app. apply K; [exact E|]. now rewrite <- app_assoc.
  Qed.
  Lemma LE_paren : forall w ts a ta, fixes w ts -> LE a ta -> LE (SFix w :: a ++ [SFix #")"]) (ts ++ ta ++ [TClose]).
  Proof.
    intros w ts a ta F A. apply LE_prefix; [exact F|]. apply LE_suffix; [|reflexivity|exact A]. intros t args us _. apply (TK_close nl bindd other ps0).
  Qed.
  Lemma LE_name : forall x, P x -> LE [SName x] [TName (col x)].
  Proof.
    intros x Hx pre post rest br E H. cbn [sql_of]. rewrite app_nil_r. change (vals [SName x]) with (@nil gval) in *. rewrite app_nil_r in H.
    apply (TK_name nl bindd other (ident_sql d) col P); assumption.
  Qed.
  Lemma LE_closes : forall w ts, closes w ts -> LE [SFix w] ts.
  Proof. intros w ts F pre post rest br E H. cbn [sql_of]. rewrite app_nil_r. change (vals [SFix w]) with (@nil gval) in *. rewrite app_nil_r in H. now apply F. Qed.

  (** ** Arguments *)
  Definition no_float (v : gval) : Prop := forall x, v <> GFloat x.
  Lemma ends_no_digit : forall t, ends_name t -> match t with c :: _ => is_digit c = false | [] => True end.
  Proof.
    intros [|c t] H; [exact I|]. cbn [ends_name] in H. cbn in H. rewrite !Bool.orb_true_iff, !N.eqb_eq in H.
    destruct H as [H|[H|[H|H]]]; [| | |discriminate]; now rewrite H.
  Qed.
  Lemma ends_uncast : forall t, ends_name t -> uncast t = t.
  Proof.
    intros [|c t] H; [reflexivity|]. cbn [ends_name] in H. cbn in H. rewrite !Bool.orb_true_iff, !N.eqb_eq in H.
    destruct H as [H|[H|[H|H]]]; [| | |discriminate]; now rewrite H.
  Qed.
  Lemma lex_number : forall k sfx rest f, match sfx ++ rest with c :: _ => is_digit c = false | [] => True end -> uncast (sfx ++ rest) = rest ->
    lex nl (S f) ((#"$" ++ print_N k ++ sfx) ++ rest) = option_map (cons (TNumber k)) (lex nl f rest).
  Proof.
    intros k sfx rest f D U. destruct (print_N_ok k) as (D1 & D2 & c & r & E & _). rewrite <- !app_assoc. change (#"$" ++ print_N k ++ sfx ++ rest) with (36%N :: print_N k ++ sfx ++ rest).
    cbn [lex]. rewrite ps0 by reflexivity. cbn -[lex span uncast dec_value print_N]. rewrite (span_all is_digit (print_N k)) by assumption.
    rewrite E. cbn iota. rewrite <- E, D2, U. now rewrite N2Z.id.
  Qed.
  Lemma LE_arg : forall a, no_float (arg_value a) -> LE [SArg a] [TVal (arg_value a)].
  Proof.
    intros a NF pre post rest br E H. change (vals [SArg a]) with [arg_value a] in *. cbn [sql_of]. rewrite app_nil_r. unfold holder. fold pg.
    unfold argsd, bindd in *. destruct pg.
    - destruct H as (f & ts & L1 & B). exists (S f), (TNumber (N.of_nat (length pre) + 1) :: ts). split.
      + rewrite (lex_number (N.of_nat (length pre) + 1) (match a with ACast v => cast_suffix v | APlain _ => [] end) rest); [now rewrite L1| |].
        * destruct a as [v|v]; [now apply ends_no_digit|]. destruct v; try reflexivity; try (now apply ends_no_digit). 
        * destruct a as [v|v]; [now apply ends_uncast|]. destruct v; cbn [cast_suffix]; try (now apply ends_uncast).
          -- change (uncast (#"::int" ++ rest)) with (snd (span letter (#"int" ++ rest))). rewrite span_all; [reflexivity|reflexivity|now apply ends_no_letter].
          -- now destruct (NF z).
          -- change (uncast (#"::bool" ++ rest)) with (snd (span letter (#"bool" ++ rest))). rewrite span_all; [reflexivity|reflexivity|now apply ends_no_letter].
      + rewrite <- app_assoc in B. cbn [bind_numbers app].
        assert (X : nth_error (pre ++ [arg_value a] ++ post) (length pre) = Some (arg_value a)) by (rewrite nth_error_app2 by lia; now rewrite Nat.sub_diag).
        cbn [app] in X, B. destruct (N.of_nat (length pre) + 1)%N as [|k] eqn:K; [lia|]. replace (N.to_nat (N.pos k - 1)) with (length pre) by lia. now rewrite X, B.
    - destruct H as (f & ts & L1 & B). exists (S f), (TMark :: ts). split.
      + change (#"?" ++ rest) with (63%N :: rest). cbn [lex]. rewrite ps0 by reflexivity. cbn -[lex]. now rewrite L1.
      + cbn [app bind_marks]. now rewrite B.
  Qed.
  Definition vtok (dis : bool) (v : gval) : tok := if dis && is_nil v then TWord #"null" else TVal v.
  Lemma close_null : closes #"NULL" [TWord #"null"].
  Proof. apply close_word; [discriminate|reflexivity|reflexivity]. Qed.
  Lemma LE_scalar : forall dis v, no_float v -> LE [scalar_piece dis v] [vtok dis v].
  Proof.
    intros dis v NF. unfold scalar_piece, vtok. destruct dis; [|now apply (LE_arg (ACast v))]. destruct v; try (now apply (LE_arg (APlain _))). exact (LE_closes _ _ close_null).
  Qed.
  Fixpoint ctoks (vs : list gval) : list tok :=
    match vs with [] => [] | [v] => [vtok true v] | v :: vs' => [vtok true v] ++ [TComma] ++ ctoks vs' end.
  Lemma fix_comma : fixes #", " [TComma].
  Proof. intros t args us H. change (#", " ++ t) with (#"," ++ #" " ++ t). apply (TK_comma nl bindd other ps0). now apply (TK_blank nl bindd ps0). Qed.
  Lemma LE_commas : forall vs, vs <> [] -> Forall no_float vs -> LE (commas vs) (ctoks vs).
  Proof.
    induction vs as [|v vs IH]; intros H F; [congruence|]. inversion_clear F as [|? ? F1 F2]. destruct vs as [|v' vs]; [now apply LE_scalar|].
    change (commas (v :: v' :: vs)) with ([scalar_piece true v] ++ SFix #", " :: commas (v' :: vs)).
    change (ctoks (v :: v' :: vs)) with ([vtok true v] ++ [TComma] ++ ctoks (v' :: vs)).
    apply LE_infix; [exact fix_comma|reflexivity|now apply LE_scalar|]. apply IH; [discriminate|exact F2].
  Qed.
End Pieces2.

(** ** Reading the tokens of values *)
Lemma R_vtok : forall dis v us, R GPrim (vtok dis v :: us) (QVal v, us).
Proof. intros dis v us. unfold vtok. destruct dis; [|apply R_val]. destruct v; cbn; try apply R_val. apply R_null. Qed.
Lemma R_ctoks : forall vs l us, vs <> [] -> R (GMore l) (TComma :: ctoks vs ++ TClose :: us) (QList (l ++ map QVal vs), us).
Proof.
  induction vs as [|v vs IH]; intros l us H; [congruence|]. destruct vs as [|v' vs].
  - cbn [ctoks app map]. apply (R_more _ _ (QVal v) (TClose :: us)); [apply R_vtok|apply R_close].
  - change (ctoks (v :: v' :: vs)) with (vtok true v :: TComma :: ctoks (v' :: vs)). cbn [app]. apply (R_more _ _ (QVal v) (TComma :: ctoks (v' :: vs) ++ TClose :: us)); [apply R_vtok|].
    change (map QVal (v :: v' :: vs)) with ([QVal v] ++ map QVal (v' :: vs)). rewrite app_assoc. apply IH. discriminate.
Qed.
Lemma R_values : forall vs us, vs <> [] -> R GRange (TOpen :: ctoks vs ++ TClose :: us) (QList (map QVal vs), us).
Proof.
  intros [|v [|v' vs]] us H; [congruence| |].
  - cbn [ctoks app map]. apply (R_range _ (QVal v) (TClose :: us)); [apply R_vtok|apply R_close].
  - change (ctoks (v :: v' :: vs)) with (vtok true v :: TComma :: ctoks (v' :: vs)). cbn [app]. apply (R_range _ (QVal v) (TComma :: ctoks (v' :: vs) ++ TClose :: us)); [apply R_vtok|].
    apply (R_ctoks (v' :: vs) [QVal v]). discriminate.
Qed.
