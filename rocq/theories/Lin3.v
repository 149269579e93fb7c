(** Operators: at most one of them is there, and looking for the others costs
    what the one that is there consumes. *)
From Verif Require Import Base Peg PegSpec StepSpec PegProofs MachineProofs PegSpecProofs Grammar Node Vocab Tree Parse GrammarProofs Steps Steps2 Lin1 Lin2.
Require Import Arith.
Strategy expand [parse_machine].
Strategy 1000 [parse_fuel mrun].
Local Open Scope N_scope.
Local Open Scope peg_scope.

(** ** Words *)
Definition low (x : N) : N := if (65 <=? x) && (x <=? 90) then x + 32 else x.
(** [starts p w x]: [w] is [p], in any letter case, and then [x] *)
Inductive starts : list N -> list N -> list N -> Prop :=
| st_nil : forall x, starts [] x x
| st_cons : forall c p y w x, low y = c -> starts p w x -> starts (c :: p) (y :: w) x.
Definition lower_word (p : list N) : bool := negb (match p with [] => true | _ => false end) && forallb (fun c => (97 <=? c) && (c <=? 122)) p.
Lemma ichar_ok : forall c s o k, (97 <=? c) && (c <=? 122) = true -> T (ichar c) s o k ->
  k <= 3 /\ match o with Some r => exists y, s = y :: r /\ low y = c | None => True end.
Proof.
  intros c s o k Hc H. apply andb_true_iff in Hc as [H1 H2]. apply N.leb_le in H1, H2. unfold ichar in H. inv H.
  - match goal with Z : takes _ (PChar _) _ _ _ |- _ => apply char_ok in Z as [-> ->] end. split; [lia|]. eexists; split; [reflexivity|].
    unfold low. destruct (N.leb_spec 65 c), (N.leb_spec c 90); cbn [andb]; lia.
  - match goal with Z : takes _ (PChar c) _ _ _ |- _ => apply char_ok in Z as [-> _] end. match goal with Z : takes _ (PChar _) _ _ _ |- _ => apply char_ok in Z as [-> E] end.
    split; [lia|]. destruct o as [r|]; [|exact I]. subst s. eexists; split; [reflexivity|]. unfold low.
    destruct (N.leb_spec 65 (c - 32)), (N.leb_spec (c - 32) 90); cbn [andb]; lia.
Qed.
Lemma pchar_ok : forall c s o k, (97 <=? c) && (c <=? 122) = true -> T (PChar c) s o k ->
  k <= 3 /\ match o with Some r => exists y, s = y :: r /\ low y = c | None => True end.
Proof.
  intros c s o k Hc H. apply andb_true_iff in Hc as [H1 H2]. apply N.leb_le in H1, H2. apply char_ok in H as [-> H]. split; [lia|]. destruct o; [|exact I]. eexists; split; [exact H|].
  unfold low. destruct (N.leb_spec 65 c), (N.leb_spec c 90); cbn [andb]; lia.
Qed.
Lemma word_ok : forall p s o k, lower_word p = true -> T (ilit p) s o k \/ T (lit p) s o k ->
  k <= 4 * len p /\ match o with Some r => starts p s r /\ len s = len r + len p | None => True end.
Proof.
  induction p as [|c p IH]; intros s o k Hp H; [discriminate|]. unfold lower_word in Hp. cbn in Hp. apply andb_true_iff in Hp as [Hc Hp]. rewrite len_cons.
  assert (Hf : forall o' k', T (ichar c) s o' k' \/ T (PChar c) s o' k' -> k' <= 3 /\ match o' with Some r => exists y, s = y :: r /\ low y = c | None => True end).
  { intros o' k' [Z|Z]; [now apply ichar_ok|now apply pchar_ok]. }
  destruct p as [|c' p].
  - cbn [ilit lit] in H. apply Hf in H as [C H]. split; [lia|]. destruct o as [r|]; [|exact I]. destruct H as (y & -> & Hy). split; [constructor; [exact Hy|constructor]|]. rewrite len_cons, len_nil. lia.
  - assert (HI : exists a b, (T (a ;; b) s o k) /\ (forall o' k', T a s o' k' -> T (ichar c) s o' k' \/ T (PChar c) s o' k') /\ (forall t o' k', T b t o' k' -> T (ilit (c' :: p)) t o' k' \/ T (lit (c' :: p)) t o' k')).
    { destruct H as [H|H]; [exists (ichar c), (ilit (c' :: p))|exists (PChar c), (lit (c' :: p))]; (split; [exact H|]); split; auto. }
    clear H. destruct HI as (a & b & H & Ha & Hb). inv H.
    + match goal with Z : takes _ a _ _ _ |- _ => apply Ha in Z; apply Hf in Z as [C1 (y & -> & Hy)] end.
      match goal with Z : takes _ b _ _ _ |- _ => apply Hb in Z; apply IH in Z as [C2 Z2]; [|exact Hp] end. split; [lia|].
      destruct o as [r|]; [|exact I]. destruct Z2 as [Z2 L2]. split; [constructor; assumption|]. rewrite len_cons. lia.
    + match goal with Z : takes _ a _ _ _ |- _ => apply Ha in Z; apply Hf in Z as [C1 _] end. split; [lia|exact I].
Qed.
(** two words that differ in a letter they both have *)
Fixpoint clash (p q : list N) : bool :=
  match p, q with a :: p', b :: q' => negb (a =? b) || clash p' q' | _, _ => false end.
Lemma starts_clash : forall p w x, starts p w x -> forall q y, starts q w y -> clash p q = true -> False.
Proof.
  induction 1; intros q z Hq Hc; [discriminate|]. destruct q as [|b q]; [discriminate|]. inversion Hq; subst. cbn in Hc. rewrite N.eqb_refl in Hc. cbn in Hc. eauto.
Qed.
Lemma starts_same : forall p w x, starts p w x -> forall y, starts p w y -> x = y.
Proof. induction 1; intros z Hz; inversion Hz; subst; auto. Qed.
Lemma starts_head : forall p w x, starts p w x -> forall c, match p with d :: _ => negb (low c =? d) | [] => false end = true -> head w <> Some c.
Proof. intros p w x H c Hc. destruct H; [discriminate|]. cbn. intro Z. injection Z as ->. rewrite H in Hc. rewrite N.eqb_refl in Hc. discriminate. Qed.
Lemma iword : forall p s o k, lower_word p = true -> T (ilit p) s o k -> k <= 4 * len p /\ match o with Some r => starts p s r /\ len s = len r + len p | None => True end.
Proof. intros. apply word_ok; auto. Qed.
Lemma lword : forall p s o k, lower_word p = true -> T (lit p) s o k -> k <= 4 * len p /\ match o with Some r => starts p s r /\ len s = len r + len p | None => True end.
Proof. intros. apply word_ok; auto. Qed.

(** ** Which operator is there *)
Definition sig : Type := list (list N) * list (list N) * list N.
Definition plain (ps : list (list N)) (w x : list N) : Prop := exists p, In p ps /\ starts p w x.
Definition negd (ns : list (list N)) (w x : list N) : Prop := exists t u k, starts #"not" w t /\ T WW t (Some u) k /\ plain ns u x.
Definition sym (cs : list N) (w x : list N) : Prop := exists c, In c cs /\ w = c :: x.
Definition opn (a : sig) (w x : list N) : Prop := let '(ps, ns, cs) := a in plain ps w x \/ negd ns w x \/ sym cs w x.
Definition sB : sig := ([#"between"], [#"between"], []).
Definition sI : sig := ([#"in"], [#"in"], []).
Definition sM : sig := ([#"isnull"; #"notnull"; #"is"], [], []).
Definition sC1 : sig := ([], [], #"<>=!").
Definition sC2 : sig := ([#"gt"; #"lt"; #"gte"; #"lte"; #"eq"; #"neq"], [], []).
Definition sC3 : sig := ([#"like"], [#"like"], []).
Definition sL1 : sig := ([#"and"; #"or"], [], []).
Definition sL2 : sig := ([], [], #"&|").
Definition sA : sig := ([#"and"], [], []).
Definition sNL : sig := ([#"and"; #"or"; #"between"], [], []).

(** [p] is not [q], or goes on with a letter after it *)
Fixpoint over (p q : list N) : bool :=
  match p, q with
  | c :: _, [] => (97 <=? c) && (c <=? 122)
  | a :: p', b :: q' => negb (a =? b) || over p' q'
  | _, _ => false
  end.
Definition nosym (p : list N) (c : N) : bool := match p with d :: _ => negb (low c =? d) | [] => false end.
Definition excl (a b : sig) : bool :=
  let '(pa, na, ca) := a in let '(pb, nb, cb) := b in
  forallb (fun p => forallb (clash p) pb) pa && forallb (fun p => forallb (clash p) nb) na
  && (match nb with [] => true | _ => forallb (fun p => over p #"not") pa end) && (match na with [] => true | _ => forallb (fun p => over p #"not") pb end)
  && forallb (fun c => forallb (fun d => negb (c =? d)) cb) ca
  && forallb (fun p => forallb (nosym p) cb) (#"not" :: pa) && forallb (fun p => forallb (nosym p) ca) (#"not" :: pb).
Lemma low_letter : forall y, (97 <=? low y) && (low y <=? 122) = true -> bad Ggo 6 (Some y) (PRule rSpaceComment) = true.
Proof.
  intros y H. apply andb_true_iff in H as [H1 H2]. apply N.leb_le in H1, H2. unfold low in *.
  destruct (N.leb_spec 65 y), (N.leb_spec y 90); cbn [andb] in *;
  cbn -[N.eqb]; repeat match goal with |- context [N.eqb y ?c] => destruct (N.eqb_spec y c); [lia|] end; reflexivity.
Qed.
Lemma over_WW : forall p w x, starts p w x -> forall q t u k, starts q w t -> over p q = true -> T WW t (Some u) k -> False.
Proof.
  induction 1; intros q t u k Hq Ho HT; [destruct q; discriminate|]. destruct q as [|b q].
  - inversion Hq; subst. cbn in Ho. apply low_letter in Ho. rinv HT. unfold PPlus in HT. inv HT.
    match goal with Z : takes _ (PRule rSpaceComment) _ (Some _) _ |- _ => apply bad_ok with (m := 6%nat) in Z; [discriminate|exact Ho] end.
  - inversion Hq; subst. cbn [over] in Ho. rewrite N.eqb_refl in Ho. cbn in Ho. eauto.
Qed.
Lemma opn_excl : forall a b w x y, opn a w x -> opn b w y -> excl a b = true -> False.
Proof.
  intros [[pa na] ca] [[pb nb] cb] w x y Ha Hb He. unfold excl in He. repeat (apply andb_true_iff in He as [He ?]).
  rewrite forallb_forall in *. destruct Ha as [(p & Hp & Sp)|[(t & u & k & St & Su & (p & Hp & Sp))|(c & Hc & ->)]].
  - destruct Hb as [(q & Hq & Sq)|[(t' & u' & k' & St' & Su' & (q & Hq & Sq))|(d & Hd & ->)]].
    + specialize (He p Hp). rewrite forallb_forall in He. specialize (He q Hq). exact (starts_clash _ _ _ Sp _ _ Sq He).
    + destruct nb as [|? ?]; [destruct Hq|]. match goal with Z : forallb (fun p => over p _) pa = true |- _ => rewrite forallb_forall in Z; specialize (Z p Hp); eapply (over_WW _ _ _ Sp); [exact St'|exact Z|exact Su'] end.
    + match goal with Z : forall x, In x (#"not" :: pa) -> _ |- _ => specialize (Z p (or_intror Hp)); rewrite forallb_forall in Z; specialize (Z d Hd); exact (starts_head _ _ _ Sp d Z eq_refl) end.
  - destruct Hb as [(q & Hq & Sq)|[(t' & u' & k' & St' & Su' & (q & Hq & Sq))|(d & Hd & ->)]].
    + destruct na as [|? ?]; [destruct Hp|]. match goal with Z : forallb (fun p => over p _) pb = true |- _ => rewrite forallb_forall in Z; specialize (Z q Hq); eapply (over_WW _ _ _ Sq); [exact St|exact Z|exact Su] end.
    + pose proof (starts_same _ _ _ St _ St') as <-. destruct (takes_det _ _ _ _ _ Su _ _ Su') as [E _]. injection E as ->.
      match goal with Z : forall x, In x na -> _ |- _ => specialize (Z p Hp); rewrite forallb_forall in Z; specialize (Z q Hq); exact (starts_clash _ _ _ Sp _ _ Sq Z) end.
    + match goal with Z : forall x, In x (#"not" :: pa) -> _ |- _ => specialize (Z _ (or_introl eq_refl)); rewrite forallb_forall in Z; specialize (Z d Hd); exact (starts_head _ _ _ St d Z eq_refl) end.
  - destruct Hb as [(q & Hq & Sq)|[(t' & u' & k' & St' & Su' & (q & Hq & Sq))|(d & Hd & E)]].
    + match goal with Z : forall x, In x (#"not" :: pb) -> _ |- _ => specialize (Z q (or_intror Hq)); rewrite forallb_forall in Z; specialize (Z c Hc); exact (starts_head _ _ _ Sq c Z eq_refl) end.
    + match goal with Z : forall x, In x (#"not" :: pb) -> _ |- _ => specialize (Z _ (or_introl eq_refl)); rewrite forallb_forall in Z; specialize (Z c Hc); exact (starts_head _ _ _ St' c Z eq_refl) end.
    + injection E as -> ->. match goal with Z : forall x, In x ca -> _ |- _ => specialize (Z d Hc); rewrite forallb_forall in Z; specialize (Z d Hd) end. rewrite N.eqb_refl in *. discriminate.
Qed.
Lemma excl_all : forallb (fun p => excl (fst p) (snd p) && excl (snd p) (fst p))
  [(sB, sI); (sB, sM); (sB, sC1); (sB, sC2); (sB, sC3); (sB, sL1); (sB, sL2); (sI, sM); (sI, sC1); (sI, sC2); (sI, sC3); (sI, sL1); (sI, sL2);
   (sM, sC1); (sM, sC2); (sM, sC3); (sM, sL1); (sM, sL2); (sC1, sC2); (sC1, sC3); (sC1, sL1); (sC1, sL2); (sC2, sC3); (sC2, sL1); (sC2, sL2);
   (sC3, sL1); (sC3, sL2); (sL1, sL2); (sA, sB); (sA, sI); (sA, sM); (sA, sC1); (sA, sC2); (sA, sC3); (sA, sL2)] = true.
Proof. vm_compute. reflexivity. Qed.

Definition sig_ok (a : sig) : bool :=
  let '(pa, na, ca) := a in
  forallb lower_word (pa ++ na) && forallb (fun p => over p #"not") pa && forallb (fun c => nosym #"not" c && negb (c =? 45) && negb (c =? 47)) ca.
Lemma sigs_ok : forallb sig_ok [sB; sI; sM; sC1; sC2; sC3; sL1; sL2; sA] = true.
Proof. vm_compute. reflexivity. Qed.
Lemma starts_len : forall p w x, starts p w x -> len w = len x + len p.
Proof. induction 1; rewrite ?len_cons, ?len_nil; lia. Qed.
Lemma word_head : forall p w x, lower_word p = true -> starts p w x -> head w <> Some 45 /\ head w <> Some 47.
Proof.
  intros p w x Hl H. destruct H as [|c p y w x Hy H]; [discriminate|]. unfold lower_word in Hl. cbn in Hl. apply andb_true_iff in Hl as [Hl _]. apply andb_true_iff in Hl as [H1 H2]. apply N.leb_le in H1, H2.
  cbn [head]. split; intro Z; injection Z as ->; cbn in Hy; lia.
Qed.
Lemma opn_word : forall ps ns cs, sig_ok (ps, ns, cs) = true -> (forall p, In p ps -> lower_word p = true /\ over p #"not" = true) /\ (forall p, In p ns -> lower_word p = true) /\
  (forall c, In c cs -> nosym #"not" c = true /\ c <> 45 /\ c <> 47).
Proof.
  intros ps ns cs H. unfold sig_ok in H. apply andb_true_iff in H as [H H3]. apply andb_true_iff in H as [H1 H2]. rewrite forallb_forall in *.
  split; [|split].
  - intros p Hp. split; auto. apply H1, in_app_iff; tauto.
  - intros p Hp. apply H1, in_app_iff; tauto.
  - intros c Hc. specialize (H3 c Hc). apply andb_true_iff in H3 as [H3 E2]. apply andb_true_iff in H3 as [H3 E1]. apply negb_true_iff in E1, E2. apply N.eqb_neq in E1, E2. auto.
Qed.
Lemma opn_head : forall a w x, sig_ok a = true -> opn a w x -> head w <> Some 45 /\ head w <> Some 47 /\ len x < len w.
Proof.
  intros [[ps ns] cs] w x Ha H. apply opn_word in Ha as (A1 & A2 & A3). destruct H as [(p & Hp & Sp)|[(t & u & k & St & Su & (p & Hp & Sp))|(c & Hc & ->)]].
  - destruct (A1 p Hp) as [Hl _]. pose proof (word_head _ _ _ Hl Sp). pose proof (starts_len _ _ _ Sp). destruct p; [discriminate|]. rewrite len_cons in *. split; [tauto|]. split; [tauto|lia].
  - pose proof (word_head #"not" _ _ eq_refl St). pose proof (starts_len _ _ _ St) as L1. pose proof (starts_len _ _ _ Sp). apply WW_cost in Su as (_ & L & _). split; [tauto|]. split; [tauto|lia].
  - destruct (A3 c Hc) as (_ & N1 & N2). cbn [head]. rewrite len_cons. split; [|split; [|lia]]; intro Z; injection Z as ->; auto.
Qed.
Lemma over_head : forall p w x, starts p w x -> forall q t, starts q w t -> over p q = true -> exists y, head t = Some y /\ (97 <=? low y) && (low y <=? 122) = true.
Proof.
  induction 1; intros q t Hq Ho; [destruct q; discriminate|]. destruct q as [|b q].
  - inversion Hq; subst. cbn in Ho. exists y. split; [reflexivity|exact Ho].
  - inversion Hq; subst. cbn [over] in Ho. rewrite N.eqb_refl in Ho. cbn in Ho. eauto.
Qed.
Lemma seqx : forall a b s o k, T (a ;; b) s o k -> (exists x k1 k2, T a s (Some x) k1 /\ T b x o k2 /\ k = 1 + (k1 + k2)) \/ (o = None /\ exists k1, T a s None k1 /\ k = 1 + k1).
Proof. intros a b s o k H. inv H; [left; eauto 10|right]. split; [reflexivity|]. eexists. split; [eassumption|]. lia. Qed.
Lemma altx : forall a b s o k, T (a // b) s o k -> (exists x k1, o = Some x /\ T a s (Some x) k1 /\ k = 1 + k1) \/ (exists k1 k2, T a s None k1 /\ T b s o k2 /\ k = 1 + (k1 + k2)).
Proof. intros a b s o k H. inv H; [left|right; eauto 10]. eexists; eexists. split; [reflexivity|]. split; [eassumption|]. lia. Qed.
Lemma optx : forall a s o k, T (POpt a) s o k -> (exists x k1, o = Some x /\ T a s (Some x) k1 /\ k = 1 + k1) \/ (exists k1, o = Some s /\ T a s None k1 /\ k = 1 + k1).
Proof. intros a s o k H. inv H; [left|right]; eauto 10. Qed.
Lemma swx : forall cs a d s o k, T (PSw cs a d) s o k -> exists k1, k = 1 + k1 /\ (T a s o k1 \/ T d s o k1).
Proof. intros cs a d s o k H. inv H; eauto 10. Qed.
Definition NW : pexp := ilit #"not" ;; WW.
Notation nw w := (K NW w).
Lemma not_l : forall w o k, T (ilit #"not") w o k -> k <= 12 /\ match o with Some r => starts #"not" w r /\ len w = len r + 3 | None => True end.
Proof. intros w o k H. exact (iword #"not" w o k eq_refl H). Qed.
Lemma nw_cost : forall a w x, sig_ok a = true -> opn a w x -> nw w <= 250 * (len w - len x) + 600.
Proof.
  intros a w x Ha H. pose proof (opn_head _ _ _ Ha H) as (_ & _ & Lx). destruct a as [[ps ns] cs]. apply opn_word in Ha as (A1 & A2 & A3).
  pose proof (RK NW w eq_refl) as HT. unfold NW in HT at 1. apply seqx in HT as [(t' & k1 & k2 & H1 & HW & E)|(E0 & k1 & H1 & E)].
  2: { apply not_l in H1 as [H1 _]. lia. }
  apply not_l in H1 as [Ck [St Lt]].
  assert (CW : k2 <= 250 * (len w - len x) + 560).
  { destruct H as [(p & Hp & Sp)|[(t & u & k & St2 & Su & (p & Hp & Sp))|(c & Hc & ->)]].
    - destruct (A1 p Hp) as [_ Ho]. destruct (R NW w) as [v|] eqn:ER.
      + exfalso. eapply over_WW; [exact Sp|exact St|exact Ho|exact HW].
      + apply WW_none in HW as [Ht C]. destruct (over_head _ _ _ Sp _ _ St Ho) as (y & Hy & Hl).
        assert (wc t' <= 250). { apply andb_true_iff in Hl as [H1 H2]. apply N.leb_le in H1, H2. apply W_tight_cost; auto; rewrite Hy; intro Z; injection Z as ->; cbn in H1; lia. } lia.
    - pose proof (starts_same _ _ _ St _ St2) as <-. destruct (takes_det _ _ _ _ _ HW _ _ Su) as [_ ->]. apply WW_cost in Su as (C & L & Ht). destruct (word_head _ _ _ (A2 p Hp) Sp) as [N1 N2]. pose proof (W_tight_cost _ Ht N1 N2).
      pose proof (starts_len _ _ _ Sp). lia.
    - exfalso. destruct (A3 c Hc) as (Hn & _). exact (starts_head _ _ _ St c Hn eq_refl). }
  lia.
Qed.

(** ** The words of the operators *)
Definition kwB : pexp := POpt NW ;; lit #"between".
Definition kwI : pexp := ilit #"in" // (ilit #"not" ;; WW ;; ilit #"in").
Definition kwM : pexp := lit #"isnull" // lit #"notnull"
                  // (lit #"is" ;; WW ;; PSw #"n" (lit #"null") (PSw #"f" (lit #"false") (lit #"true")))
                  // (lit #"is" ;; WW ;; lit #"not" ;; WW ;; PSw #"n" (lit #"null") (PSw #"f" (lit #"false") (lit #"true"))).
Definition kwC1 : pexp := lit #">=" // lit #"<=" // lit #"==" // lit #"<" // PSw #"=" (lit #"=") (PSw #"<" (lit #"<>") (PSw #">" (lit #">") (lit #"!="))).
Definition kwC2 : pexp := ilit #"gt" // ilit #"lt" // PSw #"Nn" (ilit #"neq") (PSw #"Ee" (ilit #"eq") (PSw #"Ll" (ilit #"lte") (ilit #"gte"))).
Definition kwC3 : pexp := ilit #"like" // (ilit #"not" ;; WW ;; ilit #"like").
Definition kwL1 : pexp := ilit #"and" // ilit #"or".
Definition kwL2 : pexp := lit #"&&" // lit #"||".
Lemma const_e : forall e a s o k, match cst Ggo None (fun _ => None) e with Some (Bp b 0, (c, 0%nat)) => (b <=? a) && (c <=? a) | _ => false end = true -> T e s o k -> k <= a.
Proof.
  intros e a s o k H Ht. destruct (cst Ggo None (fun _ => None) e) as [[[x|b [|d]] [c [|?]]]|] eqn:E; try discriminate.
  assert (B : ok Ggo e (Bp b 0, (c, 0%nat))) by (eapply cst_ok; [apply nl_go| | |exact E]; discriminate).
  apply B in Ht. cbn [fst snd] in Ht. apply andb_true_iff in H as [H1 H2]. apply N.leb_le in H1, H2. destruct o; cbn [sb_ok] in Ht; unfold fb_ok in Ht; cbn [fst snd] in Ht; rewrite X_0 in Ht; lia.
Qed.
Lemma not_word : forall p w o k, lower_word p = true -> T (ilit #"not" ;; WW ;; ilit p) w o k -> k <= nw w + 4 * len p + 5 /\ match o with Some x => negd [p] w x | None => True end.
Proof.
  intros p w o k Hp H. pose proof (RK NW w eq_refl) as HN. unfold NW in HN at 1.
  apply seqx in H as [(t & k1 & k2 & H1 & H & E)|(E0 & k1 & H1 & E)]; apply seqx in HN as [(t' & j1 & j2 & J1 & J2 & F)|(F0 & j1 & J1 & F)];
    destruct (takes_det _ _ _ _ _ H1 _ _ J1) as [Z Zk]; try discriminate Z; try (injection Z as ->); subst j1.
  - apply seqx in H as [(u & k3 & k4 & H3 & H & E')|(E0 & k3 & H3 & E')]; destruct (takes_det _ _ _ _ _ H3 _ _ J2) as [Z' Zk'].
    + apply (iword p _ _ _ Hp) in H as [C H]. split; [lia|]. destruct o as [x|]; [|exact I]. apply not_l in H1 as [_ [St _]].
      exists t, u, k3. split; [exact St|]. split; [exact H3|]. exists p. split; [now left|apply H].
    + subst o. split; [lia|exact I].
  - subst o. split; [lia|exact I].
Qed.
Lemma kB : forall w o k, T kwB w o k -> k <= nw w + 60 /\ match o with Some x => opn sB w x | None => True end.
Proof.
  intros w o k H. unfold kwB in H. apply seqx in H as [(t & k1 & k2 & H1 & H & E)|(E0 & k1 & H1 & E)]; [|inv H1].
  apply (lword #"between" _ _ _ eq_refl) in H as [C H]. change (len #"between") with 7 in C. apply optx in H1 as [(x & k3 & Ex & H1 & E3)|(k3 & Ex & H1 & E3)]; injection Ex as <-; pose proof H1 as HN; apply K_eq in H1; try reflexivity; (split; [lia|]).
  - destruct o as [x|]; [|exact I]. unfold NW in HN. apply seqx in HN as [(u & k4 & k5 & H3 & H4 & E')|(E0 & _)]; [|discriminate]. apply not_l in H3 as [_ [St _]].
    right; left. exists u, t, k5. split; [exact St|]. split; [exact H4|]. exists #"between". split; [now left|]. apply H.
  - destruct o as [x|]; [|exact I]. left. exists #"between". split; [now left|]. apply H.
Qed.
Lemma kI : forall w o k, T kwI w o k -> k <= nw w + 60 /\ match o with Some x => opn sI w x | None => True end.
Proof.
  intros w o k H. unfold kwI in H. pose proof (N.le_0_l (nw w)). apply altx in H as [(x & k1 & -> & H & E)|(k1 & k2 & H1 & H & E)].
  - apply (iword #"in" _ _ _ eq_refl) in H as [C H]. change (len #"in") with 2 in *. split; [lia|]. left. exists #"in". split; [now left|]. tauto.
  - apply (iword #"in" _ _ _ eq_refl) in H1 as [C _]. change (len #"in") with 2 in *. apply (not_word #"in") in H as [C2 H]; [|reflexivity]. change (len #"in") with 2 in *. split; [lia|]. destruct o as [x|]; [|exact I]. right; left. exact H.
Qed.
Lemma kC3 : forall w o k, T kwC3 w o k -> k <= nw w + 60 /\ match o with Some x => opn sC3 w x | None => True end.
Proof.
  intros w o k H. unfold kwC3 in H. pose proof (N.le_0_l (nw w)). apply altx in H as [(x & k1 & -> & H & E)|(k1 & k2 & H1 & H & E)].
  - apply (iword #"like" _ _ _ eq_refl) in H as [C H]. change (len #"like") with 4 in *. split; [lia|]. left. exists #"like". split; [now left|]. tauto.
  - apply (iword #"like" _ _ _ eq_refl) in H1 as [C _]. change (len #"like") with 4 in *. apply (not_word #"like") in H as [C2 H]; [|reflexivity]. change (len #"like") with 4 in *. split; [lia|]. destruct o as [x|]; [|exact I]. right; left. exact H.
Qed.
Lemma kL1 : forall w o k, T kwL1 w o k -> k <= 60 /\ match o with Some x => opn sL1 w x | None => True end.
Proof.
  intros w o k H. split; [exact (const_e kwL1 60 _ _ _ eq_refl H)|]. destruct o as [x|]; [|exact I]. unfold kwL1 in H. left.
  apply alt_inv in H as [(k' & H)|(k' & H)]; apply iword in H as [_ [H _]]; try reflexivity; eexists; (split; [|exact H]); cbn; tauto.
Qed.
Lemma kL2 : forall w o k, T kwL2 w o k -> k <= 60 /\ match o with Some x => exists y, opn sL2 w y /\ len x <= len y | None => True end.
Proof.
  intros w o k H. split; [exact (const_e kwL2 60 _ _ _ eq_refl H)|]. destruct o as [x|]; [|exact I]. unfold kwL2 in H. cbn [lit] in H.
  apply alt_inv in H as [(k' & H)|(k' & H)]; inv H; repeat match goal with Z : takes _ (PChar _) _ _ _ |- _ => apply char_ok in Z as [_ Z]; subst end;
    (eexists; split; [right; right; eexists; split; [|reflexivity]; cbn; tauto|rewrite ?len_cons; lia]).
Qed.
Lemma kC1 : forall w o k, T kwC1 w o k -> k <= 60 /\ match o with Some x => exists y, opn sC1 w y /\ len x <= len y | None => True end.
Proof.
  intros w o k H. split; [exact (const_e kwC1 60 _ _ _ eq_refl H)|]. destruct o as [x|]; [|exact I]. unfold kwC1 in H. cbn [lit] in H.
  tsteps; (eexists; split; [right; right; eexists; split; [|reflexivity]; cbn; tauto|rewrite ?len_cons; lia]).
Qed.
Lemma kC2 : forall w o k, T kwC2 w o k -> k <= 200 /\ match o with Some x => opn sC2 w x | None => True end.
Proof.
  intros w o k H. split; [exact (const_e kwC2 200 _ _ _ eq_refl H)|]. destruct o as [x|]; [|exact I]. unfold kwC2 in H. left.
  assert (HW : forall p kk, In p [#"gt"; #"lt"; #"gte"; #"lte"; #"eq"; #"neq"] -> T (ilit p) w (Some x) kk -> plain [#"gt"; #"lt"; #"gte"; #"lte"; #"eq"; #"neq"] w x).
  { intros p kk Hp Ht. exists p. split; [exact Hp|]. apply iword in Ht; [apply Ht|]. cbn in Hp. repeat (destruct Hp as [<-|Hp]; [reflexivity|]). destruct Hp. }
  apply alt_inv in H as [(k' & H)|(k' & H)]; [eapply (HW #"gt"); [cbn; tauto|exact H]|]. apply alt_inv in H as [(k2 & H)|(k2 & H)]; [eapply (HW #"lt"); [cbn; tauto|exact H]|].
  apply swx in H as (k3 & _ & [H|H]); [eapply (HW #"neq"); [cbn; tauto|exact H]|]. apply swx in H as (k4 & _ & [H|H]); [eapply (HW #"eq"); [cbn; tauto|exact H]|].
  apply swx in H as (k5 & _ & [H|H]); [eapply (HW #"lte"); [cbn; tauto|exact H]|eapply (HW #"gte"); [cbn; tauto|exact H]].
Qed.
(** Match: if it does not begin with is, it is short *)
Lemma lw_c : forall p w o k, lower_word p = true -> T (lit p) w o k -> k <= 4 * len p /\ match o with Some r => starts p w r | None => True end.
Proof. intros p w o k Hp H. apply (lword p _ _ _ Hp) in H as [C H]. split; [exact C|]. destruct o; [apply H|exact I]. Qed.
Lemma kM : forall w o k, T kwM w o k -> match o with Some x => exists y, opn sM w y /\ len x <= len y | None => True end /\ (k <= 150 \/ exists t, starts #"is" w t).
Proof.
  intros w o k H. unfold kwM in H. split.
  - destruct o as [x|]; [|exact I].
    assert (HW : forall p y kk, In p [#"isnull"; #"notnull"; #"is"] -> T (lit p) w (Some y) kk -> len x <= len y -> exists y, opn sM w y /\ len x <= len y).
    { intros p y kk Hp Ht L. exists y. split; [|exact L]. left. exists p. split; [exact Hp|]. apply lword in Ht; [apply Ht|]. cbn in Hp. repeat (destruct Hp as [<-|Hp]; [reflexivity|]). destruct Hp. }
    apply alt_inv in H as [(k' & H)|(k' & H)]; [eapply (HW #"isnull"); [cbn; tauto|exact H|lia]|]. apply alt_inv in H as [(k2 & H)|(k2 & H)]; [eapply (HW #"notnull"); [cbn; tauto|exact H|lia]|].
    apply alt_inv in H as [(k3 & H)|(k3 & H)]; apply seqx in H as [(t & j1 & j2 & H1 & H & _)|(Z & _)]; try discriminate Z; (eapply (HW #"is"); [cbn; tauto|exact H1|exact (tle _ _ _ _ H)]).
  - apply altx in H as [(x & k1 & -> & H & E)|(k1 & k2 & H1 & H & E)].
    { apply (lw_c #"isnull" _ _ _ eq_refl) in H as [C _]. change (len #"isnull") with 6 in C. lia. }
    apply (lw_c #"isnull" _ _ _ eq_refl) in H1 as [C1 _]. change (len #"isnull") with 6 in C1.
    apply altx in H as [(x & k3 & -> & H & E3)|(k3 & k4 & H1 & H & E3)].
    { apply (lw_c #"notnull" _ _ _ eq_refl) in H as [C _]. change (len #"notnull") with 7 in C. lia. }
    apply (lw_c #"notnull" _ _ _ eq_refl) in H1 as [C2 _]. change (len #"notnull") with 7 in C2.
    apply altx in H as [(x & k5 & -> & H & E5)|(k5 & k6 & H1 & H & E5)].
    { apply seqx in H as [(t & j1 & j2 & H1 & H & _)|(Z & _)]; [|discriminate]. right. exists t. apply (lw_c #"is" _ _ _ eq_refl) in H1. apply H1. }
    apply seqx in H1 as [(t & j1 & j2 & H1 & _)|(Z & j1 & H1 & E1)]; [right; exists t; apply (lw_c #"is" _ _ _ eq_refl) in H1; apply H1|].
    apply seqx in H as [(t & j2 & j3 & H2 & _)|(Z' & j2 & H2 & E2)]; [right; exists t; apply (lw_c #"is" _ _ _ eq_refl) in H2; apply H2|].
    apply (lw_c #"is" _ _ _ eq_refl) in H1 as [C3 _]. apply (lw_c #"is" _ _ _ eq_refl) in H2 as [C4 _]. change (len #"is") with 2 in *. left. lia.
Qed.
