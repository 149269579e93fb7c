(** Identifiers, literals, arrays and values: what the grammar rules accept. *)
From Verif Require Import Base Peg Grammar PegProofs Node Vocab Tree Parse GrammarProofs Syntax Blank.

Local Open Scope peg_scope.

(** ** Inversion *)
Lemma seq_inv : forall a b s ev r, wf (PSeq a b) = true -> E (PSeq a b) s = Some (ev, r) ->
  exists e1 s1 e2, E a s = Some (e1, s1) /\ E b s1 = Some (e2, r) /\ ev = e1 ++ e2.
Proof.
  intros a b s ev r H. rewrite E_seq by exact H.
  destruct (E a s) as [[e1 s1]|]; [|discriminate].
  destruct (E b s1) as [[e2 s2]|] eqn:Hb; [|discriminate].
  intro X; injection X as <- <-. exists e1, s1, e2. repeat split; exact Hb.
Qed.
Lemma alt_inv : forall a b s r, wf (PAlt a b) = true -> E (PAlt a b) s = Some r ->
  E a s = Some r \/ (E a s = None /\ E b s = Some r).
Proof.
  intros a b s r H. rewrite E_alt by exact H.
  destruct (E a s) as [x|]; intro X; [left; exact X|right; split; [reflexivity|exact X]].
Qed.
Lemma star_inv : forall a s ev r, wf (PStar a) = true -> E (PStar a) s = Some (ev, r) ->
  (E a s = None /\ ev = [] /\ r = s) \/
  (exists e1 s1 e2, E a s = Some (e1, s1) /\ E (PStar a) s1 = Some (e2, r) /\ ev = e1 ++ e2).
Proof.
  intros a s ev r H. rewrite E_star by exact H.
  destruct (E a s) as [[e1 s1]|].
  - destruct (E (PStar a) s1) as [[e2 s2]|] eqn:Hs; [|discriminate].
    intro X; injection X as <- <-. right. exists e1, s1, e2. repeat split; exact Hs.
  - intro X; injection X as <- <-. left. auto.
Qed.
Lemma opt_inv : forall a s ev r, wf (POpt a) = true -> E (POpt a) s = Some (ev, r) ->
  E a s = Some (ev, r) \/ (E a s = None /\ ev = [] /\ r = s).
Proof.
  intros a s ev r H. rewrite E_opt by exact H.
  destruct (E a s) as [x|]; intro X; [left; exact X|right; injection X as <- <-; auto].
Qed.
Lemma cap_inv : forall a s ev r, wf (PCap a) = true -> E (PCap a) s = Some (ev, r) ->
  exists e1, E a s = Some (e1, r) /\ ev = e1 ++ [EText (consumed s r)].
Proof.
  intros a s ev r H. rewrite E_cap by exact H.
  destruct (E a s) as [[e1 s1]|]; [|discriminate]. intro X; injection X as <- <-. eauto.
Qed.
Lemma act_inv : forall n s ev r, E (PAct n) s = Some (ev, r) -> ev = [EAct n] /\ r = s.
Proof. intros n s ev r H. rewrite E_act in H. injection H as <- <-. auto. Qed.
Lemma skip_inv : forall s ev r, E (PRule r_) s = Some (ev, r) ->
  ev = [] /\ r = skip s /\ sc r = None /\ exists w, s = w ++ r /\ blank w.
Proof.
  intros s ev r H. rewrite E_skip in H. injection H as <- <-. repeat split.
  - apply skip_clean.
  - destruct (skip_spec s) as (w & Hw & Bw). exists w. split; [exact Hw|exact Bw].
Qed.
Lemma lit_inv : forall w s ev r, w <> [] -> E (Peg.lit w) s = Some (ev, r) -> ev = [] /\ s = w ++ r.
Proof.
  intros w s ev r Hw H. rewrite E_lit in H by exact Hw. destruct (strip w s) as [u|] eqn:Hs; [|discriminate].
  injection H as <- <-. split; [reflexivity|]. now apply strip_some.
Qed.
Lemma ilit_inv : forall w s ev r, w <> [] -> forallb is_lower w = true -> E (ilit w) s = Some (ev, r) ->
  ev = [] /\ exists o, s = o ++ r /\ ci w o.
Proof.
  intros w s ev r Hw Hl H. rewrite E_ilit in H by assumption. destruct (istrip w s) as [u|] eqn:Hs; [|discriminate].
  injection H as <- <-. split; [reflexivity|]. now apply istrip_some.
Qed.

(** forward steps *)
Lemma seq_some : forall a b s e1 s1, E a s = Some (e1, s1) -> wf (PSeq a b) = true ->
  E (PSeq a b) s = match E b s1 with Some (e2, s2) => Some (e1 ++ e2, s2) | None => None end.
Proof. intros a b s e1 s1 Ha H. rewrite E_seq by exact H. rewrite Ha. reflexivity. Qed.
Lemma seq_none : forall a b s, wf (PSeq a b) = true -> E a s = None -> E (PSeq a b) s = None.
Proof. intros a b s H Ha. rewrite E_seq by exact H. rewrite Ha. reflexivity. Qed.
Lemma alt_l : forall a b s r, wf (PAlt a b) = true -> E a s = Some r -> E (PAlt a b) s = Some r.
Proof. intros a b s r H Ha. rewrite E_alt by exact H. rewrite Ha. reflexivity. Qed.
Lemma alt_r : forall a b s, wf (PAlt a b) = true -> E a s = None -> E (PAlt a b) s = E b s.
Proof. intros a b s H Ha. rewrite E_alt by exact H. rewrite Ha. reflexivity. Qed.
Lemma E_lit_app : forall w s, w <> [] -> E (Peg.lit w) (w ++ s) = Some ([], s).
Proof. intros w s H. rewrite E_lit by exact H. rewrite strip_app. reflexivity. Qed.
Lemma E_ilit_app : forall w o s, w <> [] -> forallb is_lower w = true -> ci w o ->
  E (ilit w) (o ++ s) = Some ([], s).
Proof. intros w o s H Hl Hc. rewrite E_ilit by assumption. rewrite (istrip_app _ _ _ Hc). reflexivity. Qed.

(** ** Spans *)
Fixpoint take (p : N -> bool) (s : list N) : list N :=
  match s with c :: t => if p c then c :: take p t else [] | [] => [] end.
Fixpoint drop (p : N -> bool) (s : list N) : list N :=
  match s with c :: t => if p c then drop p t else s | [] => [] end.
(** the first character, if any, is not in [p] *)
Definition stops (p : N -> bool) (s : list N) : Prop :=
  match s with c :: _ => p c = false | [] => True end.

Lemma take_drop : forall p s, s = take p s ++ drop p s.
Proof. intros p. induction s as [|c s IH]; [reflexivity|]. cbn. destruct (p c); cbn; congruence. Qed.
Lemma take_all : forall p s, forallb p (take p s) = true.
Proof. intros p. induction s as [|c s IH]; [reflexivity|]. cbn. destruct (p c) eqn:H; cbn; [rewrite H; exact IH|reflexivity]. Qed.
Lemma drop_stops : forall p s, stops p (drop p s).
Proof. intros p. induction s as [|c s IH]; cbn; [exact I|]. destruct (p c) eqn:H; cbn; auto. Qed.
Lemma drop_app : forall p a s, forallb p a = true -> stops p s -> drop p (a ++ s) = s.
Proof.
  intros p. induction a as [|c a IH]; intros s Ha Hs; cbn in *.
  - destruct s as [|c s]; [reflexivity|]. cbn in *. rewrite Hs. reflexivity.
  - apply andb_true_iff in Ha. destruct Ha as [Hc Ha]. rewrite Hc. now apply IH.
Qed.
Lemma take_app : forall p a s, forallb p a = true -> stops p s -> take p (a ++ s) = a.
Proof.
  intros p. induction a as [|c a IH]; intros s Ha Hs; cbn in *.
  - destruct s as [|c s]; [reflexivity|]. cbn in *. rewrite Hs. reflexivity.
  - apply andb_true_iff in Ha. destruct Ha as [Hc Ha]. rewrite Hc. f_equal. now apply IH.
Qed.

Definition is_class (a : pexp) (p : N -> bool) : Prop :=
  forall s, E a s = match s with x :: t => if p x then Some ([], t) else None | [] => None end.
Lemma E_class_star : forall a p, is_class a p -> wf (PStar a) = true ->
  forall s, E (PStar a) s = Some ([], drop p s).
Proof.
  intros a p Hc Hw. induction s as [|c s IH]; rewrite E_star by exact Hw; rewrite Hc.
  - reflexivity.
  - cbn. destruct (p c); [|reflexivity]. rewrite IH. reflexivity.
Qed.
Lemma consumed_drop : forall c p s, consumed (c :: s) (drop p s) = c :: take p s.
Proof.
  intros c p s. rewrite (take_drop p s) at 1. change (c :: take p s ++ drop p s) with ((c :: take p s) ++ drop p s).
  apply consumed_app.
Qed.
Lemma consumed_drop0 : forall p s, consumed s (drop p s) = take p s.
Proof. intros p s. rewrite (take_drop p s) at 1. apply consumed_app. Qed.

(** ** Identifiers *)
Definition id_ev (x : list N) : list event := [EText x; EAct 14].

Lemma class_letter : is_class (az // AZ) letter.
Proof.
  intro s. rewrite E_alt by reflexivity. unfold az, AZ. rewrite !E_range.
  destruct s as [|c t]; [reflexivity|]. unfold letter.
  destruct (N.ltb_spec c 97), (N.ltb_spec 122 c), (N.ltb_spec c 65), (N.ltb_spec 90 c),
    (N.leb_spec 97 c), (N.leb_spec c 122), (N.leb_spec 65 c), (N.leb_spec c 90); try lia; reflexivity.
Qed.
Lemma class_digit : is_class d09 is_digit.
Proof.
  intro s. unfold d09. rewrite E_range. destruct s as [|c t]; [reflexivity|]. unfold is_digit.
  destruct (N.ltb_spec c 48), (N.ltb_spec 57 c), (N.leb_spec 48 c), (N.leb_spec c 57); try lia; reflexivity.
Qed.
Lemma class_idchar : is_class (ch #"_" // az // AZ // d09) idchar.
Proof.
  intro s. rewrite E_alt by reflexivity. unfold ch. rewrite E_lit by discriminate.
  rewrite E_alt by reflexivity. rewrite E_alt by reflexivity.
  pose proof (class_letter s) as Hl. rewrite E_alt in Hl by reflexivity.
  pose proof (class_digit s) as Hd. rewrite Hd.
  destruct s as [|c t].
  - cbn [strip runes_of ret]. unfold az, AZ. rewrite !E_range. reflexivity.
  - unfold idchar. cbn [strip runes_of ret]. change (N_of_ascii "_"%char) with 95%N.
    destruct (c =? 95)%N; cbn [ret]; [rewrite orb_true_r; reflexivity|]. rewrite orb_false_r.
    destruct (E az (c :: t)) as [x|] eqn:Ha; cbn.
    + destruct (letter c); [cbn; congruence|discriminate].
    + rewrite Hl. destruct (letter c); [reflexivity|]. reflexivity.
Qed.

Lemma E_ident : forall s, E (PRule rIdentifier) s =
  match istrip #"not" s with
  | Some _ => None
  | None => match s with
            | c :: t => if letter c then Some (id_ev (c :: take idchar t), drop idchar t) else None
            | [] => None
            end
  end.
Proof.
  intro s. rewrite E_rule. cbn [Gann Gpeg]. rewrite E_seq by reflexivity. rewrite E_not by reflexivity.
  rewrite E_ilit by (discriminate || reflexivity).
  destruct (istrip #"not" s); [reflexivity|]. cbn [ret].
  rewrite E_seq by reflexivity. rewrite E_cap by reflexivity.
  rewrite E_seq by reflexivity. rewrite class_letter. destruct s as [|c t]; [reflexivity|].
  destruct (letter c); [|reflexivity].
  rewrite (E_class_star _ _ class_idchar) by reflexivity. rewrite E_act.
  rewrite consumed_drop. reflexivity.
Qed.

Lemma ascii_lower_letter : forall c d, ascii_lower c = d -> ((97 <=? d) && (d <=? 122))%N = true -> letter c = true.
Proof.
  intros c d <-. unfold ascii_lower, letter. intro H.
  destruct (N.leb_spec 97 c), (N.leb_spec c 122), (N.leb_spec 65 c), (N.leb_spec c 90);
    cbn in *; try reflexivity; try lia.
  all: repeat match type of H with context [(?a <=? ?b)%N] => destruct (N.leb_spec a b) end; cbn in H; try lia; discriminate.
Qed.
Lemma letter_idchar : forall c, letter c = true -> idchar c = true.
Proof. intros c H. unfold idchar. rewrite H. reflexivity. Qed.

(** a word cannot run over the end of an identifier *)
Lemma istrip_run : forall w x r, forallb is_lower w = true -> stops idchar r ->
  forall u, istrip w (x ++ r) = Some u -> exists v, x = v ++ firstn (length x - length w) (skipn (length w) x) /\ istrip w x <> None.
Proof.
  induction w as [|c w IH]; intros x r Hw Hr u H.
  - exists []. cbn. split; [|discriminate]. rewrite Nat.sub_0_r. symmetry. apply firstn_all.
  - cbn in Hw. apply andb_true_iff in Hw. destruct Hw as [Hc Hw].
    destruct x as [|d x].
    + cbn in H. destruct r as [|d r]; [discriminate|].
      destruct (N.eqb_spec (ascii_lower d) c) as [He|]; [|discriminate].
      cbn in Hr. apply ascii_lower_letter in He; [|exact Hc]. apply letter_idchar in He. congruence.
    + cbn in *. destruct (ascii_lower d =? c)%N; [|discriminate].
      destruct (IH _ _ Hw Hr _ H) as (v & Hv & Hn). exists (d :: v). split; [|exact Hn]. cbn. congruence.
Qed.
Lemma istrip_stop : forall w x r, forallb is_lower w = true -> stops idchar r ->
  ~ iprefix w x -> istrip w (x ++ r) = None.
Proof.
  intros w x r Hw Hr Hn. destruct (istrip w (x ++ r)) as [u|] eqn:H; [|reflexivity].
  exfalso. destruct (istrip_run _ _ _ Hw Hr _ H) as (v & _ & Hx).
  destruct (istrip w x) as [y|] eqn:Hy; [|congruence].
  destruct (istrip_some _ _ _ Hy) as (o & -> & Ho). apply Hn. exists o, y. split; [reflexivity|exact Ho].
Qed.

Lemma ident_complete : forall x r, ident x -> stops idchar r ->
  E (PRule rIdentifier) (x ++ r) = Some (id_ev x, r).
Proof.
  intros x r [(c & t & -> & Hc & Ht) Hn] Hr. rewrite E_ident.
  rewrite istrip_stop by (reflexivity || assumption). cbn [app]. rewrite Hc.
  rewrite take_app, drop_app by assumption. reflexivity.
Qed.
Lemma ident_sound : forall s ev r, E (PRule rIdentifier) s = Some (ev, r) ->
  exists x, s = x ++ r /\ ident x /\ stops idchar r /\ ev = id_ev x.
Proof.
  intros s ev r H. rewrite E_ident in H. destruct (istrip #"not" s) eqn:Hn; [discriminate|].
  destruct s as [|c t]; [discriminate|]. destruct (letter c) eqn:Hc; [|discriminate].
  injection H as <- <-. exists (c :: take idchar t). split; [|split; [|split]].
  - cbn. now rewrite <- take_drop.
  - split; [exists c, (take idchar t); repeat split; [exact Hc|apply take_all]|].
    intros (v & u & Hv & Hi). assert (X : c :: t = v ++ u ++ drop idchar t).
    { rewrite (take_drop idchar t) at 1. change (c :: take idchar t ++ drop idchar t) with ((c :: take idchar t) ++ drop idchar t).
      rewrite Hv, <- app_assoc. reflexivity. }
    rewrite X in Hn. rewrite (istrip_app _ _ _ Hi) in Hn. discriminate.
  - apply drop_stops.
  - reflexivity.
Qed.
Lemma ident_none : forall c s, letter c = false -> E (PRule rIdentifier) (c :: s) = None.
Proof. intros c s H. rewrite E_ident. destruct (istrip _ _); [reflexivity|]. now rewrite H. Qed.
Lemma ident_nil : E (PRule rIdentifier) [] = None.
Proof. rewrite E_ident. reflexivity. Qed.

(** ** Literals *)
Definition lit_ev (l : literal) : list event :=
  match l with
  | LStr false s => [EText s; EAct 28]
  | LStr true s => [EText s; EAct 29]
  | LInt ds => [EText ds; EAct 25]
  | LBool w => [EText w; EAct 26]
  | LNull w => [EText w; EAct 27]
  end.
(** an integer other than 0 takes all the digits *)
Definition lfol (l : literal) (r : list N) : Prop :=
  match l with
  | LInt (c :: _) => if (c =? 48)%N then True else stops is_digit r
  | _ => True
  end.

Fixpoint first_strip (ws : list (list N)) (s : list N) : option (list N * list N) :=
  match ws with
  | [] => None
  | w :: ws' => match strip w s with Some r => Some (w, r) | None => first_strip ws' s end
  end.

Definition notc (q c : N) : bool := negb (c =? q)%N.
Definition lexlit (s : list N) : option (literal * list N) :=
  match s with
  | [] => None
  | c :: t =>
    if (c =? 39)%N then match drop (notc 39) t with _ :: r => Some (LStr false (take (notc 39) t), r) | [] => None end
    else if (c =? 34)%N then match drop (notc 34) t with _ :: r => Some (LStr true (take (notc 34) t), r) | [] => None end
    else if (c =? 48)%N then Some (LInt [48%N], t)
    else if is_digit c then Some (LInt (c :: take is_digit t), drop is_digit t)
    else match first_strip [#"true"; #"false"; #"TRUE"; #"FALSE"] s with
         | Some (w, r) => Some (LBool w, r)
         | None => match first_strip [#"null"; #"NULL"] s with
                   | Some (w, r) => Some (LNull w, r)
                   | None => None
                   end
         end
  end.

Lemma class_notc : forall q, is_class (PNot (PChar q) ;; PDot) (notc q).
Proof.
  intros q s. rewrite E_seq by reflexivity. rewrite E_not by reflexivity. rewrite E_char.
  destruct s as [|c t]; [now rewrite E_dot|]. unfold notc. destruct (c =? q)%N; [reflexivity|].
  rewrite E_dot. reflexivity.
Qed.
Lemma E_quoted : forall q n s, E (PChar q ;; PCap ((PNot (PChar q) ;; PDot) **) ;; PChar q ;; PAct n) s =
  match s with
  | c :: t => if (c =? q)%N then
      match drop (notc q) t with _ :: r => Some ([EText (take (notc q) t); EAct n], r) | [] => None end
      else None
  | [] => None
  end.
Proof.
  intros q n s. rewrite E_seq by reflexivity. rewrite E_char.
  destruct s as [|c t]; [reflexivity|]. destruct (c =? q)%N; [|reflexivity].
  rewrite E_seq by reflexivity. rewrite E_cap by reflexivity.
  rewrite (E_class_star _ _ (class_notc q)) by reflexivity.
  rewrite E_seq by reflexivity. rewrite E_char. rewrite consumed_drop0.
  pose proof (drop_stops (notc q) t) as Hd. destruct (drop (notc q) t) as [|d r]; [reflexivity|].
  cbn in Hd. unfold notc in Hd. destruct (d =? q)%N; [|discriminate]. rewrite E_act. reflexivity.
Qed.
Lemma strip_head : forall c w d s, (d =? c)%N = false -> strip (c :: w) (d :: s) = None.
Proof. intros c w d s H. cbn. rewrite H. reflexivity. Qed.
Lemma consumed_strip : forall w s r, strip w s = Some r -> consumed s r = w.
Proof. intros w s r H. apply strip_some in H. subst. apply consumed_app. Qed.

Lemma E_first : forall ws n s, (forall w, In w ws -> w <> []) ->
  forall e, (forall s, E e s = match first_strip ws s with Some (_, r) => Some ([], r) | None => None end) ->
  wf (PCap e ;; PAct n) = true -> wf (PCap e) = true ->
  E (PCap e ;; PAct n) s = match first_strip ws s with Some (w, r) => Some ([EText w; EAct n], r) | None => None end.
Proof.
  intros ws n s Hne e He Hw Hw'. rewrite E_seq by exact Hw. rewrite E_cap by exact Hw'. rewrite He.
  destruct (first_strip ws s) as [[w r]|] eqn:Hf; [|reflexivity]. rewrite E_act. cbn.
  assert (X : consumed s r = w).
  { clear -Hf. induction ws as [|a ws IH]; [discriminate|]. cbn in Hf.
    destruct (strip a s) eqn:Ha; [injection Hf as <- <-; now apply consumed_strip|auto]. }
  rewrite X. reflexivity.
Qed.

Lemma E_bool : forall s, E (PRule rBoolean) s =
  match first_strip [#"true"; #"false"; #"TRUE"; #"FALSE"] s with
  | Some (w, r) => Some ([EText w; EAct 26], r) | None => None end.
Proof.
  intro s. rewrite E_rule. cbn [Gann Gpeg]. apply E_first; [|clear s; intro s|reflexivity|reflexivity].
  - intros w H. cbn in H. intros ->. decompose [or] H; try discriminate; contradiction.
  - do 3 rewrite E_alt by reflexivity. rewrite !E_lit by discriminate. unfold first_strip.
    repeat match goal with |- context [strip ?w s] => destruct (strip w s); [reflexivity|]; cbn [ret] end. reflexivity.
Qed.
Lemma E_null : forall s, E (PRule rNull) s =
  match first_strip [#"null"; #"NULL"] s with
  | Some (w, r) => Some ([EText w; EAct 27], r) | None => None end.
Proof.
  intro s. rewrite E_rule. cbn [Gann Gpeg]. apply E_first; [|clear s; intro s|reflexivity|reflexivity].
  - intros w H. cbn in H. intros ->. decompose [or] H; try discriminate; contradiction.
  - rewrite E_alt by reflexivity. rewrite !E_lit by discriminate. unfold first_strip.
    repeat match goal with |- context [strip ?w s] => destruct (strip w s); [reflexivity|]; cbn [ret] end. reflexivity.
Qed.
Lemma E_int : forall s, E (PRule rInteger) s =
  match s with
  | c :: t => if (c =? 48)%N then Some ([EText [48%N]; EAct 25], t)
              else if is_digit c then Some ([EText (c :: take is_digit t); EAct 25], drop is_digit t) else None
  | [] => None
  end.
Proof.
  intro s. rewrite E_rule. cbn [Gann Gpeg]. rewrite E_seq by reflexivity. rewrite E_cap by reflexivity.
  rewrite E_alt by reflexivity. unfold ch. rewrite E_lit by discriminate. rewrite E_seq by reflexivity.
  unfold d19. rewrite E_range. destruct s as [|c t]; [reflexivity|].
  cbn [strip runes_of]. change (N_of_ascii "0"%char) with 48%N.
  destruct (N.eqb_spec c 48) as [->|Hc].
  - cbn [ret]. rewrite E_act. change (48%N :: t) with ([48%N] ++ t). rewrite consumed_app. reflexivity.
  - cbn [ret]. unfold is_digit at 1.
    destruct (N.ltb_spec c 49), (N.ltb_spec 57 c), (N.leb_spec 48 c), (N.leb_spec c 57); try lia; try reflexivity.
    cbn [andb orb]. rewrite (E_class_star _ _ class_digit) by reflexivity. rewrite E_act, consumed_drop. reflexivity.
Qed.

Lemma E_literal : forall s, E (PRule rLiteral) s =
  match lexlit s with Some (l, r) => Some (lit_ev l, r) | None => None end.
Proof.
  intro s. rewrite E_rule. cbn [Gann Gpeg]. do 3 rewrite E_alt by reflexivity.
  rewrite E_int, E_bool, E_null. rewrite E_rule. cbn [Gann Gpeg]. rewrite E_alt by reflexivity. rewrite !E_quoted.
  destruct s as [|c t]; [reflexivity|]. unfold lexlit.
  destruct (N.eqb_spec c 39) as [->|H39].
  - change (39 =? 34)%N with false. cbv iota.
    destruct (drop (notc 39) t); [|reflexivity]. unfold is_digit. cbn. reflexivity.
  - destruct (N.eqb_spec c 34) as [->|H34].
    + destruct (drop (notc 34) t); [|reflexivity]. unfold is_digit. cbn. reflexivity.
    + destruct (c =? 48)%N; [reflexivity|]. destruct (is_digit c); [reflexivity|].
      destruct (first_strip _ (c :: t)) as [[w r]|]; [reflexivity|].
      destruct (first_strip [#"null"; #"NULL"] (c :: t)) as [[w r]|]; reflexivity.
Qed.

Lemma mem_notc : forall q s, mem q s = false <-> forallb (notc q) s = true.
Proof.
  intros q. induction s as [|c s IH]; cbn; [split; reflexivity|]. unfold notc at 1.
  rewrite (N.eqb_sym q c). destruct (c =? q)%N; cbn; [split; discriminate|exact IH].
Qed.
Lemma first_strip_some : forall ws s w r, first_strip ws s = Some (w, r) -> In w ws /\ s = w ++ r.
Proof.
  induction ws as [|a ws IH]; intros s w r H; [discriminate|]. cbn in H.
  destruct (strip a s) eqn:Ha; [injection H as <- <-; split; [now left|now apply strip_some]|].
  destruct (IH _ _ _ H). split; [now right|assumption].
Qed.

Lemma lexlit_complete : forall l t r, lit_text l t -> lfol l r -> lexlit (t ++ r) = Some (l, r).
Proof.
  intros l t r H Hf. destruct H as [s Hs|s Hs| |c ds Hc H0 Hd|w Hw|w Hw].
  - cbn. rewrite <- app_assoc. apply mem_notc in Hs. cbn [app].
    rewrite drop_app, take_app by (assumption || reflexivity). reflexivity.
  - cbn. rewrite <- app_assoc. apply mem_notc in Hs. cbn [app].
    rewrite drop_app, take_app by (assumption || reflexivity). reflexivity.
  - reflexivity.
  - cbn [app lexlit]. rewrite Hc, H0. cbn in Hf. rewrite H0 in Hf.
    unfold is_digit in Hc. destruct (N.eqb_spec c 39) as [->|]; [discriminate|].
    destruct (N.eqb_spec c 34) as [->|]; [discriminate|].
    rewrite take_app, drop_app by assumption. reflexivity.
  - cbn in Hw. decompose [or] Hw; subst; try contradiction; reflexivity.
  - cbn in Hw. decompose [or] Hw; subst; try contradiction; reflexivity.
Qed.
Lemma lexlit_sound : forall s l r, lexlit s = Some (l, r) -> exists t, s = t ++ r /\ lit_text l t /\ lfol l r.
Proof.
  intros s l r H. destruct s as [|c t]; [discriminate|]. unfold lexlit in H.
  destruct (N.eqb_spec c 39) as [->|H39].
  { pose proof (take_drop (notc 39) t) as Ht. pose proof (take_all (notc 39) t) as Ha.
    pose proof (drop_stops (notc 39) t) as Hd.
    destruct (drop (notc 39) t) as [|d u]; [discriminate|]. injection H as <- <-.
    cbn in Hd. unfold notc in Hd. destruct (N.eqb_spec d 39) as [->|]; [|discriminate].
    exists (39%N :: take (notc 39) t ++ [39%N]). split; [|split; [constructor; now apply mem_notc|exact I]].
    cbn. rewrite <- app_assoc. cbn. congruence. }
  destruct (N.eqb_spec c 34) as [->|H34].
  { pose proof (take_drop (notc 34) t) as Ht. pose proof (take_all (notc 34) t) as Ha.
    pose proof (drop_stops (notc 34) t) as Hd.
    destruct (drop (notc 34) t) as [|d u]; [discriminate|]. injection H as <- <-.
    cbn in Hd. unfold notc in Hd. destruct (N.eqb_spec d 34) as [->|]; [|discriminate].
    exists (34%N :: take (notc 34) t ++ [34%N]). split; [|split; [constructor; now apply mem_notc|exact I]].
    cbn. rewrite <- app_assoc. cbn. congruence. }
  destruct (N.eqb_spec c 48) as [->|H48].
  { injection H as <- <-. exists #"0". repeat split. constructor. }
  destruct (is_digit c) eqn:Hc.
  { injection H as <- <-. exists (c :: take is_digit t). split; [cbn; now rewrite <- take_drop|].
    split; [constructor; [exact Hc|now apply N.eqb_neq|apply take_all]|].
    cbn. destruct (N.eqb_spec c 48); [congruence|]. apply drop_stops. }
  destruct (first_strip [#"true"; #"false"; #"TRUE"; #"FALSE"] (c :: t)) as [[w u]|] eqn:Hb.
  { injection H as <- <-. destruct (first_strip_some _ _ _ _ Hb) as [Hi Hs]. exists w.
    repeat split; [exact Hs|]. now constructor. }
  destruct (first_strip [#"null"; #"NULL"] (c :: t)) as [[w u]|] eqn:Hn; [|discriminate].
  injection H as <- <-. destruct (first_strip_some _ _ _ _ Hn) as [Hi Hs]. exists w.
  repeat split; [exact Hs|]. now constructor.
Qed.

Lemma literal_complete : forall l t r, lit_text l t -> lfol l r ->
  E (PRule rLiteral) (t ++ r) = Some (lit_ev l, r).
Proof. intros l t r H Hf. rewrite E_literal, (lexlit_complete _ _ _ H Hf). reflexivity. Qed.
Lemma literal_sound : forall s ev r, E (PRule rLiteral) s = Some (ev, r) ->
  exists l t, s = t ++ r /\ lit_text l t /\ lfol l r /\ ev = lit_ev l.
Proof.
  intros s ev r H. rewrite E_literal in H. destruct (lexlit s) as [[l u]|] eqn:Hl; [|discriminate].
  injection H as <- <-. destruct (lexlit_sound _ _ _ Hl) as (t & Hs & Ht & Hf). exists l, t. auto.
Qed.

(** characters a literal can start with *)
Definition lit_start (c : N) : bool := (c =? 39)%N || (c =? 34)%N || is_digit c || mem c #"tfTFnN".
Lemma strip_none_head : forall w0 w c t, (c =? w0)%N = false -> strip (w0 :: w) (c :: t) = None.
Proof. intros. cbn. rewrite H. reflexivity. Qed.
Lemma literal_none_head : forall c t, lit_start c = false -> E (PRule rLiteral) (c :: t) = None.
Proof.
  intros c t H. rewrite E_literal. unfold lit_start, mem in H. cbn [existsb runes_of] in H.
  repeat (apply orb_false_iff in H; destruct H as [H ?Hx]).
  unfold lexlit. destruct (N.eqb_spec c 48) as [->|]; [discriminate|].
  repeat match goal with Hx : _ = false |- _ => progress rewrite ?Hx; revert Hx end. intros.
  cbn [first_strip strip runes_of].
  repeat match goal with Hx : _ || _ = false |- _ => apply orb_false_iff in Hx; destruct Hx end.
  repeat match goal with Hx : (c =? _)%N = false |- _ => rewrite ?Hx; clear Hx end. 
  rewrite ?H. reflexivity.
Qed.
Lemma lit_text_head : forall l t, lit_text l t -> exists c u, t = c :: u /\ lit_start c = true.
Proof.
  intros l t H. destruct H as [s Hs|s Hs| |c ds Hc H0 Hd|w Hw|w Hw].
  - eexists _, _. split; reflexivity.
  - eexists _, _. split; reflexivity.
  - eexists _, _. split; reflexivity.
  - eexists _, _. split; [reflexivity|]. unfold lit_start. rewrite Hc, !orb_true_r. reflexivity.
  - cbn in Hw. decompose [or] Hw; subst; try contradiction; eexists _, _; split; reflexivity.
  - cbn in Hw. decompose [or] Hw; subst; try contradiction; eexists _, _; split; reflexivity.
Qed.
Lemma literal_nil : E (PRule rLiteral) [] = None.
Proof. rewrite E_literal. reflexivity. Qed.

(** ** Arrays *)
Definition lits_ev (ls : list literal) : list event := concat (map lit_ev ls).
Definition arr_ev (p : bool) (ls : list literal) : list event :=
  [EAct (if p then 23 else 21)] ++ lits_ev ls ++ [EAct (if p then 24 else 22)].
Definition val_ev (v : val) : list event :=
  match v with VLit l => lit_ev l | VArr p ls => arr_ev p ls end.
Definition vfol (v : val) (r : list N) : Prop := match v with VLit l => lfol l r | VArr _ _ => True end.

Definition comma_lit : pexp := W ;; ch #"," ;; W ;; PRule rLiteral.

Lemma stops_lfol : forall l r, stops is_digit r -> lfol l r.
Proof. intros [b s|[|c ds]|w|w] r H; cbn; auto. destruct (c =? 48)%N; auto. Qed.
Lemma blank_digit : forall w r, blank w -> stops is_digit r -> stops is_digit (w ++ r).
Proof.
  intros w r H Hr. destruct H as [|c w Hc Hw|m b c w Hm Hb Hc Hw]; [exact Hr| |].
  - cbn in *. destruct (N.eqb_spec c 32) as [->|]; [reflexivity|].
    destruct (N.eqb_spec c 9) as [->|]; [reflexivity|]. destruct (N.eqb_spec c 10) as [->|]; [reflexivity|].
    destruct (N.eqb_spec c 13) as [->|]; [reflexivity|discriminate].
  - destruct Hm as [->| ->]; reflexivity.
Qed.

Lemma lit_start_clean : forall l t r, lit_text l t -> sc (t ++ r) = None.
Proof.
  intros l t r H. destruct (lit_text_head _ _ H) as (c & u & -> & Hc). cbn [app]. apply sc_head.
  unfold lit_start, is_digit in Hc. unfold blank_start. cbn in *.
  repeat match goal with |- context [(c =? ?k)%N] => destruct (N.eqb_spec c k); [subst; discriminate Hc|] end. reflexivity.
Qed.
Lemma lits_start_clean : forall ls t r, lits_text ls t -> sc (t ++ r) = None.
Proof.
  intros ls t r H. destruct H as [l t Hl|l t w1 w2 ls ts Hl H1 H2 Hs].
  - eapply lit_start_clean; eassumption.
  - rewrite <- app_assoc. eapply lit_start_clean; eassumption.
Qed.

Lemma E_comma_lit : forall s, E comma_lit s =
  match skip s with
  | c :: t => if (c =? 44)%N then match lexlit (skip t) with Some (l, r) => Some (lit_ev l, r) | None => None end else None
  | [] => None
  end.
Proof.
  intro s. unfold comma_lit. rewrite E_seq by reflexivity. rewrite E_skip.
  rewrite E_seq by reflexivity. unfold ch. rewrite E_lit by discriminate.
  destruct (skip s) as [|c t]; [reflexivity|]. cbn [strip runes_of]. change (N_of_ascii ","%char) with 44%N.
  destruct (c =? 44)%N; [|reflexivity]. cbn [ret]. rewrite E_seq by reflexivity. rewrite E_skip, E_literal.
  destruct (lexlit (skip t)) as [[l r]|]; reflexivity.
Qed.

Lemma lits_complete : forall ls t, lits_text ls t -> forall r,
  stops is_digit r -> E comma_lit r = None ->
  E (PRule rLiteral ;; (comma_lit **)) (t ++ r) = Some (lits_ev ls, r).
Proof.
  induction 1 as [l t Hl|l t w1 w2 ls ts Hl H1 H2 Hs IH]; intros r Hr Hn.
  - rewrite (seq_some _ _ _ _ _ (literal_complete _ _ _ Hl (stops_lfol _ _ Hr))) by reflexivity.
    rewrite E_star by reflexivity. rewrite Hn. unfold lits_ev. cbn. reflexivity.
  - rewrite <- !app_assoc.
    assert (X : E (PRule rLiteral) (t ++ w1 ++ #"," ++ w2 ++ ts ++ r) = Some (lit_ev l, w1 ++ #"," ++ w2 ++ ts ++ r)).
    { apply literal_complete; [exact Hl|]. apply stops_lfol. apply blank_digit; [exact H1|reflexivity]. }
    rewrite (seq_some _ _ _ _ _ X) by reflexivity.
    specialize (IH r Hr Hn). rewrite E_seq in IH by reflexivity. rewrite E_literal in IH.
    rewrite E_star by reflexivity. rewrite E_comma_lit.
    rewrite skip_blank_clean by (assumption || reflexivity). cbn [app runes_of].
    change (N_of_ascii ","%char) with 44%N. rewrite N.eqb_refl.
    rewrite skip_blank_clean by (assumption || (eapply lits_start_clean; eassumption)).
    destruct (lexlit (ts ++ r)) as [[l' r']|]; [|discriminate].
    destruct (E (comma_lit **) r') as [[e2 s2]|]; [|discriminate].
    injection IH as IH ->. unfold lits_ev in *. cbn [map concat]. rewrite IH. reflexivity.
Qed.

Lemma lits_sound : forall n s ev r, length s <= n -> E (PRule rLiteral ;; (comma_lit **)) s = Some (ev, r) ->
  exists ls t, s = t ++ r /\ lits_text ls t /\ ev = lits_ev ls /\ ls <> [] /\
    E comma_lit r = None /\ (forall l, last (map Some ls) None = Some l -> lfol l r).
Proof.
  induction n as [|n IH]; intros s ev r Hn H.
  - destruct s; [|cbn in Hn; lia]. apply seq_inv in H; [|reflexivity].
    destruct H as (e1 & s1 & e2 & H & _). rewrite literal_nil in H. discriminate.
  - apply seq_inv in H; [|reflexivity]. destruct H as (e1 & s1 & e2 & H1 & H2 & ->).
    destruct (literal_sound _ _ _ H1) as (l & t & -> & Ht & Hf & ->).
    apply star_inv in H2; [|reflexivity]. destruct H2 as [(H2 & -> & ->)|(e3 & s3 & e4 & H2 & H3 & ->)].
    + exists [l], t. repeat split; [now constructor|discriminate|exact H2|].
      intros l' Hl. cbn in Hl. injection Hl as <-. exact Hf.
    + rewrite E_comma_lit in H2. destruct (skip_spec s1) as (w1 & Hw1 & B1).
      destruct (skip s1) as [|c u]; [discriminate|]. destruct (N.eqb_spec c 44) as [->|]; [|discriminate].
      destruct (skip_spec u) as (w2 & Hw2 & B2).
      destruct (lexlit (skip u)) as [[l2 r2]|] eqn:Hl2; [|discriminate]. injection H2 as <- <-.
      assert (HE : E (PRule rLiteral ;; (comma_lit **)) (skip u) = Some (lit_ev l2 ++ e4, r)).
      { rewrite E_seq by reflexivity. rewrite E_literal, Hl2, H3. reflexivity. }
      apply IH in HE.
      * destruct HE as (ls & ts & Hs & Hls & Hev & Hne & Hc & Hlast).
        exists (l :: ls), (t ++ w1 ++ #"," ++ w2 ++ ts).
        split; [rewrite <- !app_assoc; rewrite Hw1, Hw2, Hs; reflexivity|].
        split; [now constructor|]. split; [unfold lits_ev in *; cbn; rewrite <- Hev; reflexivity|].
        split; [discriminate|]. split; [exact Hc|].
        intros l' Hl'. apply Hlast. destruct ls; [congruence|exact Hl'].
      * assert (length t > 0).
        { destruct (lit_text_head _ _ Ht) as (c & v & -> & _). cbn. lia. }
        assert (Hle : length s1 = length w1 + S (length w2 + length (skip u))).
        { rewrite Hw1. rewrite app_length. cbn. rewrite Hw2 at 1. rewrite app_length. reflexivity. }
        rewrite app_length in Hn. lia.
Qed.

Lemma litlist_assoc : forall s, E LitList s =
  match E (PRule rLiteral ;; (comma_lit **)) s with
  | Some (e1, s1) => match skip s1 with
                     | c :: t => if (c =? 44)%N then Some (e1, t) else Some (e1, skip s1)
                     | [] => Some (e1, [])
                     end
  | None => None
  end.
Proof.
  intro s. unfold LitList. fold comma_lit. rewrite !E_seq by reflexivity.
  destruct (E (PRule rLiteral) s) as [[e1 s1]|]; [|reflexivity].
  rewrite E_seq by reflexivity. destruct (E (comma_lit **) s1) as [[e2 s2]|]; [|reflexivity].
  rewrite E_seq by reflexivity. rewrite E_skip. rewrite E_opt by reflexivity.
  unfold ch. rewrite E_lit by discriminate. destruct (skip s2) as [|c t].
  - cbn. rewrite !app_nil_r. reflexivity.
  - cbn [strip runes_of]. change (N_of_ascii ","%char) with 44%N.
    destruct (c =? 44)%N; cbn [ret app]; rewrite app_nil_r; reflexivity.
Qed.

(** one bracket pair of the Array rule *)
Definition arr_alt (p : bool) : pexp :=
  if p then ch #"(" ;; PAct 23 ;; W ;; POpt LitList ;; W ;; ch #")" ;; PAct 24
  else ch #"[" ;; PAct 21 ;; W ;; POpt LitList ;; W ;; ch #"]" ;; PAct 22.
Lemma E_arr_alt : forall p s, E (arr_alt p) s =
  match strip (opening p) s with
  | None => None
  | Some t =>
    match E LitList (skip t) with
    | Some (ev, u) => match strip (closing p) (skip u) with
                      | Some r => Some ([EAct (if p then 23 else 21)] ++ ev ++ [EAct (if p then 24 else 22)], r)
                      | None => None end
    | None => match strip (closing p) (skip t) with
              | Some r => Some (arr_ev p [], r)
              | None => None end
    end
  end.
Proof.
  intros p s. unfold arr_alt.
  destruct p; (rewrite E_seq by reflexivity; unfold ch at 1; rewrite E_lit by discriminate;
    unfold opening, closing;
    match goal with |- context [strip ?w s] => destruct (strip w s) as [t|]; [|reflexivity] end;
    cbn [ret]; rewrite E_seq by reflexivity; rewrite E_act;
    rewrite E_seq by reflexivity; rewrite E_skip;
    rewrite E_seq by reflexivity; rewrite E_opt by reflexivity;
    destruct (E LitList (skip t)) as [[ev u]|];
    rewrite E_seq by reflexivity; rewrite E_skip; rewrite ?skip_idem;
    rewrite E_seq by reflexivity; unfold ch; rewrite E_lit by discriminate;
    match goal with |- context [strip ?w ?x] => destruct (strip w x) as [r|]; [|reflexivity] end;
    cbn [ret]; rewrite E_act; reflexivity).
Qed.
Lemma E_array : forall s, E (PRule rArray) s =
  match E (arr_alt false) s with Some r => Some r | None => E (arr_alt true) s end.
Proof. intro s. rewrite E_rule. cbn [Gann Gpeg]. rewrite E_alt by reflexivity. reflexivity. Qed.

Lemma closing_head : forall p, exists c, closing p = [c] /\ lit_start c = false /\ (c =? 44)%N = false /\ is_digit c = false /\ blank_start c = false.
Proof. intros [|]; eexists; repeat split. Qed.

Lemma comma_lit_closing : forall p w r, blank w -> E comma_lit (w ++ closing p ++ r) = None.
Proof.
  intros p w r Hw. rewrite E_comma_lit. destruct (closing_head p) as (c & -> & Hl & Hc & _ & Hb).
  cbn [app]. rewrite skip_blank_clean by (assumption || now apply sc_head). rewrite Hc. reflexivity.
Qed.
Lemma lexlit_none : forall c t, lit_start c = false -> lexlit (c :: t) = None.
Proof.
  intros c t H. pose proof (literal_none_head c t H) as X. rewrite E_literal in X.
  destruct (lexlit (c :: t)) as [[l r]|]; [discriminate|reflexivity].
Qed.
Lemma comma_lit_comma : forall p w w' r, blank w -> blank w' ->
  E comma_lit (w ++ #"," ++ w' ++ closing p ++ r) = None.
Proof.
  intros p w w' r Hw Hw'. rewrite E_comma_lit. rewrite skip_blank_clean by (assumption || reflexivity).
  cbn [app runes_of]. change (N_of_ascii ","%char) with 44%N. rewrite N.eqb_refl.
  destruct (closing_head p) as (c & -> & Hl & Hc & _ & Hb). cbn [app].
  rewrite skip_blank_clean by (assumption || now apply sc_head). rewrite lexlit_none by exact Hl. reflexivity.
Qed.

Lemma arr_alt_complete : forall p c ls t r, arr_text p c ls t ->
  E (arr_alt p) (t ++ r) = Some (arr_ev p ls, r).
Proof.
  intros p c ls t r H. rewrite E_arr_alt.
  destruct (closing_head p) as (k & Hk & Hl & Hc & Hd & Hb).
  destruct H as [w Hw|ls t w1 w2 Hls H1 H2|ls t w1 w2 w3 Hls H1 H2 H3];
    rewrite <- !app_assoc, strip_app.
  - rewrite skip_blank_clean by (assumption || (rewrite Hk; now apply sc_head)).
    assert (X : E LitList (closing p ++ r) = None).
    { rewrite litlist_assoc. rewrite seq_none; [reflexivity|reflexivity|]. rewrite Hk. now apply literal_none_head. }
    rewrite X, strip_app. reflexivity.
  - rewrite skip_blank_clean by (assumption || (eapply lits_start_clean; eassumption)).
    rewrite litlist_assoc. rewrite (lits_complete _ _ Hls).
    + rewrite skip_blank_clean by (assumption || (rewrite Hk; now apply sc_head)).
      rewrite Hk. cbn [app]. rewrite Hc. rewrite skip_stop by now apply sc_head.
      change (k :: r) with ([k] ++ r). rewrite strip_app. reflexivity.
    + apply blank_digit; [exact H2|]. rewrite Hk. exact Hd.
    + now apply comma_lit_closing.
  - rewrite skip_blank_clean by (assumption || (eapply lits_start_clean; eassumption)).
    rewrite litlist_assoc. rewrite (lits_complete _ _ Hls).
    + rewrite skip_blank_clean by (assumption || reflexivity). cbn [app runes_of].
      change (N_of_ascii ","%char) with 44%N. rewrite N.eqb_refl.
      rewrite skip_blank_clean by (assumption || (rewrite Hk; now apply sc_head)).
      rewrite strip_app. reflexivity.
    + apply blank_digit; [exact H2|reflexivity].
    + now apply comma_lit_comma.
Qed.
Lemma array_complete : forall p c ls t r, arr_text p c ls t ->
  E (PRule rArray) (t ++ r) = Some (arr_ev p ls, r).
Proof.
  intros p c ls t r H. rewrite E_array. destruct p.
  - assert (X : E (arr_alt false) (t ++ r) = None).
    { rewrite E_arr_alt. destruct H; reflexivity. }
    rewrite X. eapply arr_alt_complete; eassumption.
  - rewrite (arr_alt_complete _ _ _ _ r H). reflexivity.
Qed.

Lemma arr_alt_sound : forall p s ev r, E (arr_alt p) s = Some (ev, r) ->
  exists c ls t, s = t ++ r /\ arr_text p c ls t /\ ev = arr_ev p ls.
Proof.
  intros p s ev r H. rewrite E_arr_alt in H.
  destruct (strip (opening p) s) as [t|] eqn:Ho; [|discriminate]. apply strip_some in Ho. subst s.
  destruct (skip_spec t) as (w1 & Hw1 & B1).
  destruct (E LitList (skip t)) as [[ev1 u]|] eqn:HL.
  - destruct (strip (closing p) (skip u)) as [r'|] eqn:Hcl; [|discriminate]. injection H as <- <-.
    apply strip_some in Hcl. destruct (skip_spec u) as (w3 & Hw3 & B3). rewrite Hcl in Hw3.
    rewrite litlist_assoc in HL. destruct (E (PRule rLiteral ;; (comma_lit **)) (skip t)) as [[e1 s1]|] eqn:HE; [|discriminate].
    destruct (lits_sound _ _ _ _ (le_n _) HE) as (ls & tl & Hs & Hls & -> & Hne & Hcn & Hlast).
    destruct (skip_spec s1) as (w2 & Hw2 & B2). pose proof (skip_clean s1) as Hcs.
    destruct (skip s1) as [|c v].
    + injection HL as <- <-. rewrite (skip_stop [] eq_refl) in Hcl. destruct p; discriminate.
    + destruct (N.eqb_spec c 44) as [->|Hc].
      * injection HL as <- <-. exists true, ls, (opening p ++ w1 ++ tl ++ w2 ++ #"," ++ w3 ++ closing p).
        split; [|split; [now constructor|reflexivity]].
        rewrite <- !app_assoc. f_equal. rewrite Hw1. f_equal. rewrite Hs. f_equal. rewrite Hw2. f_equal.
        cbn. f_equal. exact Hw3.
      * injection HL as <- <-. rewrite (skip_stop _ Hcs) in Hcl.
        exists false, ls, (opening p ++ w1 ++ tl ++ w2 ++ closing p).
        split; [|split; [now constructor|reflexivity]].
        rewrite <- !app_assoc. f_equal. rewrite Hw1. f_equal. rewrite Hs. f_equal. rewrite Hw2. f_equal. exact Hcl.
  - destruct (strip (closing p) (skip t)) as [r'|] eqn:Hcl; [|discriminate]. injection H as <- <-.
    apply strip_some in Hcl. exists false, [], (opening p ++ w1 ++ closing p).
    split; [|split; [now constructor|reflexivity]]. rewrite <- !app_assoc. f_equal. rewrite Hw1 at 1. f_equal. exact Hcl.
Qed.
Lemma array_sound : forall s ev r, E (PRule rArray) s = Some (ev, r) ->
  exists p c ls t, s = t ++ r /\ arr_text p c ls t /\ ev = arr_ev p ls.
Proof.
  intros s ev r H. rewrite E_array in H. destruct (E (arr_alt false) s) as [x|] eqn:Ha.
  - injection H as ->. apply arr_alt_sound in Ha. destruct Ha as (c & ls & t & X). exists false, c, ls, t. exact X.
  - apply arr_alt_sound in H. destruct H as (c & ls & t & X). exists true, c, ls, t. exact X.
Qed.

(** ** Values *)
Lemma E_value : forall s, E (PRule rValue) s =
  match E (PRule rLiteral) s with Some r => Some r | None => E (PRule rArray) s end.
Proof. intro s. rewrite E_rule. cbn [Gann Gpeg]. now rewrite E_alt by reflexivity. Qed.
Lemma opening_head : forall p, exists c, opening p = [c] /\ lit_start c = false.
Proof. intros [|]; eexists; split; reflexivity. Qed.
Lemma arr_text_head : forall p c ls t, arr_text p c ls t -> exists u, t = opening p ++ u.
Proof. intros p c ls t H. destruct H; eexists; reflexivity. Qed.
Lemma value_complete : forall v t r, val_text v t -> vfol v r ->
  E (PRule rValue) (t ++ r) = Some (val_ev v, r).
Proof.
  intros v t r H Hf. rewrite E_value. destruct H as [l t Hl|p c ls t Ha].
  - rewrite (literal_complete _ _ _ Hl Hf). reflexivity.
  - assert (X : E (PRule rLiteral) (t ++ r) = None).
    { destruct (arr_text_head _ _ _ _ Ha) as (u & ->). destruct (opening_head p) as (k & -> & Hk). now apply literal_none_head. }
    rewrite X. eapply array_complete; eassumption.
Qed.
Lemma value_sound : forall s ev r, E (PRule rValue) s = Some (ev, r) ->
  exists v t, s = t ++ r /\ val_text v t /\ vfol v r /\ ev = val_ev v.
Proof.
  intros s ev r H. rewrite E_value in H. destruct (E (PRule rLiteral) s) as [x|] eqn:Hl.
  - injection H as ->. destruct (literal_sound _ _ _ Hl) as (l & t & Hs & Ht & Hf & He).
    exists (VLit l), t. repeat split; try assumption. now constructor.
  - destruct (array_sound _ _ _ H) as (p & c & ls & t & Hs & Ht & He).
    exists (VArr p ls), t. repeat split; try assumption. econstructor; eassumption.
Qed.
Lemma val_text_head : forall v t, val_text v t ->
  exists c u, t = c :: u /\ (lit_start c = true \/ c = 40%N \/ c = 91%N).
Proof.
  intros v t [l u Hl|p c ls u Ha].
  - destruct (lit_text_head _ _ Hl) as (c & v' & -> & Hc). eauto.
  - destruct (arr_text_head _ _ _ _ Ha) as (v' & ->). destruct p; cbn; eauto 6.
Qed.
Lemma val_start_clean : forall v t r, val_text v t -> sc (t ++ r) = None.
Proof.
  intros v t r H. destruct H as [l t Hl|p c ls t Ha]; [eapply lit_start_clean; eassumption|].
  destruct (arr_text_head _ _ _ _ Ha) as (u & ->). destruct p; reflexivity.
Qed.
Lemma array_none_head : forall c s, (c =? 40)%N = false -> (c =? 91)%N = false -> E (PRule rArray) (c :: s) = None.
Proof.
  intros c s H1 H2. rewrite E_array, !E_arr_alt. cbn [opening runes_of strip].
  change (N_of_ascii "["%char) with 91%N. change (N_of_ascii "("%char) with 40%N. rewrite H1, H2. reflexivity.
Qed.
Lemma value_nil : E (PRule rValue) [] = None.
Proof. rewrite E_value, literal_nil, E_array, !E_arr_alt. reflexivity. Qed.
Lemma value_none_head : forall c s, lit_start c = false -> (c =? 40)%N = false -> (c =? 91)%N = false ->
  E (PRule rValue) (c :: s) = None.
Proof.
  intros c s H0 H1 H2. rewrite E_value, literal_none_head by assumption. now apply array_none_head.
Qed.

(** an identifier is read as a value only if it starts with a literal word *)
Lemma strip_word_run : forall w x r, forallb letter w = true -> stops idchar r ->
  ~ prefix w x -> strip w (x ++ r) = None.
Proof.
  induction w as [|c w IH]; intros x r Hw Hr Hn.
  - exfalso. apply Hn. exists x. reflexivity.
  - cbn in Hw. apply andb_true_iff in Hw. destruct Hw as [Hc Hw]. destruct x as [|d x].
    + cbn. destruct r as [|d r]; [reflexivity|]. destruct (N.eqb_spec d c) as [->|]; [|reflexivity].
      cbn in Hr. apply letter_idchar in Hc. congruence.
    + cbn. destruct (N.eqb_spec d c) as [->|]; [|reflexivity]. apply IH; try assumption.
      intros [u ->]. apply Hn. exists u. reflexivity.
Qed.
Lemma value_ident : forall x r, ident x -> ~ starts_word x -> stops idchar r -> E (PRule rValue) (x ++ r) = None.
Proof.
  intros x r [(c & t & -> & Hc & Ht) Hn] Hs Hr. rewrite E_value, E_literal. cbn [app].
  assert (Hd : is_digit c = false /\ (c =? 39)%N = false /\ (c =? 34)%N = false /\ (c =? 48)%N = false
    /\ (c =? 40)%N = false /\ (c =? 91)%N = false).
  { unfold letter in Hc. unfold is_digit.
    destruct (N.leb_spec 97 c), (N.leb_spec c 122), (N.leb_spec 65 c), (N.leb_spec c 90); cbn in Hc; try discriminate;
    repeat split; try (apply N.eqb_neq; lia); destruct (N.leb_spec 48 c), (N.leb_spec c 57); try lia; reflexivity. }
  destruct Hd as (D1 & D2 & D3 & D4 & D5 & D6).
  unfold lexlit. rewrite D1, D2, D3, D4. change (c :: t ++ r) with ((c :: t) ++ r).
  unfold first_strip. unfold starts_word in Hs.
  rewrite !strip_word_run by (assumption || reflexivity || tauto).
  cbn [app]. now apply array_none_head.
Qed.
Lemma value_word : forall x r, starts_word x -> E (PRule rValue) (x ++ r) <> None.
Proof.
  intros x r H. rewrite E_value, E_literal.
  assert (X : forall w, prefix w x -> exists u, x ++ r = w ++ u).
  { intros w [u ->]. exists (u ++ r). now rewrite <- app_assoc. }
  unfold starts_word in H. decompose [or] H;
    match goal with Hp : prefix _ x |- _ => destruct (X _ Hp) as (u & ->) end; cbn; discriminate.
Qed.
