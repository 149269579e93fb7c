(** Facts about String, Build, Join and the node predicates (C18, C20-C23, C49). *)
From Verif Require Import Base Node Vocab Tree Parse Syntax Blank Lex Complete ParseProofs NormProofs Unique ParserFacts ParserFacts2 ParserMain Build BuildProofs.

Section NF.
  Variable lo : N -> N.
  Variable ip : N -> bool.
  Variable ff : Z -> list N.

  (** ** No panic on parsed trees *)
  Lemma some_ocat : forall a b, (exists x, a = Some x) -> (exists y, b = Some y) -> exists z, ocat a b = Some z.
  Proof. intros a b (x & ->) (y & ->). cbn. eauto. Qed.
  Lemma some_ostr : forall s, exists x, ostr s = Some x.
  Proof. intros. unfold ostr. eauto. Qed.
  Hint Resolve some_ocat some_ostr : core.
  Lemma safe_build : forall n, safe n -> forall rn, exists t, build_visit ip ff rn n = Some t.
  Proof.
    induction 1 as [n Hs Hr Hm IH]. intro rn. pose proof (safe_value n (safe_intro n Hs Hr Hm)) as (v & Hv).
    assert (Q : forall p, In p (required n) -> exists t, visp ip ff rn p = Some t).
    { intros [m|] Hp; [now apply IH|]. destruct (Hr None Hp eq_refl). }
    assert (L : forall l, (forall p, In p l -> exists t, visp ip ff rn p = Some t) -> exists t, vlist ip ff rn l = Some t).
    { induction l as [|x [|y l] IHl]; intro H; [eexists; reflexivity|apply H; now left|].
      cbn [vlist]. apply some_ocat; [apply H; now left|]. apply some_ocat; [auto|]. apply IHl. intros p Hp. apply H. now right. }
    rewrite bv_S. unfold bvstep. unfold required in Q. unfold shaped in Hs. destruct (nType n).
    - destruct (nVType n); try contradiction; rewrite ?Hv; auto; try (destruct v; auto).
    - auto.
    - auto.
    - auto.
    - rewrite Hs. cbn [mk_predicate nLeft nOp nRight]. repeat apply some_ocat; auto; apply Q; cbn; auto.
    - repeat apply some_ocat; auto; try (apply Q; cbn; now auto).
      pose proof (Q (nRight n)) as Qr. destruct (nRight n); [|auto]. apply some_ocat; auto. apply Qr. cbn; auto.
    - repeat apply some_ocat; auto; try (apply Q; cbn; now auto).
      pose proof (Q (nRight n)) as Qr. destruct (nRight n); [|auto]. apply some_ocat; auto. apply Qr. cbn; auto.
    - repeat apply some_ocat; auto; apply Q; cbn; now auto.
    - repeat apply some_ocat; auto; apply Q; cbn; now auto.
    - destruct Hs as (a & b & Hs & _). rewrite Hs in Q |- *. cbn [mk_between nLeft nOp nParams] in *. repeat apply some_ocat; auto; apply Q; cbn; auto.
    - repeat apply some_ocat; auto.
    - contradiction.
  Qed.
  Lemma safe_build_root : forall n, safe n -> exists t, build ip ff (Some n) = Some t.
  Proof. intros n H. apply safe_build. exact H. Qed.

  Definition strp (p : option node) : option (list N) := match p with None => None | Some m => node_string ff m end.
  Fixpoint strl (l : list (option node)) : option (list N) :=
    match l with [] => Some [] | x :: l' => ocat (ostr #",") (ocat (strp x) (strl l')) end.
  Definition str_body (n : node) : option (list N) :=
    match nType n with
    | NBetween => match nParams n with a :: b :: _ => ocat (strp a) (ocat (ostr #",") (strp b)) | _ => None end
    | NPredicates => ostr (nOperation n)
    | NLogic => ocat (strp (nOp n)) (ocat (ostr #",") (ocat (strp (nLeft n)) (ocat (ostr #",") (strp (nRight n)))))
    | NCompare => ocat (strp (nLeft n)) (ocat (ostr #",") (ocat (strp (nOp n)) (ocat (ostr #",") (strp (nRight n)))))
    | NParentheses | NNot => strp (nExpression n)
    | NValue => match value n with Some v => Some (fprint ff v) | None => None end
    | NOperation => ostr (nOperation n)
    | NIdentifier => ostr (nName n)
    | NReference => ostr (sjoin #"." (nNames n))
    | NFunction => ocat (ostr (nName n)) (strl (nParams n))
    | NOther => ostr #"unknown"
    end.
  Lemma string_S : forall n, node_string ff n = ocat (ostr (type_name (nType n) ++ #"(")) (ocat (str_body n) (ostr #")")).
  Proof.
    intro n. destruct n as [ty vt i b s fl arr op nmx nms ex le o ri ps].
    assert (L : forall l, (fix go (l : list (option node)) : option (list N) :=
        match l with [] => Some [] | x :: l' => ocat (ostr #",") (ocat (match x with None => None | Some m => node_string ff m end) (go l')) end) l = strl l).
    { induction l as [|x l IH]; [reflexivity|]. cbn [strl]. now rewrite <- IH. }
    unfold str_body. rewrite <- L. destruct ty; reflexivity.
  Qed.
  Lemma safe_string : forall n, safe n -> exists t, node_string ff n = Some t.
  Proof.
    induction 1 as [n Hs Hr Hm IH]. pose proof (safe_value n (safe_intro n Hs Hr Hm)) as (v & Hv).
    assert (Q : forall p, In p (required n) -> exists t, strp p = Some t).
    { intros [m|] Hp; [now apply IH|]. destruct (Hr None Hp eq_refl). }
    rewrite string_S. apply some_ocat; [auto|]. apply some_ocat; [|auto].
    unfold str_body. unfold required in Q. unfold shaped in Hs. destruct (nType n); auto; try (apply Q; cbn; now auto).
    - rewrite Hv. eauto.
    - repeat apply some_ocat; auto; apply Q; cbn; auto.
    - repeat apply some_ocat; auto; apply Q; cbn; auto.
    - destruct Hs as (a & b & Hs & _). rewrite Hs in Q |- *. cbn [mk_between nLeft nOp nParams] in *. repeat apply some_ocat; auto; apply Q; cbn; auto.
    - apply some_ocat; [auto|]. clear -Q. induction (nParams n) as [|x l IHl]; [eexists; reflexivity|].
      cbn [strl]. apply some_ocat; [auto|]. apply some_ocat; [apply Q; now left|]. apply IHl. intros. apply Q. now right.
  Qed.

  (** ** Build *)
  Lemma pu_node : forall rn n, printable_at ip rn n -> Forall (fun p => forall k, p = Some k -> printable_under ip rn k) (children n) -> printable_under ip rn n.
  Proof.
    intros rn n Hn HF m Hm. inversion Hm as [|? k ? Hk Hr]; subst; [exact Hn|]. rewrite Forall_forall in HF. exact (HF _ Hk k eq_refl m Hr).
  Qed.
  Lemma build_inj : forall q1 e1 n1 q2 e2 n2 t, valid_runes q1 -> valid_runes q2 -> reads q1 e1 -> reads q2 e2 ->
    json_free e1 = true -> json_free e2 = true -> parse lo q1 = Ok (Some n1) -> parse lo q2 = Ok (Some n2) ->
    printable ip n1 -> printable ip n2 -> build ip ff (Some n1) = Some t -> build ip ff (Some n2) = Some t -> n1 = n2.
  Proof.
    intros q1 e1 n1 q2 e2 n2 t V1 V2 R1 R2 J1 J2 P1 P2 G1 G2 B1 B2.
    destruct (build_parse lo ip ff q1 e1 n1 V1 R1 J1 P1 G1) as (t1 & H1 & K1).
    destruct (build_parse lo ip ff q2 e2 n2 V2 R2 J2 P2 G2) as (t2 & H2 & K2). congruence.
  Qed.

  Lemma blank_last : forall w, blank w -> w = [] \/ exists u c, w = u ++ [c] /\ mem c [32; 9; 10; 13]%N = true.
  Proof.
    induction 1 as [|c w Hc Hw IH|m body c w Hm Hb Hc Hw IH]; [now left| |]; right.
    - destruct IH as [->|(u & d & -> & Hd)]; [now exists [], c|]. now exists (c :: u), d.
    - destruct IH as [->|(u & d & -> & Hd)].
      + exists (m ++ body), c. rewrite <- app_assoc. split; [reflexivity|]. unfold line_end in Hc. unfold mem. cbn.
        destruct (c =? 32)%N, (c =? 9)%N; try reflexivity. cbn. now rewrite orb_false_r.
      + exists (m ++ body ++ c :: u), d. rewrite <- !app_assoc. now split.
  Qed.
  Lemma last_string : forall e t s, lay e t -> last (stk lo e) None = Some (mk_string s) -> exists d, e = EVal (VLit (LStr d s)) /\ length t = length s + 2.
  Proof.
    assert (R1 : forall f l s, (forall x, f x <> mk_string s) -> last (red1 f l) None = Some (mk_string s) -> False).
    { intros f l s Hf H. unfold red1 in H. rewrite last_last in H. injection H as H. exact (Hf _ H). }
    assert (R3 : forall f l s, (forall x y z, f x y z <> mk_string s) -> last (red3 f l) None = Some (mk_string s) -> False).
    { intros f l s Hf H. unfold red3 in H. rewrite last_last in H. injection H as H. exact (Hf _ _ _ H). }
    intros e t s Hl H. destruct Hl; cbn [stk last] in H; try discriminate;
      try (exfalso; eapply R1; [|exact H]; discriminate); try (exfalso; eapply R3; [|exact H]; discriminate).
    - destruct H0; cbn in H; try discriminate; injection H as <-.
      + exists false. split; [reflexivity|]. cbn. rewrite app_length. cbn. lia.
      + exists true. split; [reflexivity|]. cbn. rewrite app_length. cbn. lia.
    - exfalso. assert (K : forall l, last (map (fun x => Some (mk_ident x)) l) None <> Some (mk_string s)).
      { induction l as [|z [|z' l] IHl]; cbn; try discriminate. exact IHl. }
      exact (K _ H).
  Qed.
  Lemma escaped_lost : forall s t, ~ plain ip s -> valid_runes t ->
    build ip ff (Some (mk_string s)) = Some t -> parse lo t <> Ok (Some (mk_string s)).
  Proof.
    intros s t Hs Hv Hb Hp. cbn in Hb. injection Hb as <-. change (34%N :: concat (map (quote_rune ip) s) ++ [34%N]) with (quoted ip s) in *.
    destruct (quoted_len ip s) as [H|Hlen]; [contradiction|].
    destruct (parse_ok_inv lo _ _ Hv Hp) as (e & (w1 & t & w2 & He & B1 & B2 & Hl) & _ & Hn).
    destruct (last_string e t s Hl (eq_sym Hn)) as (d & -> & Ht).
    assert (W2 : w2 = []).
    { destruct (blank_last w2 B2) as [->|(u & c & -> & Hc)]; [reflexivity|]. exfalso.
      unfold quoted in He. assert (He' : (34%N :: concat (map (quote_rune ip) s)) ++ [34%N] = (w1 ++ t ++ u) ++ [c]) by (rewrite <- !app_assoc; exact He).
      apply app_inj_tail in He' as [_ <-]. discriminate. }
    assert (W1 : w1 = []).
    { destruct w1 as [|c w]; [reflexivity|]. exfalso. unfold quoted in He. cbn in He. injection He as <- _.
      apply blank_first in B1. discriminate. }
    subst. cbn [app] in He. rewrite app_nil_r in He. rewrite He in Hlen. lia.
  Qed.
  Lemma nested_call_lost : exists q e n t, valid_runes q /\ reads q e /\ json_free e = true /\ parse lo q = Ok (Some n) /\
    build ip ff (Some n) = Some t /\ parse lo t <> Ok (Some n).
  Proof.
    assert (Hl : lay (ECmp (ECall #"f" [EName #"a"]) #"=" (EVal (VLit (LInt #"1")))) #"f(a)=1").
    { apply (lay_cmp _ #"f(a)" [] #"=" [] _ #"1"); cbn [level]; try lia; try (constructor; fail).
      - apply (lay_call #"f" [EName #"a"] #"a" [] []); try (constructor; fail); try (constructor; constructor; [apply ident_a|apply nword_a]).
        + split; [now exists 102%N, []|]. intros (v & r & H & Hc). destruct v as [|c [|? ?]]; discriminate.
        + intro H. unfold starts_word, prefix in H. repeat (destruct H as [(r & H)|H]; [discriminate|]). destruct H as (r & H). discriminate.
      - left. cbn. auto 10.
      - constructor. apply (lt_int 49%N []); reflexivity.
    }
    exists #"f(a)=1", (ECmp (ECall #"f" [EName #"a"]) #"=" (EVal (VLit (LInt #"1")))). do 2 eexists.
    split; [apply valid_ascii|]. split; [now apply lay_reads|]. split; [reflexivity|].
    split; [vm_compute; reflexivity|]. split; [vm_compute; reflexivity|]. intro H. vm_compute in H. discriminate.
  Qed.
  Lemma comment_op_lost : exists q n t, valid_runes q /\ parse lo q = Ok (Some n) /\
    build ip ff (Some n) = Some t /\ parse lo t <> Ok (Some n).
  Proof.
    exists #"a is --x
 null". do 2 eexists. split; [apply valid_ascii|]. split; [vm_compute; reflexivity|]. split; [vm_compute; reflexivity|].
    intro H. vm_compute in H. discriminate.
  Qed.

  (** ** Join *)
  Definition blank_entry (v : list N) : bool := forallb spacing v.
  Lemma is_blank_iff : forall v, is_blank v = blank_entry v.
  Proof.
    intro v. unfold is_blank, blank_entry. change spacing with unicode_space. destruct (forallb unicode_space v) eqn:H.
    - replace v with (v ++ [] ++ []) by apply app_nil_r. now rewrite (trim_pad v [] [] H eq_refl).
    - destruct (trim_space v) eqn:E; [|reflexivity]. exfalso. rewrite trim_space_eq in E. unfold trim_right in E.
      apply (f_equal (@rev N)) in E. rewrite rev_involutive in E. cbn in E. apply trim_left_nil in E. rewrite forallb_rev in E.
      destruct (trim_left_split v) as (w & Hw & Hs). rewrite Hw, forallb_app, Hs, E in H. discriminate.
  Qed.
  Fixpoint and_texts (vs : list (list N)) : list N :=
    match vs with [] => [] | v :: vs' => #" and (" ++ v ++ #")" ++ and_texts vs' end.
  Lemma join_fold : forall l sb, sb <> [] -> fold_left join_step l sb = sb ++ and_texts (filter (fun v => negb (blank_entry v)) l).
  Proof.
    induction l as [|v l IH]; intros sb Hsb; cbn [fold_left filter]; [now rewrite app_nil_r|].
    unfold join_step at 2. rewrite is_blank_iff. destruct (blank_entry v); cbn [negb].
    - now apply IH.
    - destruct sb as [|c sb]; [congruence|]. rewrite IH by discriminate. cbn [and_texts].
      change (#" and (") with (#" and " ++ #"("). rewrite <- !app_assoc. reflexivity.
  Qed.
  Lemma join_shape : forall x y l, exists vs, vs = filter (fun v => negb (blank_entry v)) (x :: y :: l) /\
    join (x :: y :: l) = match vs with [] => [] | v :: vs' => #"(" ++ v ++ #")" ++ and_texts vs' end.
  Proof.
    intros x y l. eexists. split; [reflexivity|]. unfold join. generalize (x :: y :: l). clear x y l. intro z.
    induction z as [|v z IH]; [reflexivity|]. cbn [fold_left filter]. unfold join_step at 2. rewrite is_blank_iff.
    destruct (blank_entry v); cbn [negb]; [exact IH|]. rewrite join_fold; [|discriminate]. cbn [app].
    now rewrite <- !app_assoc.
  Qed.
  (** n1 and n2 and ... and nk, nested to the left *)
  Definition conj_tree (n : option node) (ns : list (option node)) : option node :=
    fold_left (fun acc m => Some (mk_logic acc (Some (mk_op #"and")) m)) ns n.
  Definition member (v : list N) (n : option node) : Prop :=
    exists e, reads v e /\ json_free e = true /\ parse lo v = Ok n.
  Lemma member_info : forall v n, valid_runes v -> member v n -> exists e, lay (EParen e) (#"(" ++ v ++ #")") /\ json_free (EParen e) = true /\ fits (EParen e) = true /\ n = ntree lo e.
  Proof.
    intros v n Hv (e & He & Hj & Hp).
    assert (Hf : fits e = true).
    { destruct (parse_ok_inv lo v _ Hv Hp) as (e2 & H2 & Hf & _). now rewrite (reads_unique _ _ _ He H2). }
    rewrite (parse_tree lo v e Hv He Hf Hj) in Hp. injection Hp as <-.
    exists e. repeat split; auto. destruct He as (w1 & t & w2 & -> & B1 & B2 & Hl). rewrite <- !app_assoc. now constructor.
  Qed.
  Lemma join_parse : forall v vs n ns, Forall valid_runes (v :: vs) -> Forall2 member (v :: vs) (n :: ns) ->
    parse lo (#"(" ++ v ++ #")" ++ and_texts vs) = Ok (conj_tree (Some (mk_paren n)) (map (fun m => Some (mk_paren m)) ns)).
  Proof.
    intros v vs n ns Hv HM. inversion_clear Hv as [|? ? Hv1 Hv2]. inversion_clear HM as [|? ? ? ? M1 M2].
    destruct (member_info v n Hv1 M1) as (e & Hl & Hj & Hf & ->).
    assert (K : exists ks, concat (map link_text ks) = and_texts vs /\ (forall prev, (exists x, prev = EParen x) -> links_ok prev ks) /\
      forallb (fun k => json_free (lexp k)) ks = true /\ forallb (fun k => fits (lexp k)) ks = true /\
      (forall acc, fold_left (fun n k => Some (mk_logic n (opn lo (lop k)) (ntree lo (lexp k)))) ks acc = conj_tree acc (map (fun m => Some (mk_paren m)) ns))).
    { clear Hl Hj Hf M1 Hv1. revert ns M2. induction Hv2 as [|u us Hu Hus IH]; intros ns M2; inversion_clear M2 as [|? ? ? ? N1 N2].
      - exists []. repeat split; auto.
      - destruct (IH _ N2) as (ks & K1 & K2 & K3 & K4 & K5). destruct (member_info u y Hu N1) as (e' & Hl' & Hj' & Hf' & ->).
        exists (Link #" " #"and" #" " (EParen e') (#"(" ++ u ++ #")") :: ks). split; [|split; [|split; [|split]]].
        + cbn [map concat and_texts]. rewrite K1. unfold link_text. cbn [lw1 lop lw2 ltxt]. rewrite <- !app_assoc. reflexivity.
        + intros prev (x & ->). cbn [links_ok lw1 lop lw2 ltxt lexp]. repeat split; auto using sp_blank.
          * now left.
          * cbn. lia.
          * intros [H _]. discriminate.
          * apply K2. eauto.
        + cbn [forallb lexp]. now rewrite Hj', K3.
        + cbn [forallb lexp]. now rewrite Hf', K4.
        + intro acc. cbn [fold_left map lop lexp ntree]. rewrite K5. reflexivity. }
    destruct K as (ks & K1 & K2 & K3 & K4 & K5). rewrite <- K1.
    rewrite (app_assoc v), (app_assoc #"(").
    rewrite (chain_parse lo (EParen e) (#"(" ++ v ++ #")") ks); auto.
    - cbn [ntree]. now rewrite K5.
    - apply K2. eauto.
    - apply valid_app. split; [apply valid_app; split; [apply valid_ascii|apply valid_app; split; [exact Hv1|apply valid_ascii]]|].
      rewrite K1. clear -Hv2. induction Hv2 as [|u us Hu _ IH]; [constructor|]. cbn [and_texts].
      repeat (apply valid_app; split); auto using valid_ascii.
  Qed.

  Lemma join_two : forall x y, blank_entry x = false -> blank_entry y = false -> join [x; y] = #"(" ++ x ++ #")" ++ #" and (" ++ y ++ #")".
  Proof.
    intros x y Hx Hy. destruct (join_shape x y []) as (vs & Hvs & ->). cbn [filter] in Hvs. rewrite Hx, Hy in Hvs. cbn in Hvs. subst vs.
    cbn [and_texts]. now rewrite app_nil_r.
  Qed.
  Lemma starter_not_space : forall c, starter c = true -> unicode_space c = false.
  Proof.
    intros c Hc. destruct (unicode_space c) eqn:E; [|reflexivity]. exfalso. unfold unicode_space in E. apply orb_true_iff in E as [E|E].
    - unfold mem in E. cbn [existsb] in E. repeat (apply orb_true_iff in E as [E|E]; [apply N.eqb_eq in E; subst c; discriminate Hc|]). discriminate.
    - apply andb_true_iff in E as [E1 E2]. apply N.leb_le in E1, E2. 
      assert (K : In c [8192;8193;8194;8195;8196;8197;8198;8199;8200;8201;8202]%N) by (cbn [In]; lia).
      cbn [In] in K. repeat (destruct K as [<-|K]; [discriminate Hc|]). destruct K.
  Qed.
  Lemma reads_not_blank : forall v e, reads v e -> valid_runes v -> blank_entry v = false.
  Proof.
    intros v e He Hv. destruct (blank_entry v) eqn:E; [|reflexivity]. exfalso.
    destruct He as (w1 & t & w2 & -> & _ & _ & Hl). unfold blank_entry in E. rewrite !forallb_app in E.
    apply andb_true_iff in E as [_ E]. apply andb_true_iff in E as [E _].
    destruct (lay_head e t Hl) as (c & r & -> & Hc). cbn [forallb] in E. apply andb_true_iff in E as [E _].
    apply starter_not_space in Hc. change unicode_space with spacing in Hc. congruence.
  Qed.
  (** any entry can break out of its parentheses *)
  Lemma join_escape : forall p np x nx y ny, valid_runes p -> valid_runes x -> valid_runes y ->
    member p np -> member x nx -> member y ny ->
    parse lo (join [p; x ++ #") or (" ++ y]) =
      Ok (Some (mk_logic (Some (mk_logic (Some (mk_paren np)) (Some (mk_op #"and")) (Some (mk_paren nx))))
                         (Some (mk_op #"or")) (Some (mk_paren ny)))).
  Proof.
    intros p np x nx y ny Vp Vx Vy Mp Mx My.
    assert (Bp : blank_entry p = false) by (destruct Mp as (e & He & _); eapply reads_not_blank; eassumption).
    assert (Bx : blank_entry (x ++ #") or (" ++ y) = false).
    { unfold blank_entry. rewrite !forallb_app. cbn. now rewrite andb_false_r. }
    rewrite (join_two _ _ Bp Bx).
    destruct (member_info p np Vp Mp) as (ep & Lp & Jp & Fp & ->).
    destruct (member_info x nx Vx Mx) as (ex & Lx & Jx & Fx & ->).
    destruct (member_info y ny Vy My) as (ey & Ly & Jy & Fy & ->).
    pose (ks := [Link #" " #"and" #" " (EParen ex) (#"(" ++ x ++ #")"); Link #" " #"or" #" " (EParen ey) (#"(" ++ y ++ #")")]).
    assert (HT : #"(" ++ p ++ #")" ++ #" and (" ++ (x ++ #") or (" ++ y) ++ #")" = (#"(" ++ p ++ #")") ++ concat (map link_text ks)).
    { unfold ks, link_text. cbn [map concat lw1 lop lw2 ltxt]. rewrite app_nil_r. rewrite <- !app_assoc. reflexivity. }
    rewrite HT. rewrite (chain_parse lo (EParen ep)); auto.
    - unfold ks. cbn [links_ok lw1 lop lw2 ltxt lexp]. repeat split; auto using sp_blank; try (cbn; lia);
        try (now left); try (right; left; reflexivity); try (intros [Hx _]; discriminate); try discriminate.
    - rewrite <- HT. repeat (apply valid_app; split); auto using valid_ascii.
    - unfold ks. cbn [forallb lexp]. now rewrite Jx, Jy.
    - unfold ks. cbn [forallb lexp]. now rewrite Fx, Fy.
  Qed.
  Lemma join_json : exists l, Forall (fun q => exists n, parse lo q = Ok (Some n)) l /\ exists op l' r,
    parse lo (join l) = Ok (Some (mk_logic l' (Some op) r)) /\ nType op <> NOperation.
  Proof.
    exists [#"c=2"; #"a->b=1"]. split.
    - repeat constructor; eexists; vm_compute; reflexivity.
    - do 3 eexists. split; [vm_compute; reflexivity|discriminate].
  Qed.

  (** ** Reachable nodes *)
  Lemma safe_child : forall n k, safe n -> In (Some k) (children n) -> safe k.
  Proof.
    intros n k H Hk. destruct H as [n Hs Hr Hm]. apply Hm. unfold shaped in Hs. unfold required. unfold children in Hk.
    destruct (nType n) eqn:HT.
    - destruct (nVType n); try contradiction; try (rewrite Hs in Hk; cbn in Hk; intuition discriminate).
      destruct Hs as [Hs _]. rewrite Hs in Hk. cbn [mk_array nArray nExpression nLeft nOp nRight nParams] in Hk. apply in_app_iff in Hk as [Hk|Hk]; [|cbn in Hk; intuition discriminate]. exact Hk.
    - rewrite Hs in Hk. cbn in Hk. intuition discriminate.
    - rewrite Hs in Hk. cbn in Hk. intuition discriminate.
    - rewrite Hs in Hk. cbn in Hk. intuition discriminate.
    - rewrite Hs in Hk. cbn in *. intuition discriminate.
    - rewrite Hs in Hk. cbn in *. intuition discriminate.
    - rewrite Hs in Hk. cbn in *. intuition discriminate.
    - rewrite Hs in Hk. cbn in *. intuition discriminate.
    - rewrite Hs in Hk. cbn in *. intuition discriminate.
    - destruct Hs as (a & b & Hs & _). rewrite Hs in Hk |- *. cbn in *. intuition discriminate.
    - rewrite Hs in Hk. cbn in *. intuition discriminate.
    - contradiction.
  Qed.
  Lemma safe_reach : forall n m, reach n m -> safe n -> safe m.
  Proof. induction 1 as [n|n k m Hk _ IH]; intro H; [exact H|]. apply IH. eapply safe_child; eassumption. Qed.

  (** ** C23 *)
  (** the Go value of a literal node *)
  Inductive go_value : node -> gval -> Prop :=
  | gv_int : forall z, go_value (mk_int z) (GInt z)
  | gv_bool : forall b, go_value (mk_bool b) (GBool b)
  | gv_string : forall s, go_value (mk_string s) (GStr s)
  | gv_null : go_value mk_null GNil
  | gv_array : forall l vs, go_values l vs -> go_value (mk_array l) (GArr vs)
  with go_values : list (option node) -> list gval -> Prop :=
  | gvs_nil : go_values [] []
  | gvs_cons : forall n l v vs, go_value n v -> go_values l vs -> go_values (Some n :: l) (v :: vs).
  Lemma scalar_go : forall n, safe n -> nType n = NValue -> nVType n <> VArray -> exists v, value n = Some v /\ go_value n v.
  Proof.
    intros n [n' Hs _ _] HT HA. unfold shaped in Hs. rewrite HT in Hs. destruct (nVType n'); try contradiction; try congruence; rewrite Hs.
    - eexists. split; [reflexivity|constructor].
    - eexists. split; [reflexivity|constructor].
    - eexists. split; [reflexivity|constructor].
    - eexists. split; [reflexivity|constructor].
  Qed.
  Lemma safe_go : forall n, safe n -> nType n = NValue -> exists v, value n = Some v /\ go_value n v.
  Proof.
    intros n Hn HT. destruct (nVType n) eqn:HV; try (apply scalar_go; [exact Hn|exact HT|congruence]).
    destruct Hn as [n Hs Hr Hm]. unfold shaped in Hs. rewrite HT, HV in Hs. destruct Hs as [Hs HF].
    unfold required in Hm. rewrite HT, HV in Hm. rewrite Hs.
    assert (K : forall l, (forall m, In (Some m) l -> safe m) -> Forall (fun p => exists k, p = Some k /\ nType k = NValue /\ nVType k <> VArray) l ->
      exists vs, value (mk_array l) = Some (GArr vs) /\ go_values l vs).
    { clear. induction l as [|p l IH]; intros Hm HF; [exists []; split; [reflexivity|constructor]|].
      inversion_clear HF as [|? ? HF1 HF']. destruct HF1 as (k & Hp & HT & HV). subst p. destruct IH as (vs & H1 & H2); [intros; apply Hm; now right|exact HF'|].
      destruct (scalar_go k (Hm _ (or_introl eq_refl)) HT HV) as (v & H3 & H4).
      exists (v :: vs). split; [|now constructor]. cbn [value mk_array nVType nArray] in *. rewrite H3.
      match goal with H : match ?X with _ => _ end = _ |- _ => destruct X eqn:E; [|discriminate]; injection H as -> end. reflexivity. }
    destruct (K (nArray n) Hm HF) as (vs & H1 & H2). exists (GArr vs). split; [exact H1|now constructor].
  Qed.
  Lemma classify : forall n, safe n ->
    (isValue n = true <-> nType n = NValue) /\
    (isExpression n = true <-> ~ In (nType n) [NValue; NOperation; NIdentifier; NReference]).
  Proof.
    intros n [n' Hs _ _]. unfold shaped in Hs. unfold isValue, isExpression. cbn [In].
    destruct (nType n') eqn:HT; try contradiction; try (destruct Hs as (a & b & Hs & _));
      try (rewrite Hs; cbn); split; split; intro H; try discriminate; try congruence; try (now intuition discriminate); try reflexivity;
      try (destruct (nVType n'); try contradiction; reflexivity); try (destruct H; tauto).
  Qed.
End NF.
