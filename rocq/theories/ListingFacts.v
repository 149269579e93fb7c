(** Proofs for C93. *)
From Coq Require Import Lia.
From Verif Require Import Base Peg Grammar Node Vocab Tree Parse Build Syntax ParseProofs ParserFacts ParserFacts2 ParserMain MachineProofs BuildProofs QuoteSpec QuoteProofs Ast AstSpec AstProofs Listing ListingSpec.
Strategy expand [parse_machine rule_trace].
Strategy 1000 [parse_fuel mrun tok_trace].

(** ** What is printed *)
Lemma rule_named : forall r, named r (rule_name r).
Proof. intros [r| |n]; [destruct r; reflexivity|reflexivity|exists (print_N (N.of_nat n)); split; [apply print_decimal|reflexivity]]. Qed.
Lemma string_line : forall t, span_line t (token_string t).
Proof. intro t. exists (rule_name (trule t)), (print_N (N.of_nat (tbegin t))), (print_N (N.of_nat (tend t))). auto using rule_named, print_decimal. Qed.
Lemma print_lists : forall ts, lists ts (print_tokens ts).
Proof.
  intro ts. exists (map token_string ts). induction ts as [|t ts (IH1 & IH2)]; [split; [constructor|reflexivity]|]. cbn [map print_tokens concat]. split; [constructor; [apply string_line|exact IH1]|].
  now rewrite IH2, <- app_assoc.
Qed.

(** ** It can be read back *)
Lemma cut : forall (c : N) a a' r r', ~ In c a -> ~ In c a' -> a ++ c :: r = a' ++ c :: r' -> a = a' /\ r = r'.
Proof.
  intros c a. induction a as [|x a IH]; intros a' r r' H H' E; destruct a' as [|x' a'].
  - now injection E as <-.
  - injection E as <- _. exfalso. apply H'. now left.
  - injection E as -> _. exfalso. apply H. now left.
  - injection E as <- E. destruct (IH a' r r') as [-> ->]; auto; intro; [apply H|apply H']; now right.
Qed.
Lemma decimal_value : forall n n' d, decimal n d -> decimal n' d -> n = n'.
Proof. intros n n' d (_ & _ & H & _) (_ & _ & H' & _). lia. Qed.
Lemma decimal_digits : forall n d c, decimal n d -> ~ (48 <= c <= 57)%N -> ~ In c d.
Proof. intros n d c (H & _) K I. rewrite Forall_forall in H. now apply H in I. Qed.
Lemma named_plain : forall r s c, named r s -> c = 27%N \/ c = 10%N -> ~ In c s.
Proof.
  intros r s c H K I. assert (D : ~ (48 <= c <= 57)%N) by (destruct K; subst; lia). destruct r as [r| |n]; cbn [named] in H.
  - subst s. destruct r; cbn in I; decompose [or] I; subst; destruct K; discriminate || assumption.
  - subst s. cbn in I. decompose [or] I; subst; destruct K; discriminate || assumption.
  - destruct H as (d & Hd & ->). apply in_app_or in I as [I|I]; [|now apply (decimal_digits n d c Hd D)]. cbn in I. decompose [or] I; subst; destruct K; discriminate || assumption.
Qed.
Lemma named_inj : forall r r' s, named r s -> named r' s -> r = r'.
Proof.
  assert (A : forall n r s, named (TAct n) s -> named r s -> r = TAct n).
  { intros n r s (d & D & ->) H. destruct r as [r| |m]; [destruct r; discriminate H|discriminate H|]. destruct H as (d' & D' & E). apply app_inv_head in E. subst d'. f_equal. eapply decimal_value; eassumption. }
  intros r r' s H H'. destruct r as [r| |n]; [| |symmetry; now apply (A n r' s)]; destruct r' as [r'| |m]; try (now apply (A m _ s)).
  - cbn [named] in *. subst s. destruct r; destruct r'; try discriminate H'; reflexivity.
  - cbn [named] in *. subst s. destruct r; discriminate.
  - cbn [named] in *. subst s. destruct r'; discriminate.
  - reflexivity.
Qed.
Lemma line_inj : forall t t' l l' r r', span_line t l -> span_line t' l' -> l ++ 10%N :: r = l' ++ 10%N :: r' -> t = t' /\ r = r'.
Proof.
  intros [k b e] [k' b' e'] l l' r r' (s & db & de & Hs & Hb & He & ->) (s' & db' & de' & Hs' & Hb' & He' & ->) E. cbn [trule tbegin tend] in *. rewrite <- !app_assoc in E. cbn [app] in E.
  apply (app_inv_head ([27%N] ++ #"[34m")) in E. cbn [app] in E.
  apply cut in E as [-> E]; [|eapply named_plain; eauto|eapply named_plain; eauto]. apply (app_inv_head #"[m ") in E. cbn [app] in E.
  change (#" " ++ de ++ 10%N :: r) with (32%N :: de ++ 10%N :: r) in E. change (#" " ++ de' ++ 10%N :: r') with (32%N :: de' ++ 10%N :: r') in E.
  apply cut in E as [-> E]; [|eapply decimal_digits; eauto; lia|eapply decimal_digits; eauto; lia].
  apply cut in E as [-> ->]; [|eapply decimal_digits; eauto; lia|eapply decimal_digits; eauto; lia].
  split; [|reflexivity]. rewrite (named_inj k k' s' Hs Hs'), (decimal_value b b' db' Hb Hb'), (decimal_value e e' de' He He'). reflexivity.
Qed.
Lemma lists_inj : forall ts ts' out, lists ts out -> lists ts' out -> ts = ts'.
Proof.
  intros ts ts' out (ls & H & E) (ls' & H' & E'). rewrite E in E'. clear out E. revert ts' ls' H' E'. induction H as [|t l ts ls Ht _ IH]; intros ts' ls' H' E.
  - destruct H' as [|t' l' ts' ls' _ _]; [reflexivity|]. destruct l'; discriminate.
  - destruct H' as [|t' l' ts' ls' Ht' H']; [destruct l; discriminate|]. cbn [map concat] in E. rewrite <- !app_assoc in E. cbn [app] in E.
    destruct (line_inj t t' l l' _ _ Ht Ht' E) as [-> E1]. f_equal. now apply (IH ts' ls').
Qed.

(** ** Post-order *)
Definition posts (l : list node32) : list token := concat (map postorder l).
Lemma postorder_eq : forall t up, postorder (N32 t up) = posts up ++ [t].
Proof. intros t up. cbn [postorder]. f_equal. induction up as [|c up IH]; [reflexivity|]. cbn. now rewrite IH. Qed.
Lemma posts_app : forall a b, posts (a ++ b) = posts a ++ posts b.
Proof. intros a b. unfold posts. now rewrite map_app, concat_app. Qed.
Lemma adopt_posts : forall t st up, posts (rev (adopt t up st)) = posts (rev st) ++ posts up ++ [t].
Proof.
  intros t. induction st as [|n st IH]; intro up; cbn [adopt].
  - cbn [rev app]. unfold posts at 1. cbn [map concat]. now rewrite app_nil_r, postorder_eq.
  - destruct (_ && _).
    + rewrite IH. cbn [rev]. rewrite posts_app, <- !app_assoc. f_equal. unfold posts. cbn [map concat]. now rewrite app_nil_r, <- app_assoc.
    + cbn [rev]. rewrite !posts_app. unfold posts at 3. cbn [map concat]. now rewrite app_nil_r, postorder_eq.
Qed.
Lemma loop_posts : forall ts st, posts (rev (ast_loop ts st)) = posts (rev st) ++ filter nonempty ts.
Proof.
  induction ts as [|t ts IH]; intro st; cbn [ast_loop filter]; [now rewrite app_nil_r|]. unfold nonempty at 1. destruct (tbegin t =? tend t) eqn:E; cbn [negb]; rewrite IH; [reflexivity|].
  rewrite adopt_posts. cbn [app]. unfold posts at 2. cbn [map concat app]. now rewrite <- app_assoc.
Qed.
Lemma adopt_all : forall t st up, Forall (fun n => tbegin t <= tbegin (ntok n) /\ tend (ntok n) <= tend t) st -> exists up', adopt t up st = [N32 t up'].
Proof.
  intros t st. induction st as [|n st IH]; intros up H; cbn [adopt]; [now exists up|]. inversion H as [|? ? [H1 H2] H3]; subst.
  rewrite (proj2 (Nat.leb_le _ _) H1), (proj2 (Nat.leb_le _ _) H2). cbn. now apply IH.
Qed.
Lemma loop_snoc : forall ts t st, ast_loop (ts ++ [t]) st = if tbegin t =? tend t then ast_loop ts st else adopt t [] (ast_loop ts st).
Proof. induction ts as [|u ts IH]; intros t st; cbn [app ast_loop]; [reflexivity|]. destruct (tbegin u =? tend u); apply IH. Qed.
Lemma adopt_top : forall t st up, exists up' st', adopt t up st = N32 t up' :: st'.
Proof. intros t. induction st as [|n st IH]; intro up; cbn [adopt]; [eauto|]. destruct (_ && _); [apply IH|eauto]. Qed.
Lemma loop_single : forall q ts n st, Forall (tok_in q) ts -> ast_loop ts [] = n :: st -> tbegin (ntok n) = 0 -> tend (ntok n) = length q -> st = [].
Proof.
  intros q ts. induction ts as [|t ts IH] using rev_ind; intros n st F E H1 H2; [discriminate|]. rewrite loop_snoc in E. apply Forall_app in F as [F _].
  destruct (tbegin t =? tend t); [now apply (IH n st)|]. destruct (adopt_top t (ast_loop ts []) []) as (up' & st' & K). rewrite K in E. injection E as <- <-. cbn [ntok] in *.
  assert (Z : Forall (fun m => tbegin t <= tbegin (ntok m) /\ tend (ntok m) <= tend t) (ast_loop ts [])).
  { pose proof (ast_every (tok_in q) ts [] F ltac:(constructor)) as A. apply Forall_forall. intros m I. rewrite Forall_forall in A. specialize (A m I). inversion A as [t0 up0 B _ C]; subst. cbn [ntok]. unfold tok_in in B. lia. }
  destruct (adopt_all t _ [] Z) as (up2 & K2). rewrite K2 in K. now injection K.
Qed.
Lemma tokens_in : forall q ts, valid_runes q -> parser_tokens q = Some ts -> Forall (tok_in q) ts.
Proof.
  intros q ts V H. unfold parser_tokens in H. pose proof (parse_machine_spec q V) as HM. destruct (GrammarProofs.EV GrammarProofs.Gann (PRule rGrammar) q) as [[ev r]|].
  - destruct HM as (s & K & I1 & _). rewrite K in H. injection H as <-. unfold trim. apply Forall_firstn. apply I1.
  - destruct HM as (s & K & I1). rewrite K in H. injection H as <-. apply I1.
Qed.
Lemma listing_post : forall q e, valid_runes q -> reads q e -> exists ts n, parser_tokens q = Some ts /\ ast ts = Some n /\ postorder n = filter nonempty ts /\ ntok n = Tok (TRule rGrammar) 0 (length q).
Proof.
  intros q e V R. destruct (reads_machine q e V R) as (s & HM). destruct (print_tree (fun _ => true) false q s V HM) as (n & P & H1 & H2 & _ & _ & _ & H3 & _).
  exists (trim (mtree s) (mtidx s)), n. split; [exact H1|]. split; [exact H2|]. split; [|exact H3]. pose proof (tokens_in q _ V H1) as F. unfold ast in H2.
  pose proof (loop_posts (trim (mtree s) (mtidx s)) []) as L. destruct (ast_loop (trim (mtree s) (mtidx s)) []) as [|m st] eqn:EL; [discriminate|]. cbn [hd_error] in H2. injection H2 as ->.
  rewrite (loop_single q _ n st F EL) in L; [|now rewrite H3|now rewrite H3]. unfold posts in L. cbn [rev app map concat] in L. now rewrite app_nil_r in L.
Qed.
