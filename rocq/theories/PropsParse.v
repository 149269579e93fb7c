(** Properties C01-C19: the parser.  Statements only; proofs are in
    ParserFacts.v, ParserFacts2.v, ParserMain.v, NormProofs.v, Unique.v.

    [parse lo q] is the model of miniquery.Parse(q); [lo] is unicode.ToLower on
    runes above 127, an arbitrary function.  [valid_runes q]: every rune is a
    Unicode code point, true of every Go string.  [reads q e] (Syntax.v): the
    whole text [q] is a layout of the expression [e]. *)
From Verif Require Import Base Peg PegSpec PegProofs MachineProofs Grammar Node Vocab Tree Parse GrammarProofs Syntax
  ParseProofs Unique PegSpecProofs ParserFacts ParserFacts2 NormProofs ParserMain TreeFacts.
Strategy expand [parse_machine rule_trace].
Strategy 1000 [parse_fuel mrun tok_trace].

(** the examples use the identity above 127 *)
Definition lo0 (c : N) : N := c.
Definition qa : list N := #" a = 1 -- c
 and ( b.c in (1,'x') or not f(d, 'it') like ""z"" ) ".

(** ** C01 *)
Theorem C01_parse_total : forall lo q, valid_runes q ->
  (exists n, parse lo q = Ok (Some n)) \/ (exists e, parse lo q = Err e).
Proof. exact parse_total. Qed.
(** the recursion bound of the model is not what makes it stop: any larger one
    gives the same run *)
Theorem C01_terminates : forall q f, valid_runes q -> parse_fuel q <= f ->
  mrun Ggo (init_buffer q) f (PRule rGrammar) init_state = parse_machine q /\ parse_machine q <> MFuel /\ parse_machine q <> MPanic.
Proof. exact parse_terminates. Qed.
Example C01_ex_ok : exists n, parse lo0 qa = Ok (Some n).
Proof. eexists. vm_compute. reflexivity. Qed.
Example C01_ex_err : parse lo0 #"a = (1" = Err (PESyntax 5 6).
Proof. vm_compute. reflexivity. Qed.

(** ** C02 *)
Theorem C02_depth_linear : forall q f, valid_runes q ->
  call_depth Ggo (init_buffer q) f (PRule rGrammar) init_state <= 50 * (length q + 1).
Proof. exact parse_depth_bound. Qed.
Example C02_ex : call_depth Ggo (init_buffer #"((1))") (parse_fuel #"((1))") (PRule rGrammar) init_state = 28.
Proof. vm_compute. reflexivity. Qed.

(** ** C03 *)
Theorem C03_rule_implements : forall q r s f, valid_runes q -> minv q s -> rule_fuel q s <= f ->
  exists b s', mrun Ggo (q ++ [endSymbol]) f (PRule r) s = MR b s' /\
    matches Gpeg (PRule r) (skipn (mpos s) q)
      (if b then Some (toks_events q (new_toks s s'), skipn (mpos s') q) else None) /\
    firstn (mtidx s) (mtree s') = firstn (mtidx s) (mtree s).
Proof. exact rule_implements. Qed.
(** the declarative semantics determines the outcome *)
Theorem C03_matches_function : forall r s, exists o, matches Gpeg (PRule r) s o /\ forall o', matches Gpeg (PRule r) s o' -> o' = o.
Proof. exact rules_function. Qed.
Theorem C03_same_rules : forall r s o, matches Ggo (PRule r) s o <-> matches Gpeg (PRule r) s o.
Proof. exact rules_equal. Qed.
Example C03_ex : minv #"a='x'" (MState 2 0 [] tok0) /\
  exists s', mrun Ggo (#"a='x'" ++ [endSymbol]) 200 (PRule rLiteral) (MState 2 0 [] tok0) = MR true s' /\
    toks_events #"a='x'" (new_toks (MState 2 0 [] tok0) s') = [EText #"x"; EAct 28] /\ mpos s' = 5.
Proof. split; [repeat split; cbn; auto; lia|]. eexists. split; [vm_compute; reflexivity|]. vm_compute. auto. Qed.

(** ** C04: for every PEG, and for Parse *)
Theorem C04_machine_refines : forall G q f e s, valid_runes q -> (forall r, pok (G r) = true) -> pok e = true -> minv q s ->
  match mrun G (q ++ [endSymbol]) f e s with
  | MFuel => True
  | MPanic => False
  | MR false s' => matches G e (skipn (mpos s) q) None /\ minv q s' /\ mext s s'
  | MR true s' => matches G e (skipn (mpos s) q) (Some (toks_events q (new_toks s s'), skipn (mpos s') q)) /\ minv q s' /\ mext s s'
  end.
Proof. exact machine_matches. Qed.
Theorem C04_parse_from_matches : forall lo q o, valid_runes q -> matches Gpeg (PRule rGrammar) q o ->
  match o with
  | None => exists b e, parse lo q = Err (PESyntax b e)
  | Some (ev, _) =>
      exists text t, run lo ev ([], tree0) = Some (text, t) /\
        parse lo q = match tErrors t with x :: _ => Err x | [] => Ok (fst (pop t)) end
  end.
Proof. exact parse_from_matches. Qed.
(** here the alternatives "(1" as array and as function argument list are tried first *)
Example C04_ex : exists s, parse_machine #"f(g(1)=2)" = MR true s /\
  toks_events #"f(g(1)=2)" (trim (mtree s) (mtidx s)) =
    [EText #"f"; EAct 14; EAct 10; EText #"g"; EAct 14; EAct 10; EText #"1"; EAct 25; EAct 11; EAct 9; EText #"="; EAct 15;
     EText #"2"; EAct 25; EAct 2; EAct 11; EAct 9].
Proof. eexists. split; vm_compute; reflexivity. Qed.

(** ** C05 *)
Theorem C05_accepts : forall lo q, valid_runes q ->
  ((exists n, parse lo q = Ok n) <-> exists e, reads q e /\ fits e = true).
Proof. exact parse_ok_iff. Qed.
Theorem C05_rejects : forall lo q, valid_runes q -> (forall e, ~ reads q e) <-> (exists b f, parse lo q = Err (PESyntax b f)).
Proof. exact parse_rejects. Qed.
Theorem C05_tree : forall lo q e, valid_runes q -> reads q e -> fits e = true -> json_free e = true -> parse lo q = Ok (tree_of lo e).
Proof. exact parse_spec. Qed.
Example C05_ex : reads #" a = 1 " (ECmp (EName #"a") #"=" (EVal (VLit (LInt #"1")))) /\
  parse lo0 #" a = 1 " = Ok (Some (mk_compare (Some (mk_ident #"a")) (Some (mk_op #"eq")) (Some (mk_int 1)))).
Proof. split; [exact ex_reads|vm_compute; reflexivity]. Qed.

(** ** C06 *)
Theorem C06_unambiguous : forall q e1 e2, reads q e1 -> reads q e2 -> e1 = e2.
Proof. exact reads_unique. Qed.

(** ** C07 *)
Theorem C07_outer : forall lo q w w', valid_runes (w ++ q ++ w') -> blank w -> blank w' -> (exists e, reads q e) ->
  parse lo (w ++ q ++ w') = parse lo q.
Proof. exact parse_pad. Qed.
Theorem C07_lead : forall lo q w n, valid_runes (w ++ q) -> blank w -> parse lo (w ++ q) = Ok n <-> parse lo q = Ok n.
Proof. exact lead_spec. Qed.
Theorem C07_operators : forall lo l tl o r tr w1 w2 w1' w2', lay l tl -> lay r tr ->
  (op_cmp o /\ level l <= 4 /\ level r <= 3 \/ op_logic o /\ level r <= 5 /\ ~ bracket_clash l o r) ->
  blank w1 -> blank w2 -> blank w1' -> blank w2' -> seam l (w1 ++ o) -> seam l (w1' ++ o) ->
  valid_runes (tl ++ w1 ++ o ++ w2 ++ tr) -> valid_runes (tl ++ w1' ++ o ++ w2' ++ tr) ->
  parse lo (tl ++ w1 ++ o ++ w2 ++ tr) = parse lo (tl ++ w1' ++ o ++ w2' ++ tr).
Proof. exact op_layout. Qed.
Theorem C07_parens : forall lo e t w1 w2 w1' w2', lay e t -> blank w1 -> blank w2 -> blank w1' -> blank w2' ->
  valid_runes (#"(" ++ w1 ++ t ++ w2 ++ #")") -> valid_runes (#"(" ++ w1' ++ t ++ w2' ++ #")") ->
  parse lo (#"(" ++ w1 ++ t ++ w2 ++ #")") = parse lo (#"(" ++ w1' ++ t ++ w2' ++ #")").
Proof. exact paren_layout. Qed.
Theorem C07_commas : forall lo f e t es l l' w1 w2 w1' w2', ident f -> ~ starts_word f -> lay e t -> Forall2 lay es (map snd l) ->
  map snd l = map snd l' -> blanks_ok l -> blanks_ok l' -> blank w1 -> blank w2 -> blank w1' -> blank w2' ->
  valid_runes (f ++ #"(" ++ w1 ++ comma_text t l ++ w2 ++ #")") -> valid_runes (f ++ #"(" ++ w1' ++ comma_text t l' ++ w2' ++ #")") ->
  parse lo (f ++ #"(" ++ w1 ++ comma_text t l ++ w2 ++ #")") = parse lo (f ++ #"(" ++ w1' ++ comma_text t l' ++ w2' ++ #")").
Proof. exact call_layout. Qed.
Example C07_ex : parse lo0 (#" --x
" ++ #"f( a , b )" ++ #"//y
 ") = parse lo0 #"f(a,b)" /\ exists n, parse lo0 #"f(a,b)" = Ok n.
Proof. split; [vm_compute; reflexivity|eexists; vm_compute; reflexivity]. Qed.
(** an unclosed comment is not blank *)
Example C07_ex_unclosed : exists b f, parse lo0 #"a --x" = Err (PESyntax b f).
Proof. eexists _, _. vm_compute. reflexivity. Qed.

(** ** C08 *)
Theorem C08_chain : forall lo e0 t0 ks, lay e0 t0 -> links_ok e0 ks ->
  valid_runes (t0 ++ concat (map link_text ks)) ->
  json_free e0 = true -> forallb (fun k => json_free (lexp k)) ks = true ->
  fits e0 = true -> forallb (fun k => fits (lexp k)) ks = true ->
  parse lo (t0 ++ concat (map link_text ks)) =
    Ok (fold_left (fun n k => Some (mk_logic n (Some (mk_op (op_name lo (lop k)))) (tree_of lo (lexp k)))) ks (tree_of lo e0)).
Proof. exact chain_spec. Qed.
Theorem C08_left_nested : forall e t, lay e t -> left_nested e.
Proof. exact lay_left. Qed.
Example C08_ex : parse lo0 #"a or b and c" =
  Ok (Some (mk_logic (Some (mk_logic (Some (mk_ident #"a")) (Some (mk_op #"or")) (Some (mk_ident #"b")))) (Some (mk_op #"and")) (Some (mk_ident #"c")))).
Proof. vm_compute. reflexivity. Qed.

(** ** C09 *)
Theorem C09_parens : forall lo q n, valid_runes q -> parse lo q = Ok n -> parse lo (#"(" ++ q ++ #")") = Ok (Some (mk_paren n)).
Proof. exact paren_parse. Qed.
(** any two bracketed queries combine as operands, whatever is inside *)
Theorem C09_groups : forall lo q1 q2 e1 e2 w1 o w2, valid_runes (#"(" ++ q1 ++ #")" ++ w1 ++ o ++ w2 ++ #"(" ++ q2 ++ #")") ->
  reads q1 e1 -> reads q2 e2 -> json_free e1 = true -> json_free e2 = true -> fits e1 = true -> fits e2 = true ->
  blank w1 -> blank w2 ->
  (op_logic o -> parse lo (#"(" ++ q1 ++ #")" ++ w1 ++ o ++ w2 ++ #"(" ++ q2 ++ #")") =
     Ok (Some (mk_logic (Some (mk_paren (tree_of lo e1))) (Some (mk_op (op_name lo o))) (Some (mk_paren (tree_of lo e2)))))) /\
  (op_cmp o -> parse lo (#"(" ++ q1 ++ #")" ++ w1 ++ o ++ w2 ++ #"(" ++ q2 ++ #")") =
     Ok (Some (mk_compare (Some (mk_paren (tree_of lo e1))) (Some (mk_op (op_name lo o))) (Some (mk_paren (tree_of lo e2)))))).
Proof. exact groups_spec. Qed.
(** the converse of C09_parens is false *)
Theorem C09_converse_refuted : forall lo, exists q n, valid_runes q /\ parse lo (#"(" ++ q ++ #")") = Ok n /\ forall n', parse lo q <> Ok n'.
Proof. exact paren_conv_refuted. Qed.
Example C09_ex : parse lo0 #"a or (b and c)" =
  Ok (Some (mk_logic (Some (mk_ident #"a")) (Some (mk_op #"or"))
       (Some (mk_paren (Some (mk_logic (Some (mk_ident #"b")) (Some (mk_op #"and")) (Some (mk_ident #"c")))))))).
Proof. vm_compute. reflexivity. Qed.

(** ** C10 *)
Theorem C10_verbatim : forall lo (d : bool) s, valid_runes s -> mem (if d then 34%N else 39%N) s = false ->
  parse lo ((if d then 34%N else 39%N) :: s ++ [if d then 34%N else 39%N]) = Ok (Some (mk_string s)).
Proof. exact string_parse. Qed.
Theorem C10_ends : forall (d : bool) e t, lay e t -> forall x s r,
  mem (if d then 34%N else 39%N) s = false ->
  t ++ x = (if d then 34%N else 39%N) :: s ++ (if d then 34%N else 39%N) :: r -> leftmost e = EVal (VLit (LStr d s)).
Proof. exact string_first. Qed.
Example C10_ex : parse lo0 #"'a\n -- ""not"" //'" = Ok (Some (mk_string #"a\n -- ""not"" //")).
Proof. vm_compute. reflexivity. Qed.

(** ** C11 *)
Theorem C11_exact : forall lo c ds, is_digit c = true -> (c <> 48%N \/ ds = []) -> forallb is_digit ds = true ->
  parse lo (c :: ds) = if (dec_value (c :: ds) <=? maxInt)%Z then Ok (Some (mk_int (dec_value (c :: ds)))) else Err (PERange (c :: ds)).
Proof. exact int_parse. Qed.
Theorem C11_leading_zero : forall lo w c r, valid_runes (w ++ 48%N :: c :: r) -> blank w -> is_digit c = true ->
  exists b f, parse lo (w ++ 48%N :: c :: r) = Err (PESyntax b f).
Proof. exact zero_rejected. Qed.
Example C11_ex_max : parse lo0 #"9223372036854775807" = Ok (Some (mk_int 9223372036854775807)).
Proof. vm_compute. reflexivity. Qed.
Example C11_ex_over : parse lo0 #"9223372036854775808" = Err (PERange #"9223372036854775808").
Proof. vm_compute. reflexivity. Qed.

(** ** C12 *)
Theorem C12_array : forall lo p c ls t, arr_text p c ls t -> ~ (p = true /\ c = false /\ length ls = 1) -> valid_runes t -> forallb lit_fits ls = true ->
  parse lo t = Ok (Some (mk_array (map (fun l => Some (lit_node l)) ls))).
Proof. exact array_parse. Qed.
Theorem C12_in : forall lo e t w1 o w2 p c ls ta, level e <= 2 -> lay e t -> blank w1 -> op_in o ->
  blank w2 -> arr_text p c ls ta -> seam e (w1 ++ o) -> valid_runes (t ++ w1 ++ o ++ w2 ++ ta) ->
  json_free e = true -> fits e = true -> forallb lit_fits ls = true ->
  parse lo (t ++ w1 ++ o ++ w2 ++ ta) =
    Ok (Some (mk_compare (tree_of lo e) (Some (mk_op (op_name lo o))) (Some (mk_array (map (fun l => Some (lit_node l)) ls))))).
Proof. exact in_spec. Qed.
Theorem C12_value : forall ls, value (mk_array (map (fun l => Some (lit_node l)) ls)) = Some (GArr (map lit_value ls)).
Proof. exact array_value. Qed.
Example C12_ex : exists n, parse lo0 #"[1, 'b', null, TRUE, ]" = Ok (Some n) /\ value n = Some (GArr [GInt 1; GStr #"b"; GNil; GBool true]).
Proof. eexists. split; vm_compute; reflexivity. Qed.

(** ** C13 *)
Theorem C13_not_prefix : forall lo w n c r, valid_runes (w ++ n ++ c :: r) -> blank w -> ci #"not" n -> idchar c = true ->
  exists b f, parse lo (w ++ n ++ c :: r) = Err (PESyntax b f).
Proof. exact not_rejected. Qed.
Theorem C13_literal_prefix : forall lo b w c r, valid_runes (b ++ w ++ c :: r) -> blank b -> In w literal_words -> idchar c = true ->
  (exists b' f, parse lo (b ++ w ++ c :: r) = Err (PESyntax b' f)) \/ exists o z, c :: r = o ++ z /\ any_op o.
Proof. exact word_rejected. Qed.
(** the unconditional form for literal words is false: "truein (1)" is true in (1) *)
Theorem C13_literal_prefix_refuted : forall lo, exists w c r n, In w literal_words /\ idchar c = true /\ parse lo (w ++ c :: r) = Ok (Some n).
Proof. exact word_refuted. Qed.
(** the expectation that every column is usable is false *)
Theorem C13_columns_refuted : forall lo, ~ forall x, (exists c r, x = c :: r /\ letter c = true /\ forallb idchar r = true) ->
  exists n, parse lo (x ++ #" = 1") = Ok n.
Proof. exact cols_refuted. Qed.
Example C13_ex1 : exists b f, parse lo0 #"notes = 1" = Err (PESyntax b f).
Proof. eexists _, _. vm_compute. reflexivity. Qed.
Example C13_ex2 : exists b f, parse lo0 #"nullable = 1" = Err (PESyntax b f).
Proof. eexists _, _. vm_compute. reflexivity. Qed.

(** ** C14 *)
Theorem C14_compare : forall lo w c o l tl w1 w2 r tr, In (w, c) canonical -> spelled w o ->
  level l <= 4 -> level r <= 3 -> lay l tl -> lay r tr -> blank w1 -> blank w2 -> seam l (w1 ++ o) ->
  valid_runes (tl ++ w1 ++ o ++ w2 ++ tr) -> json_free l = true -> json_free r = true -> fits l = true -> fits r = true ->
  parse lo (tl ++ w1 ++ o ++ w2 ++ tr) = Ok (Some (mk_compare (tree_of lo l) (Some (mk_op c)) (tree_of lo r))).
Proof. exact cmp_spec. Qed.
Theorem C14_lg_refuted : forall lo b l tl w1 z, valid_runes (b ++ tl ++ w1 ++ #"<>" ++ z) -> blank b -> level l <= 4 -> lay l tl -> blank w1 ->
  exists b' f, parse lo (b ++ tl ++ w1 ++ #"<>" ++ z) = Err (PESyntax b' f).
Proof. exact lg_spec. Qed.
Theorem C14_gte_lte_refuted : forall lo k b l tl w1 o g v tv z, valid_runes (b ++ tl ++ w1 ++ o ++ g ++ tv ++ z) -> k = #"gt" \/ k = #"lt" -> ci (k ++ #"e") o ->
  blank b -> level l <= 4 -> lay l tl -> blank w1 -> seam l (w1 ++ o) -> gap1 g -> val_text v tv ->
  exists b' f, parse lo (b ++ tl ++ w1 ++ o ++ g ++ tv ++ z) = Err (PESyntax b' f).
Proof. exact xte_spec. Qed.
Example C14_ex1 : exists b f, parse lo0 #"a <> 5" = Err (PESyntax b f).
Proof. eexists _, _. vm_compute. reflexivity. Qed.
Example C14_ex2 : exists b f, parse lo0 #"a gte 5" = Err (PESyntax b f).
Proof. eexists _, _. vm_compute. reflexivity. Qed.
Example C14_ex3 : parse lo0 #"a gte5" = Ok (Some (mk_compare (Some (mk_ident #"a")) (Some (mk_op #"gt")) (Some (mk_ident #"e5")))).
Proof. vm_compute. reflexivity. Qed.
Example C14_ex4 : parse lo0 #"a NOT
 Like b" = Ok (Some (mk_compare (Some (mk_ident #"a")) (Some (mk_op #"not like")) (Some (mk_ident #"b")))).
Proof. vm_compute. reflexivity. Qed.

(** ** C15.  The two hypotheses of idempotence hold of unicode.ToLower. *)
Theorem C15_idempotent : forall lo, (forall c, lower lo (lower lo c) = lower lo c) ->
  (forall c, spacing c = false -> spacing (lower lo c) = false) ->
  forall s, normalize_operation lo (normalize_operation lo s) = normalize_operation lo s.
Proof. exact norm_idem. Qed.
Theorem C15_exact : forall lo, (forall c, spacing c = false -> white (lower lo c) = false) -> forall w m w',
  forallb spacing w = true -> forallb spacing w' = true -> (m <> [] -> spacing (hd 0%N m) = false /\ spacing (last m 0%N) = false) ->
  normalize_operation lo (w ++ m ++ w') = op_name lo m.
Proof. exact norm_exact. Qed.
Theorem C15_case : forall lo s s', map ascii_lower s = map ascii_lower s' -> normalize_operation lo s = normalize_operation lo s'.
Proof. exact norm_case. Qed.
Theorem C15_outer_blanks : forall lo w s w', forallb spacing w = true -> forallb spacing w' = true ->
  normalize_operation lo (w ++ s ++ w') = normalize_operation lo s.
Proof. exact norm_pad. Qed.
Theorem C15_inner_blanks : forall lo a w w' b, w <> [] -> w' <> [] -> forallb white w = true -> forallb white w' = true ->
  normalize_operation lo (a ++ w ++ b) = normalize_operation lo (a ++ w' ++ b).
Proof. exact norm_blank. Qed.
Theorem C15_table : forall lo, map (normalize_operation lo)
    [#">="; #">"; #"=="; #"="; #"!="; #"<>"; #"<"; #"<="; #":"; #"&&"; #"||"; #","; #"isnull"; #"notnull"] =
  map (normalize_operation lo)
    [#"gte"; #"gt"; #"eq"; #"eq"; #"neq"; #"neq"; #"lt"; #"lte"; #"eq"; #"and"; #"or"; #"and"; #"is null"; #"is not null"].
Proof. exact norm_table. Qed.
Theorem C15_words : forall lo, Forall (fun w => normalize_operation lo w = w) vocabulary.
Proof. exact norm_words. Qed.
Example C15_ex : normalize_operation lo0 #"
 IS  	Not NULL " = #"is not null" /\ normalize_operation lo0 #" NotNull" = #"is not null".
Proof. split; vm_compute; reflexivity. Qed.
Example C15_ex_hyps : (forall c, lower lo0 (lower lo0 c) = lower lo0 c) /\
  (forall c, spacing c = false -> spacing (lower lo0 c) = false).
Proof. exact lo0_hyps. Qed.

(** ** C16 *)
Theorem C16_vocabulary : forall lo q n m, valid_runes q -> parse lo q = Ok (Some n) -> marker_free q -> reach n m -> is_operation m = true ->
  In (nOperation m) vocabulary.
Proof. exact parse_vocab. Qed.
Theorem C16_from_query : forall lo q n m, valid_runes q -> parse lo q = Ok (Some n) -> reach n m -> is_operation m = true ->
  exists a o b, q = a ++ o ++ b /\ any_operator o /\ nOperation m = op_name lo o.
Proof. exact ops_spec. Qed.
Theorem C16_vocabulary_refuted : forall lo, exists q n m, valid_runes q /\ parse lo q = Ok (Some n) /\ reach n m /\ is_operation m = true /\
  ~ In (nOperation m) vocabulary.
Proof. exact vocab_refuted. Qed.
Example C16_ex : parse lo0 #"a is --; drop ?
 null" = Ok (Some (mk_predicate (Some (mk_ident #"a")) (Some (mk_op #"is --; drop ? null")))).
Proof. vm_compute. reflexivity. Qed.

(** ** C17 *)
Theorem C17_stack_size : forall lo q e, valid_runes q -> reads q e -> exists st, final_stack lo q = Some st /\ length st = 1 + left_over e.
Proof. exact stack_size. Qed.
Theorem C17_whole : forall lo q e, valid_runes q -> reads q e -> json_free e = true -> fits e = true ->
  exists n, final_stack lo q = Some [Some n] /\ parse lo q = Ok (Some n) /\ tree_of lo e = Some n.
Proof. exact whole_spec. Qed.
(** every -> path loses everything but its last name *)
Theorem C17_json_refuted : forall lo x y xs, Forall ident (x :: y :: xs) -> ~ starts_word x -> valid_runes (join_with #"->" (x :: y :: xs)) ->
  parse lo (join_with #"->" (x :: y :: xs)) = Ok (Some (mk_ident (last (y :: xs) []))).
Proof. exact json_parse. Qed.
Example C17_ex1 : parse lo0 #"a->b" = parse lo0 #"b".
Proof. vm_compute. reflexivity. Qed.
Example C17_ex2 : parse lo0 #"x=1 and a->b=2" =
  Ok (Some (mk_logic (Some (mk_op #"and")) (Some (mk_ident #"a"))
     (Some (mk_compare (Some (mk_ident #"b")) (Some (mk_op #"eq")) (Some (mk_int 2)))))).
Proof. vm_compute. reflexivity. Qed.

(** ** C18 *)
Theorem C18_safe : forall lo q n, valid_runes q -> parse lo q = Ok (Some n) -> safe n.
Proof. exact parse_safe. Qed.
Theorem C18_value : forall n, safe n -> exists v, value n = Some v.
Proof. exact safe_value. Qed.
Example C18_ex : exists n, parse lo0 #"x=1 and a->b=2" = Ok (Some n) /\ nType n = NLogic.
Proof. eexists. split; vm_compute; reflexivity. Qed.

(** ** C19 *)
Theorem C19_span : forall lo q b e, valid_runes q -> parse lo q = Err (PESyntax b e) ->
  b <= e <= length q /\
  ((b = 0 /\ e = 0) \/ (b < e /\ exists t, In t (rule_trace q) /\ tbegin t = b /\ tend t = e)) /\
  Forall (fun t => tbegin t <> tend t -> tend t <= e) (rule_trace q) /\
  error_report q b e = Some ((line_of (q ++ [endSymbol]) b, column_of (q ++ [endSymbol]) b),
                             (line_of (q ++ [endSymbol]) e, column_of (q ++ [endSymbol]) e), slice q b e).
Proof. exact syntax_error_span. Qed.
Example C19_ex : parse lo0 #"a = 1 and
 b ? 2" = Err (PESyntax 12 13) /\ error_report #"a = 1 and
 b ? 2" 12 13 = Some ((2, 3), (2, 4), #" ").
Proof. split; vm_compute; reflexivity. Qed.

Print Assumptions C01_parse_total. Print Assumptions C01_terminates. Print Assumptions C02_depth_linear.
Print Assumptions C03_rule_implements. Print Assumptions C03_matches_function. Print Assumptions C03_same_rules.
Print Assumptions C04_machine_refines. Print Assumptions C04_parse_from_matches.
Print Assumptions C05_accepts. Print Assumptions C05_rejects. Print Assumptions C05_tree. Print Assumptions C06_unambiguous.
Print Assumptions C07_outer. Print Assumptions C07_lead. Print Assumptions C07_operators. Print Assumptions C07_parens. Print Assumptions C07_commas.
Print Assumptions C08_chain. Print Assumptions C08_left_nested. Print Assumptions C09_parens. Print Assumptions C09_groups. Print Assumptions C09_converse_refuted.
Print Assumptions C10_verbatim. Print Assumptions C10_ends. Print Assumptions C11_exact. Print Assumptions C11_leading_zero.
Print Assumptions C12_array. Print Assumptions C12_in. Print Assumptions C12_value.
Print Assumptions C13_not_prefix. Print Assumptions C13_literal_prefix. Print Assumptions C13_literal_prefix_refuted. Print Assumptions C13_columns_refuted.
Print Assumptions C14_compare. Print Assumptions C14_lg_refuted. Print Assumptions C14_gte_lte_refuted.
Print Assumptions C15_idempotent. Print Assumptions C15_exact. Print Assumptions C15_case. Print Assumptions C15_outer_blanks. Print Assumptions C15_inner_blanks.
Print Assumptions C15_table. Print Assumptions C15_words.
Print Assumptions C16_vocabulary. Print Assumptions C16_from_query. Print Assumptions C16_vocabulary_refuted.
Print Assumptions C17_stack_size. Print Assumptions C17_whole. Print Assumptions C17_json_refuted.
Print Assumptions C18_safe. Print Assumptions C18_value. Print Assumptions C19_span.
