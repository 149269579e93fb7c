(** Properties C56-C59: time and size.  Statements only; proofs are in Steps.v,
    Steps2.v, Lin1.v to Lin8.v, StepsMain.v, Tokens.v, Size.v and SizeFacts.v. *)
From Verif Require Import Base Peg StepSpec Grammar MachineProofs Node Vocab Tree Parse Syntax ParserMain
  Gorm GormSpec GormFacts GormSample EntSQL EntSQLSpec EntSQLSample StepsMain SizeSpec SizeFacts.
Strategy expand [parse_machine].
Strategy 1000 [parse_fuel mrun].

(** ** C56 *)
(** [steps] counts every construct executed, those of abandoned alternatives
    included.  The bound holds for every recursion limit [f]. *)
Theorem C56_linear : forall q f, valid_runes q ->
  (steps Ggo (init_buffer q) f (PRule rGrammar) init_state <= 31000000 * (N.of_nat (length q) + 1))%N.
Proof. exact steps_bound. Qed.
Example C56_ex : let work q := steps Ggo (init_buffer q) (parse_fuel q) (PRule rGrammar) init_state in
  work #"a=1 and (b=2 or f(c) in ('x','y'))" = 2841%N /\ work #"f(f(f(f(f(" = 2691%N /\ work #"f(f(f(f(f(f(f(f(f(f(" = 5256%N.
Proof. repeat split; vm_compute; reflexivity. Qed.

(** ** C57 *)
(** [mtree] is the token array when the run ends; it never shrinks. *)
Theorem C57_tokens : forall q, valid_runes q -> exists b s, parse_machine q = MR b s /\
  mtidx s <= length (mtree s) <= 17 * length q + 19 /\ (b = true -> mtidx s <= 17 * length q) /\
  Forall (fun t => tbegin t <= tend t <= length q) (mmax s :: mtree s).
Proof. exact machine_tokens. Qed.
Theorem C57_uint32 : forall q, valid_runes q -> (N.of_nat (length q) <= 250000000)%N -> exists b s, parse_machine q = MR b s /\
  (N.of_nat (mtidx s) < 2 ^ 32)%N /\ Forall (fun t => (N.of_nat (tbegin t) < 2 ^ 32 /\ N.of_nat (tend t) < 2 ^ 32)%N) (mmax s :: mtree s).
Proof. exact machine_uint32. Qed.
(** 17 tokens for one rune do occur. *)
Example C57_ex : exists s, parse_machine #"1" = MR true s /\ mtidx s = 17 /\ length (mtree s) = 17.
Proof. eexists. split; [vm_compute; reflexivity|]. split; vm_compute; reflexivity. Qed.

(** ** C58 *)
Theorem C58_tree : forall lo q n, valid_runes q -> parse lo q = Ok (Some n) -> nheight n <= nsize n < 2 * length q.
Proof. exact parse_height. Qed.
Example C58_ex : exists n, parse lo2 #"a=1=1=1" = Ok (Some n) /\ nsize n = 10 /\ nheight n = 4.
Proof. eexists. split; [vm_compute; reflexivity|]. split; vm_compute; reflexivity. Qed.

(** ** C59 *)
Theorem C59_gorm : forall lo fold_eq quote d q n d', valid_runes q -> parse lo q = Ok (Some n) ->
  wire_mini_query fold_eq quote lo d q = Some d' -> succeeded d d' ->
  exists ps, dWheres d' = dWheres d ++ [(sql_text quote ps, values ps)] /\ length ps <= 6 * length q.
Proof. exact wire_size. Qed.
(** entsql: linear up to a factor that doubles with each between nested in the
    left operand of a between ([bdepth] is at most 1 without such nesting) *)
Theorem C59_entsql : forall lo ident_sql edge_sql heap d dis nd q m t a, valid_runes q ->
  query lo ident_sql edge_sql heap (fresh d dis nd q) = Some (m, (t, a)) -> no_error m ->
  exists n ps, parse lo q = Ok (Some n) /\ t = sql_of ident_sql d 0 ps /\ a = sargs ps /\ length ps <= 6 * length q * 2 ^ bdepth n.
Proof. exact query_size. Qed.
(** and that factor is real: 18k+1 runes make 2^(k+1)-2 arguments *)
Theorem C59_entsql_refuted : forall lo ident_sql edge_sql heap d dis nd k, exists q m t a,
  valid_runes q /\ length q = 18 * k + 1 /\ query lo ident_sql edge_sql heap (fresh d dis nd q) = Some (m, (t, a)) /\ no_error m /\
  length a + 2 = 2 ^ (k + 1).
Proof. exact query_blowup. Qed.
Example C59_ex :
  wire_mini_query fold2 quote2 lo2 db2 #"ID between 1 and 2" =
    Some (DB (Some sch2) None [] [(#"`id` between ? and ?", [GInt 1; GInt 2])] []) /\
  query3 #"mysql" true None #"((x between 1 and 2) between 3 and 4)" =
    Some (#"((`x` >= ? AND `x` <= ?) >= ? AND (`x` >= ? AND `x` <= ?) <= ?)",
      [APlain (GInt 1); APlain (GInt 2); APlain (GInt 3); APlain (GInt 1); APlain (GInt 2); APlain (GInt 4)]).
Proof. split; vm_compute; reflexivity. Qed.

Print Assumptions C56_linear. Print Assumptions C57_tokens. Print Assumptions C57_uint32. Print Assumptions C58_tree.
Print Assumptions C59_gorm. Print Assumptions C59_entsql. Print Assumptions C59_entsql_refuted.
