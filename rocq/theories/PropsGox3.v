(** C103: the methods of gormq's queryBuilder statement by statement. *)
From Verif Require Import Base Peg Node Tree Parse Gox GoxNodeProofs GoxGorm GoxGormLib GoxGormProofs.
From Verif Require Gorm.
Strategy expand [parse_machine]. Strategy 1000 [parse_fuel mrun].
Open Scope string_scope.

(** ** C103 *)

(** visit, with visitIdentifier, visitReference, visitFunction, normalizeSQL and Node.Value:
    for every node whatever its fields, every schema and every state of the queryBuilder,
    running the statements returns nil where Gorm.v's [visit] succeeds, its error where it
    fails, and panics where it does; the builder, the values, the joins are as there (also
    after an error), other builders are left alone. *)
Theorem C103_visit : forall fold_eq quote sch F n h g q, 2 * ndepth n + 3 < F ->
  gorm_call fold_eq quote sch F (WMeth "queryBuilder" "visit") [WNode (Some n)] (at_q h g q) =
    match Gorm.visit fold_eq quote sch n q with
    | Gorm.QOk q' => Ret WNil (at_q h g q')
    | Gorm.QErr e q' => Ret (WX e) (at_q h g q')
    | Gorm.QPanic => Panics
    end.
Proof. intros fold_eq quote sch F n h g q HF. exact (gvisit_ok fold_eq quote sch (ndepth n) (Some n) F h g q (le_n _) HF). Qed.
Theorem C103_nil : forall fold_eq quote sch F h g q, 3 < F ->
  gorm_call fold_eq quote sch F (WMeth "queryBuilder" "visit") [WNode None] (at_q h g q) = Panics.
Proof. intros fold_eq quote sch F h g q HF. exact (gvisit_ok fold_eq quote sch 0 None F h g q (le_n _) HF). Qed.

(** normalizeSQL, with the map of gormq/miniquery.go:250-259. *)
Theorem C103_normalize : forall fold_eq quote sch F t s, 0 < F ->
  gorm_call fold_eq quote sch F (WFun "normalizeSQL") [WStr t] s = Ret (WStr (Gorm.normalize_sql t)) s.
Proof. exact gnorm_ok. Qed.

(** What WireMiniQuery does with the result of qb.visit(ast), gormq/miniquery.go:98-103: with
    an empty builder, values and joins the database gets the joins, and then one condition or
    one error, as in Gorm.v. *)
Theorem C103_wire : forall fold_eq quote lower_hi F d query ast sch d', query <> [] ->
  parse lower_hi query = Ok (Some ast) -> Gorm.get_or_parse_schema d = (inl sch, d') -> 2 * ndepth ast + 3 < F ->
  Gorm.wire_mini_query fold_eq quote lower_hi d query =
    match gorm_call fold_eq quote sch F (WMeth "queryBuilder" "visit") [WNode (Some ast)] (St _ [[]] (GW 0 [] [] [])) with
    | Ret WNil (St _ [buf] w) => Some (Gorm.add_where (buf, wVals w) (Gorm.add_joins (wJoins w) d'))
    | Ret (WX e) (St _ _ w) => Some (Gorm.add_err e (Gorm.add_joins (wJoins w) d'))
    | _ => None
    end.
Proof.
  intros fold_eq quote lower_hi F d query ast sch d' Hq Hp Hs HF. unfold Gorm.wire_mini_query.
  destruct query as [|c query]; [easy|]. rewrite Hp, Hs.
  change (St gworld [[]] (GW 0 [] [] [])) with (at_q [] [] (Gorm.QS [] [] [] [])). rewrite C103_visit by exact HF.
  now destruct (Gorm.visit fold_eq quote sch ast (Gorm.QS [] [] [] [])).
Qed.

Definition c103_schema : Gorm.schema :=
  Gorm.Schema (Gorm.Table [#"user_name"; #"age"] [(#"Name", #"user_name")] [(#"Name", #"user_name"); (#"Age", #"age")])
    [(#"Boss", Some (Gorm.Table [#"id"] [] [])); (#"Bad", None)].
Definition c103_run (q : list N) :=
  match parse (fun c => c) q with
  | Ok p => gorm_call streq (fun s => 96%N :: s ++ [96%N])%list c103_schema 30 (WMeth "queryBuilder" "visit") [WNode p] (St _ [#"other"; []] (GW 1 [] [] []))
  | _ => Stuck
  end.
Example C103_example :
  c103_run #"not (Name = 'x' or Boss.id in [1,null]) and date(age) between 1 and 2 and Boss.id is null" =
    Ret WNil (St _ [#"other"; #"not (`user_name` = ? or `Boss.id` in ?) and date(`age`) between ? and ? and `Boss.id` is null"]
      (GW 1 [GStr #"x"; GArr [GInt 1; GNil]; GInt 1; GInt 2] [#"Boss"] [(#"Boss", [#"id"; #"id"])])) /\
  c103_run #"age > 1 and (Boss.nope = 2)" =
    Ret (WX (Gorm.GRelField #"Boss" #"nope")) (St _ [#"other"; #"`age` > ? and ()"] (GW 1 [GInt 1] [] [])) /\
  c103_run #"age > 1 and Bad.id = 2" = Panics /\
  c103_run #"lower(age) = 1" = Ret (WX (Gorm.GFunc #"lower")) (St _ [#"other"; []] (GW 1 [] [] [])) /\
  c103_run #"a.b.c = 1" = Ret (WX Gorm.GLevels) (St _ [#"other"; []] (GW 1 [] [] [])).
Proof. repeat split; vm_compute; reflexivity. Qed.

Print Assumptions C103_visit. Print Assumptions C103_nil. Print Assumptions C103_normalize. Print Assumptions C103_wire.
