(** The repository's own tests, replayed in the model: each case of
    miniquery/parser_test.go, miniquery/join_test.go, entmq/entql_test.go,
    entmq/entsql_test.go and gormq/miniquery_test.go (what they run against a
    database or only print is left out), and the query of README.md.  They check the
    model, not the properties. *)
From Verif Require Import Base Peg Node Vocab Tree Parse Build Gorm GormSample GormSQL SqlDialect EntQL EntSQL.
Strategy expand [parse_machine].
Strategy 1000 [parse_fuel mrun].

Definition printable (c : N) : bool := (32 <=? c)%N && (c <? 127)%N.
Definition no_float (z : Z) : list N := [].
Definition built (n : option node) : option (list N) := build printable no_float n.

(** p.Init, p.Parse, p.Execute: p.Stack and p.Errors *)
Definition executed (q : list N) : option (list (option node) * list perr) :=
  match parse_machine q with
  | MR true s => match execute lo2 (init_buffer q) (trim (mtree s) (mtidx s)) [] tree0 with Some t => Some (tStack t, tErrors t) | None => None end
  | _ => None
  end.

(** ** miniquery/parser_test.go *)
(** TestParseFunc, lines 12-16 *)
Example test_parse_func : exists n, parse lo2 #"1" = Ok (Some n) /\ value n = Some (GInt 1).
Proof. eexists. split; vm_compute; reflexivity. Qed.
(** TestRareCase, lines 18-38 *)
Example test_rare_case : exists n, executed #"a in (1)" = Some ([Some n], []) /\ built (Some n) = Some #"a in [1]".
Proof. eexists. split; vm_compute; reflexivity. Qed.
(** TestParsing, lines 40-100: one tree on the stack, no error, and what Build makes
    of it can be parsed. *)
Definition parsing (q : list N) : bool :=
  match executed q with
  | Some ([Some n], []) => match built (Some n) with Some t => match parse lo2 t with Ok _ => true | _ => false end | None => false end
  | _ => false
  end.
Definition parsing_queries : list (list N) :=
  [ #"1=1 and a >= 1"; #"1=1 AND a >= 1"; #" ( a like '%hello%' ) "; #"1=1 or 1=2 or 1=3 "; #"(1=1) or( 1=2 )or( 1=3)or(1=3 ) "; #"a=b or a=0";
    #"a is  not    null"; #"a is      null and a = true"; #"1 in [0,1,2,3,4] and b >= 2 or c not in []"; #"1 in [ 0 , 1 , 2 , 3 , 4 ]";
    #"a in (""a"", ""b""  ,""c"")"; #"a in (1)"; #"a between 12 and 15 or b not between 67 and 78"; #"not true"; #"not true or not 1 > 2";
    #"a is  true and b is  not false"; #"owned = true"; #"a between 1 and 2"; #"a between [1,2]"; #"a()"; #"func(123)"; #"func(1,2,3,4,5,)";
    #"func(0,true,false,null,'a',""bc"")"; #"func(['a',1,3])"; #"date(a) = func(123)"; #"null == NULL"; #"func(a)"; #"func(a,b)"; #"func( a , b )";
    #"func(a,name==1)"; #"func( a, name == 1 )"; #"func( a, name in (1,2,3) )"; #"func( a, name in ('a','b') )";
    #"date('2021-05-12T00:00:00+08:00')"; #"profile.age > 10" ].
Example test_parsing : forallb parsing parsing_queries = true.
Proof. vm_compute. reflexivity. Qed.
(** marked as unsupported in line 79 *)
Example test_parsing_unsupported :
  parsing #"date(created_at) between date('2021-05-12T00:00:00+08:00') and date('2021-05-14T00:00:00+08:00')" = false.
Proof. vm_compute. reflexivity. Qed.
(** TestParse, lines 102-115 *)
Example test_parse : exists n, executed #"a > 1 and  (  b != 2 or name like '%wener%') or ( age == 0 )" = Some ([n], []).
Proof. eexists. vm_compute. reflexivity. Qed.

(** ** miniquery/join_test.go:9-13 *)
Example test_join : Build.join [] = [] /\ Build.join [#"1=1"] = #"1=1" /\ Build.join [#"1=1"; #"2=2"] = #"(1=1) and (2=2)".
Proof. repeat split; vm_compute; reflexivity. Qed.

(** ** entmq/entql_test.go:46-69 *)
(** what entql's String writes for the predicates of these tests *)
Definition ql_op (o : eop) : list N :=
  match o with
  | EAnd => #"&&" | EOr => #"||" | ENotOp => #"!" | EEQ => #"==" | ENEQ => #"!=" | EGT => #">" | EGTE => #">=" | ELT => #"<" | ELTE => #"<="
  | EInOp => #"in" | ENotIn => #"not in"
  end.
Fixpoint ql_value (v : gval) : list N :=
  match v with
  | GArr l => #"[" ++ sjoin #"," (map ql_value l) ++ #"]"
  | _ => fprint no_float v
  end.
Fixpoint ql_string (x : eexpr) : list N :=
  match x with
  | XField f => f
  | XValue v => ql_value v
  | XUnary o x => ql_op o ++ #"(" ++ ql_string x ++ #")"
  | XBinary o x y => ql_string x ++ #" " ++ ql_op o ++ #" " ++ ql_string y
  end.
Definition ql_builds (c : list N * list N) : bool :=
  match build_entql lo2 (fst c) with Ok (Some p) => streq (ql_string p) (snd c) | _ => false end.
Example test_ql_builder : forallb ql_builds
  [ (#"a>10", #"a > 10"); (#"a between 1 and 3", #"a >= 1 && a <= 3"); (#"a not between 1 and 3", #"a < 1 && a > 3");
    (#"true and false", #"true && false"); (#"a in [1 , 2 , 3]", #"a in [1,2,3]") ] = true.
Proof. vm_compute. reflexivity. Qed.

(** ** entmq/entsql_test.go:12-41 *)
(** ent's identifiers in PostgreSQL, after ToSnakeCase, for the names of these tests *)
Definition is_upper (c : N) : bool := (65 <=? c)%N && (c <=? 90)%N.
Fixpoint snake (small : bool) (s : list N) : list N :=
  match s with
  | [] => []
  | c :: s' => (if is_upper c && small then [95%N] else []) ++ ascii_lower c :: snake (negb (is_upper c)) s'
  end.
Definition pg_ident (d x : list N) : list N := 34%N :: snake false x ++ [34%N].
Definition no_edge (w : bool) (d : list N) (from : gnode) (spec : gspec) (to : gnode) : option (list N * list N) := None.
Definition no_heap (k : nat) : gnode := GN [] [] None [].
Definition pg_query (q : list N) := query lo2 pg_ident no_edge no_heap (fresh #"postgres" true None q).
Definition pg_case (q e : list N) (args : list gval) : Prop :=
  exists m, pg_query q = Some (m, (e, map APlain args)) /\ no_error m.
Example test_ent_sql :
  pg_case #"1=1" #"$1 = $2" [GInt 1; GInt 1] /\
  pg_case #"b < 0 and (a>0 and a > 10)" #"""b"" < $1 AND (""a"" > $2 AND ""a"" > $3)" [GInt 0; GInt 0; GInt 10] /\
  pg_case #"a not between 1 and 3" #"""a"" < $1 AND ""a"" > $2" [GInt 1; GInt 3] /\
  pg_case #"a between 1 and 3" #"""a"" >= $1 AND ""a"" <= $2" [GInt 1; GInt 3] /\
  pg_case #"a not like   ""%A%""" #"""a"" NOT LIKE $1" [GStr #"%A%"] /\
  pg_case #"a > 1" #"""a"" > $1" [GInt 1] /\
  pg_case #"a is   null" #"""a"" IS NULL" [] /\
  pg_case #"a is   null and b is  not  null" #"""a"" IS NULL AND ""b"" IS NOT NULL" [] /\
  pg_case #"a in [1,2,3]" #"""a"" IN ($1, $2, $3)" [GInt 1; GInt 2; GInt 3] /\
  pg_case #"ID is   null" #"""id"" IS NULL" [] /\
  pg_case #"(activityType in ('PhoneCall'))" #"(""activity_type"" IN ($1))" [GStr #"PhoneCall"] /\
  pg_case #"date(""2019-01-01 12:12"")" #"DATE($1)" [GStr #"2019-01-01 12:12"] /\
  pg_case #"date(a)" #"DATE(""a"")" [].
Proof. repeat match goal with |- _ /\ _ => split end; (eexists; split; [vm_compute; reflexivity|reflexivity]). Qed.

(** ** gormq/miniquery_test.go:36-90 *)
(** the schemas gorm makes of User and UserProfile, lines 99-115; the field Profile is
    a relation and has no column *)
Definition profile_table : table :=
  Table [#"id"; #"created_at"; #"updated_at"; #"age"]
    [(#"ID", #"id"); (#"CreatedAt", #"created_at"); (#"UpdatedAt", #"updated_at"); (#"Age", #"age")]
    [(#"ID", #"id"); (#"CreatedAt", #"created_at"); (#"UpdatedAt", #"updated_at"); (#"Age", #"age")].
Definition user_fields : list (list N * list N) :=
  [ (#"ID", #"id"); (#"CreatedAt", #"created_at"); (#"UpdatedAt", #"updated_at"); (#"Username", #"username"); (#"FullName", #"full_name");
    (#"ProfileID", #"profile_id"); (#"Profile", []) ].
Definition user_schema : schema :=
  Schema (Table [#"id"; #"created_at"; #"updated_at"; #"username"; #"full_name"; #"profile_id"] user_fields user_fields) [(#"Profile", Some profile_table)].
(** db.Model(User{}) *)
Definition user_db : gdb := DB None (Some (Some user_schema)) [] [] [].
(** MiniQuery{Query: []string{q}}.Scope, and the WHERE clause *)
Definition scoped (q : list N) : option gdb := scope fold2 (quote_name 96) lo2 [q] user_db.
Definition sqlite_where (q : list N) : option (list N * list gval) :=
  match scoped q with Some d => match dErrors d with [] => where_clause #"sqlite" lo2 d | _ => None end | None => None end.
Example test_query_build :
  sqlite_where #"Profile.AGE > 1" = Some (#"`Profile`.`age` > ?", [GInt 1]) /\
  sqlite_where #"Username = 'wener' and fullName is not null" = Some (#"`username` = ? and `full_name` is not null", [GStr #"wener"]) /\
  sqlite_where #"2021 = date(CreatedAt)" = Some (#"? = date(`created_at`)", [GInt 2021]) /\
  sqlite_where #"2021 > 0" <> None /\ sqlite_where #"1=2" <> None /\ sqlite_where #"2021 between 1 and 2" <> None /\
  (exists d e, scoped #"2021 between 1 and" = Some d /\ dErrors d = [GSyntax e]).
Proof.
  do 3 (split; [vm_compute; reflexivity|]). do 3 (split; [vm_compute; discriminate|]). do 2 eexists. split; vm_compute; reflexivity.
Qed.
(** The query of README.md:29-30.  The column of the relation is not Profile__age, as it
    says there. *)
Example test_readme : sqlite_where #"username=""wener"" && Profile.age > 18" = Some (#"`username` = ? and `Profile`.`age` > ?", [GStr #"wener"; GInt 18]) /\
  exists d, scoped #"username=""wener"" && Profile.age > 18" = Some d /\ dJoins d = [#"Profile"].
Proof. split; [vm_compute; reflexivity|]. eexists. split; vm_compute; reflexivity. Qed.
