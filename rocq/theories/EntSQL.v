(** Model of entmq/entsql.go and entmq/entsql_util.go.  From the libraries:
    - of entgo.io/ent/dialect/sql, Builder as the text, the arguments, the
      number of arguments so far, the dialect and the errors, with WriteString,
      Pad, WriteOp, Arg, Args, Join, AddError, Query;
    - [ident_sql d name]: the text Ident writes for ToSnakeCase of a name, for
      dialect [d] (arbitrary);
    - [edge_sql w d from spec to]: the text the predicate of HasNeighbors
      ([w = false]: all of it in the first component) or HasNeighborsWith
      ([w = true]: before and after the condition) writes (arbitrary), [None]
      where it panics.  That text has no arguments, and the condition is
      written when the predicate is, not before. *)
From Verif Require Import Base Node Tree Parse Build.

(** Arguments: as they are, or wrapped by argWithCast. *)
Inductive sarg : Type := APlain (v : gval) | ACast (v : gval).

Inductive serr : Type :=
| SParse (e : perr)               (* error of miniquery.Parse *)
| SOpNode (s : list N)            (* "unexpected op node" *)
| SOp (s : list N)                (* "unexpected op" *)
| SPredOp (s : list N)            (* "unexpected predicate op" *)
| SType (t : ntype)               (* "invalid type" *)
| SEdgeParam                      (* "关联参数错误" *)
| SNoEdge (s : list N)            (* "不存在关联" *)
| SEdgeCond (p : node)            (* "关联条件错误", its argument: the second parameter *)
| SFunc (s : list N).             (* "不支持的函数" *)

(** ** sql.Builder *)
Record sqlb : Type := SB { bText : list N; bArgs : list sarg; bTotal : N; bDialect : list N; bErrs : list serr }.
Definition write (t : list N) (b : sqlb) : sqlb := SB (bText b ++ t) (bArgs b) (bTotal b) (bDialect b) (bErrs b).
Definition add_error (e : serr) (b : sqlb) : sqlb := SB (bText b) (bArgs b) (bTotal b) (bDialect b) (bErrs b ++ [e]).
Definition is_postgres (d : list N) : bool := streq d #"postgres".

(** typeCastParamFormatter.FormatParam, entmq/entsql_util.go:18-38 *)
Definition format_param (v : gval) (placeholder d : list N) : list N :=
  if is_postgres d then
    match v with
    | GInt _ => placeholder ++ #"::" ++ #"int"
    | GBool _ => placeholder ++ #"::" ++ #"bool"
    | GFloat _ => placeholder ++ #"::" ++ #"double precision"
    | _ => placeholder
    end
  else placeholder.
(** typeCastParamFormatter.Value, entmq/entsql_util.go:40-42, for wrapped arguments *)
Definition arg_value (a : sarg) : gval := match a with APlain v => v | ACast v => v end.

(** Builder.Arg *)
Definition write_arg (a : sarg) (b : sqlb) : sqlb :=
  match a with
  | APlain GNil => write #"NULL" b
  | _ =>
      let format := if is_postgres (bDialect b) then #"$" ++ print_N (bTotal b + 1) else #"?" in
      let format := match a with ACast v => format_param v format (bDialect b) | APlain _ => format end in
      SB (bText b ++ format) (bArgs b ++ [a]) (bTotal b + 1)%N (bDialect b) (bErrs b)
  end.
(** Builder.Args *)
Fixpoint write_args (l : list sarg) (b : sqlb) : sqlb :=
  match l with
  | [] => b
  | [a] => write_arg a b
  | a :: l' => write_args l' (write #", " (write_arg a b))
  end.
(** sql.Op, Builder.WriteOp: padded, the last two only on the left *)
Inductive sop : Set := OpEQ | OpNEQ | OpGT | OpGTE | OpLT | OpLTE | OpIn | OpNotIn | OpLike | OpIsNull | OpNotNull.
Definition op_text (o : sop) : list N :=
  match o with
  | OpEQ => #"=" | OpNEQ => #"<>" | OpGT => #">" | OpGTE => #">=" | OpLT => #"<" | OpLTE => #"<="
  | OpIn => #"IN" | OpNotIn => #"NOT IN" | OpLike => #"LIKE" | OpIsNull => #"IS NULL" | OpNotNull => #"IS NOT NULL"
  end.
Definition pad (b : sqlb) : sqlb := write #" " b.
Definition write_op (o : sop) (b : sqlb) : sqlb :=
  match o with OpIsNull | OpNotNull => write (op_text o) (pad b) | _ => pad (write (op_text o) (pad b)) end.
(** Builder.Join of a Querier that returned [text], [args] and has [errs] *)
Definition join (text : list N) (args : list sarg) (errs : list serr) (b : sqlb) : sqlb :=
  SB (bText b ++ text) (bArgs b ++ args) (bTotal b + N.of_nat (length args))%N (bDialect b) (bErrs b ++ errs).

(** ** sqlgraph.Node; a pointer to one is a number *)
Record gspec : Type := GS { gRel : N; gInverse : bool; gTable : list N; gColumns : list (list N) }.
Record gnode : Type := GN { gnTable : list N; gnSchema : list N; gnID : option (list N);
                            gnEdges : list (list N * (option nat * option gspec)) }.

(** entsqlOpMap, entmq/entsql.go:216-228 *)
Definition entsql_ops : list (list N * sop) :=
  [ (#"eq", OpEQ); (#"neq", OpNEQ); (#"gt", OpGT); (#"gte", OpGTE); (#"lt", OpLT); (#"lte", OpLTE);
    (#"in", OpIn); (#"not in", OpNotIn); (#"like", OpLike); (#"is null", OpIsNull); (#"is not null", OpNotNull) ].
(** strings.ToUpper, on ASCII *)
Definition ascii_upper (c : N) : N := if (97 <=? c)%N && (c <=? 122)%N then (c - 32)%N else c.
Definition to_upper (s : list N) : list N := map ascii_upper s.

(** The builder's own sql.Builder, and the one in field SQLBuilder. *)
Record sst : Type := ST { sOwn : sqlb; sExt : option sqlb }.
Definition emit (f : sqlb -> sqlb) (s : sst) : sst :=
  match sExt s with Some b => ST (sOwn s) (Some (f b)) | None => ST (f (sOwn s)) None end.
Definition own (f : sqlb -> sqlb) (s : sst) : sst := ST (f (sOwn s)) (sExt s).

(** Result of visit: a panic ([None]), or a state and an error. *)
Definition sres : Type := option (sst * option serr).
(** if err == nil { ... } *)
Definition unless_err (r : sres) (k : sst -> sres) : sres := match r with Some (s, None) => k s | _ => r end.
(** a statement executed whatever err is *)
Definition always (r : sres) (f : sst -> sst) : sres := match r with Some (s, e) => Some (f s, e) | None => None end.

Section EntSQL.
  Variable lower_hi : N -> N.
  Variable ident_sql : list N -> list N -> list N.
  Variable edge_sql : bool -> list N -> gnode -> gspec -> gnode -> option (list N * list N).
  Variable heap : nat -> gnode.

  (** The text around the condition of an edge, entmq/entsql.go:112-127: [None]
      for the nil dereferences and panics of the library. *)
  Definition edge_step (with_cond : bool) (d : list N) (tab : gnode) (edge : option nat * option gspec) : option (nat * (list N * list N)) :=
    match edge, gnID tab with
    | (Some t, Some spec), Some _ =>
        match gnID (heap t), edge_sql with_cond d tab spec (heap t) with
        | Some _, Some x => Some (t, x)
        | _, _ => None
        end
    | _, _ => None
    end.

  (** visit, entmq/entsql.go:45-214; [disable]: DisableTypeCasting, [cur]: Node *)
  Fixpoint svisit (disable : bool) (cur : option nat) (n : node) (s : sst) : sres :=
    let vp (p : option node) (s : sst) : sres := match p with Some m => svisit disable cur m s | None => None end in
    match nType n with
    | NOperation => Some (s, Some (SOpNode (nOperation n)))
    | NValue =>
        match nVType n, value n with
        | _, None => None
        | VArray, Some (GArr vs) => Some (emit (fun b => write #")" (write_args (map APlain vs) (write #"(" b))) s, None)
        | VArray, Some _ => None
        | _, Some v => Some (emit (write_arg (if disable then APlain v else ACast v)) s, None)
        end
    | NIdentifier => Some (emit (fun b => write (ident_sql (bDialect b) (nName n)) b) s, None)
    | NParentheses => always (vp (nExpression n) (emit (write #"(") s)) (emit (write #")"))
    | NNot => vp (nExpression n) (emit (write #"NOT ") s)
    | NFunction =>
        if streq (nName n) #"date" then
          match nParams n with
          | [] => None
          | p :: _ => always (match p with Some m => svisit disable cur m (emit (write #"DATE(") s) | None => None end) (emit (write #")"))
          end
        else if streq (nName n) #"has_edge" then
          match nParams n with
          | [] => Some (s, Some SEdgeParam)
          | None :: _ => None
          | Some p0 :: rest =>
              if streq (nName p0) [] then Some (s, Some SEdgeParam)
              else
                match cur with
                | None => None
                | Some c =>
                    match assoc (nName p0) (gnEdges (heap c)) with
                    | None => Some (s, Some (SNoEdge (nName p0)))
                    | Some edge =>
                        let d := bDialect (sOwn s) in
                        match rest with
                        | [] =>
                            match edge_step false d (heap c) edge with
                            | None => None
                            | Some (_, (t1, t2)) => Some (own (join (t1 ++ t2) [] []) s, None)
                            end
                        | [None] => None
                        | [Some p1] =>
                            if negb (isExpression p1) then Some (s, Some (SEdgeCond p1))
                            else
                              match edge_step true d (heap c) edge with
                              | None => None
                              | Some (t, (t1, t2)) =>
                                  (* Query of the nested builder, entmq/entsql.go:129-138 *)
                                  match svisit disable (Some t) p1 (ST (SB [] [] (bTotal (sOwn s)) d []) None) with
                                  | None => None
                                  | Some (s', None) =>
                                      Some (own (join (t1 ++ bText (sOwn s') ++ t2) (bArgs (sOwn s')) (bErrs (sOwn s'))) s, None)
                                  | Some (s', Some e) =>
                                      Some (own (join (t1 ++ t2) [] (bErrs (sOwn s') ++ [e])) s, None)
                                  end
                              end
                        | _ => Some (s, Some SEdgeParam)
                        end
                    end
                end
          end
        else Some (s, Some (SFunc (nName n)))
    | NBetween =>
        match nOp n with
        | None => None
        | Some o =>
            let neg := streq (nOperation o) #"not between" in
            let lo := if neg then OpLT else OpGTE in
            let ro := if neg then OpGT else OpLTE in
            unless_err (vp (nLeft n) s) (fun s =>
            unless_err (match nParams n with a :: _ => match a with Some m => svisit disable cur m (emit (write_op lo) s) | None => None end | [] => None end) (fun s =>
            unless_err (vp (nLeft n) (emit (write #" AND ") s)) (fun s =>
            match nParams n with _ :: b :: _ => match b with Some m => svisit disable cur m (emit (write_op ro) s) | None => None end | _ => None end)))
        end
    | NPredicates =>
        match nOp n with
        | None => None
        | Some o =>
            match assoc (nOperation o) entsql_ops with
            | None => Some (s, Some (SPredOp (nOperation o)))
            | Some op => always (vp (nLeft n) s) (emit (write_op op))
            end
        end
    | NLogic | NCompare =>
        match vp (nLeft n) s, nOp n with
        | Some (s, e), Some o =>
            match assoc (nOperation o) entsql_ops with
            | Some op => unless_err (Some (emit (write_op op) s, e)) (vp (nRight n))
            | None =>
                if streq (nOperation o) #"not like" || streq (nOperation o) #"and" || streq (nOperation o) #"or"
                then unless_err (Some (emit (fun b => pad (write (to_upper (nOperation o)) (pad b))) s, e)) (vp (nRight n))
                else Some (s, Some (SOp (nOperation o)))
            end
        | _, _ => None
        end
    | NReference | NOther => Some (s, Some (SType (nType n)))
    end.

  (** MiniQLToEntSQLBuilder, entmq/entsql.go:16-24, without the unused Graph *)
  Record mbuilder : Type := MB { mNode : option nat; mQuery : list N; mAst : option node; mDisable : bool; mSt : sst }.
  Definition set_ast (n : option node) (m : mbuilder) : mbuilder := MB (mNode m) (mQuery m) n (mDisable m) (mSt m).
  Definition set_st (s : sst) (m : mbuilder) : mbuilder := MB (mNode m) (mQuery m) (mAst m) (mDisable m) s.

  (** Query, entmq/entsql.go:27-42: [None] is a panic *)
  Definition mrun_ast (m : mbuilder) (n : node) : option (mbuilder * (list N * list sarg)) :=
    match svisit (mDisable m) (mNode m) n (mSt m) with
    | None => None
    | Some (s, Some e) => Some (set_st (own (add_error e) s) m, ([], []))
    | Some (s, None) => Some (set_st s m, (bText (sOwn s), bArgs (sOwn s)))
    end.
  Definition query (m : mbuilder) : option (mbuilder * (list N * list sarg)) :=
    match mAst m with
    | Some n => mrun_ast m n
    | None =>
        match parse lower_hi (mQuery m) with
        | Panic => None
        | Err e => Some (set_st (own (add_error (SParse e)) (mSt m)) m, ([], []))
        | Ok None => None
        | Ok (Some n) => mrun_ast (set_ast (Some n) m) n
        end
    end.
  (** Err() == nil *)
  Definition no_error (m : mbuilder) : Prop := bErrs (sOwn (mSt m)) = [].
  (** a builder as the callers make it: SetDialect, QueryString *)
  Definition fresh (d : list N) (disable : bool) (nd : option nat) (q : list N) : mbuilder :=
    MB nd q None disable (ST (SB [] [] 0 d []) None).
End EntSQL.
