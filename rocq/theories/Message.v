(** Model of the texts of the errors: err.Error() of what miniquery.Parse, gormq
    and entmq return or record.  [None] is a panic. *)
From Verif Require Import Base Peg Grammar Node Tree Parse Build Ast Report Gorm EntQL EntSQL.

Section Message.
  Variable is_print : N -> bool.
  Variable fmt_float : Z -> list N.
  Notation quote_q := (quoted is_print).

  (** strconv.NumError.Error *)
  Definition num_error (func s err : list N) : list N := #"strconv." ++ func ++ #": parsing " ++ quote_q s ++ #": " ++ err.
  (** the errors of miniquery.Parse(q), miniquery/parse.go:3-16: the parseError
      of the generated parser (Pretty is not set), or the first of Tree.Errors.
      The texts of PopFunction (miniquery/tree.go:84, 94) are not modelled:
      Parse never returns these errors. *)
  Definition perr_text (q : list N) (e : perr) : option (list N) :=
    match e with
    | PESyntax _ _ => go_error is_print false q
    | PERange s => Some (num_error #"Atoi" s #"value out of range")
    | PENumSyntax s => Some (num_error #"Atoi" s #"invalid syntax")
    | PEBoolSyntax s => Some (num_error #"ParseBool" s #"invalid syntax")
    | PEFunction => None
    end.

  (** gormq/miniquery.go:30, 49, 72, 79, 85, 116, 204, 223; [model_error]: the
      text of the error of Statement.Parse *)
  Definition gerr_text (model_error : list N) (q : list N) (e : gerr) : option (list N) :=
    match e with
    | GSyntax e => match perr_text q e with Some t => Some (#"invalid query syntax: " ++ t) | None => None end
    | GParseModel => Some model_error
    | GMissingModel => Some #"missing model"
    | GField s => Some (#"field not found: " ++ quote_q s)
    | GRelation s => Some (#"relation not found: " ++ quote_q s)
    | GRelField s f => Some (#"relation field not found: " ++ quote_q s ++ #"." ++ quote_q f)
    | GLevels => Some #"only support join one level"
    | GType t => Some (#"invalid type " ++ quote_q (type_name t))
    | GFunc s => Some (#"unsupported function: " ++ quote_q s)
    end.

  (** entmq/entql.go:70, 141, 150; %q of a node quotes its String *)
  Definition eerr_text (q : list N) (e : eerr) : option (list N) :=
    match e with
    | XParse e => perr_text q e
    | XOpNode s => Some (#"unexpected op node: " ++ quote_q (#"operation(" ++ s ++ #")"))
    | XOp s => Some (#"unexpected op " ++ quote_q s)
    | XType t => Some (#"invalid type " ++ quote_q (type_name t))
    end.
  (** errors.Wrapf(err, "<what> query: %q", q) *)
  Definition wrapped (what : list N) (q : list N) (t : option (list N)) : option (list N) :=
    match t with Some t => Some (what ++ #" query: " ++ quote_q q ++ #": " ++ t) | None => None end.
  (** the text of the error of BuildEntQL, entmq/entql.go:23-30 *)
  Definition build_entql_text (lower_hi : N -> N) (q : list N) : option (list N) :=
    match build_entql lower_hi q with
    | Err e => wrapped #"failed to build" q (eerr_text q e)
    | _ => None
    end.
  (** the text of the error of ApplyEntQL, entmq/entql.go:11-21 *)
  Fixpoint apply_entql_text (lower_hi : N -> N) (queries : list (list N)) : option (list N) :=
    match queries with
    | [] => None
    | q :: qs =>
        match build_entql lower_hi q with
        | Ok _ => apply_entql_text lower_hi qs
        | Err e => wrapped #"failed to apply" q (eerr_text q e)
        | Panic => None
        end
    end.

  (** entmq/entsql.go:53, 100, 108, 120, 142, 154, 182, 205, 211 *)
  Definition serr_text (q : list N) (e : serr) : option (list N) :=
    match e with
    | SParse e => perr_text q e
    | SOpNode s => Some (#"unexpected op node: " ++ quote_q (#"operation(" ++ s ++ #")"))
    | SOp s => Some (#"unexpected op " ++ quote_q s)
    | SPredOp s => Some (#"unexpected predicate op " ++ quote_q s)
    | SType t => Some (#"invalid type " ++ quote_q (type_name t))
    | SEdgeParam => Some [20851; 32852; 21442; 25968; 38169; 35823]%N                                       (* 关联参数错误 *)
    | SNoEdge s => Some ([19981; 23384; 22312; 20851; 32852; 58; 32]%N ++ quote_q s)                        (* 不存在关联: *)
    | SEdgeCond p =>
        match node_string fmt_float p with
        | Some t => Some ([20851; 32852; 26465; 20214; 38169; 35823; 58; 32]%N ++ quote_q t)                (* 关联条件错误: *)
        | None => None
        end
    | SFunc s => Some ([19981; 25903; 25345; 30340; 20989; 25968; 58; 32]%N ++ quote_q s)                   (* 不支持的函数: *)
    end.
End Message.
