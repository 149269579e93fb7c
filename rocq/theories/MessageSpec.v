(** Specification of the texts of the errors of the back ends. *)
From Verif Require Import Base Peg Grammar Node Vocab Tree Gorm EntQL EntSQL QuoteSpec TrailSpec ReportSpec ShowSpec Utf8Spec.

Section Says.
  Variable is_print : N -> bool.

  Inductive parse_says (q : list N) : perr -> list N -> Prop :=
  | ps_syntax : forall b e T t, trail Gpeg (PRule rGrammar) q None T -> message is_print false q T t -> parse_says q (PESyntax b e) t
  | ps_range : forall ds l, literal is_print ds l -> parse_says q (PERange ds) (#"strconv.Atoi: parsing " ++ l ++ #": value out of range").

  Inductive gorm_says (q : list N) : gerr -> list N -> Prop :=
  | gs_syntax : forall e t, parse_says q e t -> gorm_says q (GSyntax e) (#"invalid query syntax: " ++ t)
  | gs_missing : gorm_says q GMissingModel #"missing model"
  | gs_field : forall x l, literal is_print x l -> gorm_says q (GField x) (#"field not found: " ++ l)
  | gs_relation : forall x l, literal is_print x l -> gorm_says q (GRelation x) (#"relation not found: " ++ l)
  | gs_rel_field : forall x y l m, literal is_print x l -> literal is_print y m ->
      gorm_says q (GRelField x y) (#"relation field not found: " ++ l ++ #"." ++ m)
  | gs_levels : gorm_says q GLevels #"only support join one level"
  | gs_function : forall x l, literal is_print x l -> gorm_says q (GFunc x) (#"unsupported function: " ++ l).

  Inductive ql_says (q : list N) : eerr -> list N -> Prop :=
  | qs_parse : forall e t, parse_says q e t -> ql_says q (XParse e) t
  | qs_opnode : forall o t l, shows (mk_op o) t -> literal is_print t l -> ql_says q (XOpNode o) (#"unexpected op node: " ++ l)
  | qs_op : forall x l, literal is_print x l -> ql_says q (XOp x) (#"unexpected op " ++ l)
  | qs_reference : forall l, literal is_print #"reference" l -> ql_says q (XType NReference) (#"invalid type " ++ l).
  (** the text with the query in front of it *)
  Definition about (what q t out : list N) : Prop := exists l, literal is_print q l /\ out = what ++ #" query: " ++ l ++ #": " ++ t.

  (** the texts in Chinese are given by their UTF-8 bytes *)
  Inductive sql_says (q : list N) : serr -> list N -> Prop :=
  | ss_parse : forall e t, parse_says q e t -> sql_says q (SParse e) t
  | ss_opnode : forall o t l, shows (mk_op o) t -> literal is_print t l -> sql_says q (SOpNode o) (#"unexpected op node: " ++ l)
  | ss_op : forall x l, literal is_print x l -> sql_says q (SOp x) (#"unexpected op " ++ l)
  | ss_pred : forall x l, literal is_print x l -> sql_says q (SPredOp x) (#"unexpected predicate op " ++ l)
  | ss_reference : forall l, literal is_print #"reference" l -> sql_says q (SType NReference) (#"invalid type " ++ l)
  | ss_param : forall w, utf8 #"关联参数错误" w -> sql_says q SEdgeParam w
  | ss_edge : forall x l w, utf8 #"不存在关联: " w -> literal is_print x l -> sql_says q (SNoEdge x) (w ++ l)
  | ss_cond : forall n t l w, utf8 #"关联条件错误: " w -> shows n t -> literal is_print t l -> sql_says q (SEdgeCond n) (w ++ l)
  | ss_function : forall x l w, utf8 #"不支持的函数: " w -> literal is_print x l -> sql_says q (SFunc x) (w ++ l).
End Says.
