(** The methods of MiniQLToEntQLBuilder, entmq/entql.go.
    Written by tools/gofunc2v.py: one term of Gox.v for each statement and expression there. *)
From Verif Require Import Base Gox.
Open Scope string_scope.

(** MiniQLToEntQLBuilder.pop, entmq/entql.go:37-41 *)
Definition entql_MiniQLToEntQLBuilder_pop : fundef :=
    Fundef ["mb"] [] [SDef ["v"] (EIndex (ESel (EVar "mb") "stack") (EBin "-" (ECall (EFn "len") [ESel (EVar "mb")
    "stack"]) (EInt 1))); SSetSel "mb" "stack" (ESlice (ESel (EVar "mb") "stack") None (Some (EBin "-" (ECall (EFn
    "len") [ESel (EVar "mb") "stack"]) (EInt 1)))); SReturn [EVar "v"]].
(** MiniQLToEntQLBuilder.push, entmq/entql.go:43-45 *)
Definition entql_MiniQLToEntQLBuilder_push : fundef :=
    Fundef ["mb"; "e"] [] [SSetSel "mb" "stack" (ECall (EFn "append") [ESel (EVar "mb") "stack"; EVar "e"])].
(** MiniQLToEntQLBuilder.visit, entmq/entql.go:65-153 *)
Definition entql_MiniQLToEntQLBuilder_visit : fundef :=
    Fundef ["mb"; "node"] [("err", ENil)] [SDef ["visit"] (ESel (EVar "mb") "visit"); SSwitch (ESel (EVar "node")
    "Type") [([ECst "OperationNodeType"], [SReturn [ECall (EFn "errors.Errorf") [EStr #"unexpected op node: %q"; EVar
    "node"]]]); ([ECst "ValueNodeType"], [SExpr (ECall (ESel (EVar "mb") "push") [ELit "entql.Value" [("V", ECall
    (ESel (EVar "node") "Value") [])]])]); ([ECst "IdentifierNodeType"], [SExpr (ECall (ESel (EVar "mb") "push")
    [ECall (EFn "entql.F") [ESel (EVar "node") "Name"]])]); ([ECst "ParenthesesExpressionType"], [SSet ["err"] (ECall
    (EVar "visit") [ESel (EVar "node") "Expression"])]); ([ECst "NotExpressionType"], [SSet ["err"] (ECall (EVar
    "visit") [ESel (EVar "node") "Expression"]); SIf (EBin "!=" (EVar "err") ENil) [SExpr (ECall (ESel (EVar "mb")
    "push") [ECall (EFn "entql.Not") [EAssert (ECall (ESel (EVar "mb") "pop") []) "entql.P"]])] []]); ([ECst
    "FunctionExpressionType"], []); ([ECst "BetweenExpressionType"], [SSet ["err"] (ECall (EVar "visit") [ESel (EVar
    "node") "Left"]); SIf (EBin "==" (EVar "err") ENil) [SSet ["err"] (ECall (EVar "visit") [EIndex (ESel (EVar
    "node") "Params") (EInt 0)])] []; SIf (EBin "==" (EVar "err") ENil) [SSet ["err"] (ECall (EVar "visit") [EIndex
    (ESel (EVar "node") "Params") (EInt 1)])] []; SIf (EBin "==" (EVar "err") ENil) [SDef ["hig"] (ECall (ESel (EVar
    "mb") "pop") []); SDef ["low"] (ECall (ESel (EVar "mb") "pop") []); SDef ["left"] (ECall (ESel (EVar "mb") "pop")
    []); SDef ["lo"] (ECst "entql.OpGTE"); SDef ["ro"] (ECst "entql.OpLTE"); SIf (EBin "==" (ESel (ESel (EVar "node")
    "Op") "Operation") (ECst "OpNotBetween")) [SSet ["lo"] (ECst "entql.OpLT"); SSet ["ro"] (ECst "entql.OpGT")] [];
    SExpr (ECall (ESel (EVar "mb") "push") [ECall (EFn "entql.And") [ELit "entql.BinaryExpr" [("Op", EVar "lo");
    ("X", EVar "left"); ("Y", EVar "low")]; ELit "entql.BinaryExpr" [("Op", EVar "ro"); ("X", EVar "left"); ("Y",
    EVar "hig")]]])] []]); ([ECst "PredicatesExpressionType"], [SPanic]); ([ECst "LogicExpressionType"], [SFall]);
    ([ECst "CompareExpressionType"], [SSet ["err"] (ECall (EVar "visit") [ESel (EVar "node") "Left"]); SIf (EBin "=="
    (EVar "err") ENil) [SSet ["err"] (ECall (EVar "visit") [ESel (EVar "node") "Right"])] []; SIf (EBin "==" (EVar
    "err") ENil) [SDef ["right"] (ECall (ESel (EVar "mb") "pop") []); SDef ["left"] (ECall (ESel (EVar "mb") "pop")
    []); SDef ["op"; "found"] (ELookup "entqlOpMap" (ESel (ESel (EVar "node") "Op") "Operation")); SIf (ENot (EVar
    "found")) [SReturn [ECall (EFn "errors.Errorf") [EStr #"unexpected op %q"; ESel (ESel (EVar "node") "Op")
    "Operation"]]] []; SExpr (ECall (ESel (EVar "mb") "push") [ELit "entql.BinaryExpr" [("Op", EVar "op"); ("X", EVar
    "left"); ("Y", EVar "right")]])] []])] [SReturn [ECall (EFn "errors.Errorf") [EStr #"invalid type %q"; ESel (EVar
    "node") "Type"]]]; SReturn [EVar "err"]].
(** MiniQLToEntQLBuilder.Build, entmq/entql.go:47-63 *)
Definition entql_MiniQLToEntQLBuilder_Build : fundef :=
    Fundef ["mb"] [("p", ENil); ("err", ENil)] [SIf (EBin "==" (ESel (EVar "mb") "Query") (EStr #"")) [SReturn []]
    []; SDef ["node"; "err"] (ECall (EFn "Parse") [ESel (EVar "mb") "Query"]); SIf (EBin "!=" (EVar "err") ENil)
    [SReturn [ENil; EVar "err"]] []; SSet ["err"] (ECall (ESel (EVar "mb") "visit") [EVar "node"]); SIf (EBin "&&"
    (EBin "==" (EVar "err") ENil) (EBin ">" (ECall (EFn "len") [ESel (EVar "mb") "stack"]) (EInt 0))) [SSet ["p"]
    (EAssert (ECall (ESel (EVar "mb") "pop") []) "entql.P"); SIf (EBin ">" (ECall (EFn "len") [ESel (EVar "mb")
    "stack"]) (EInt 1)) [SExpr (ECall (ESel (ECall (EFn "slog.With") [EStr #"query"; ESel (EVar "mb") "Query"])
    "Error") [EStr #"unexpected MiniQLBuilder stack size"; EStr #"size"; ECall (EFn "len") [ESel (EVar "mb")
    "stack"]])] []] []; SReturn []].
(** entqlOpMap, entmq/entql.go:155-167 *)
Definition entql_map_entqlOpMap : list (expr * expr) :=
    [(ECst "OpAnd", ECst "entql.OpAnd"); (ECst "OpOr", ECst "entql.OpOr"); (ECst "OpNot", ECst "entql.OpNot"); (ECst
    "OpEQ", ECst "entql.OpEQ"); (ECst "OpNEQ", ECst "entql.OpNEQ"); (ECst "OpGT", ECst "entql.OpGT"); (ECst "OpGTE",
    ECst "entql.OpGTE"); (ECst "OpLT", ECst "entql.OpLT"); (ECst "OpLTE", ECst "entql.OpLTE"); (ECst "OpIn", ECst
    "entql.OpIn"); (ECst "OpNotIn", ECst "entql.OpNotIn")].
(** type MiniQLToEntQLBuilder struct, entmq/entql.go:32-35: names and types of the fields *)
Definition entql_type_MiniQLToEntQLBuilder : list (string * string) :=
    [("Query", "string"); ("stack", "[]entql.Expr")].
(** the functions by name *)
Definition entql_table : list (string * fundef) :=
    [("MiniQLToEntQLBuilder.pop", entql_MiniQLToEntQLBuilder_pop); ("MiniQLToEntQLBuilder.push",
    entql_MiniQLToEntQLBuilder_push); ("MiniQLToEntQLBuilder.visit", entql_MiniQLToEntQLBuilder_visit);
    ("MiniQLToEntQLBuilder.Build", entql_MiniQLToEntQLBuilder_Build)].
(** the string constants *)
Definition entql_consts : list (string * list N) :=
    [].
(** the maps *)
Definition entql_maps : list (string * list (expr * expr)) :=
    [("entqlOpMap", entql_map_entqlOpMap)].
