(** The functions of miniquery/tree.go, miniquery/node.go and miniquery/join.go.
    Written by tools/gofunc2v.py: one term of Gox.v for each statement and expression there. *)
From Verif Require Import Base Gox.
Open Scope string_scope.

(** NormalizeOperation, miniquery/tree.go:44-52 *)
Definition mini_NormalizeOperation : fundef :=
    Fundef ["s"] [] [SSet ["s"] (ECall (EFn "strings.TrimSpace") [EVar "s"]); SSet ["s"] (ECall (EFn
    "strings.ToLower") [EVar "s"]); SSet ["s"] (ECall (EFn "regSpace.ReplaceAllString") [EVar "s"; EStr #" "]);
    SBlock [SDef ["v"; "ok"] (ELookup "normalize" (EVar "s")); SIf (EVar "ok") [SReturn [EVar "v"]] []]; SReturn
    [EVar "s"]].
(** Tree.Push, miniquery/tree.go:54-56 *)
Definition mini_Tree_Push : fundef :=
    Fundef ["t"; "node"] [] [SSetSel "t" "Stack" (ECall (EFn "append") [ESel (EVar "t") "Stack"; EVar "node"])].
(** Tree.Pop, miniquery/tree.go:58-66 *)
Definition mini_Tree_Pop : fundef :=
    Fundef ["t"] [] [SDef ["last"] (EBin "-" (ECall (EFn "len") [ESel (EVar "t") "Stack"]) (EInt 1)); SIf (EBin "<"
    (EVar "last") (EInt 0)) [SReturn [ENil]] []; SDef ["v"] (EIndex (ESel (EVar "t") "Stack") (EVar "last")); SSetSel
    "t" "Stack" (ESlice (ESel (EVar "t") "Stack") None (Some (EVar "last"))); SReturn [EVar "v"]].
(** Tree.PopIdentifierReference, miniquery/tree.go:68-78 *)
Definition mini_Tree_PopIdentifierReference : fundef :=
    Fundef ["t"] [] [SDef ["nodes"] (ECall (ESel (EVar "t") "popMarked") []); SDef ["names"] (ECall (EFn
    "make []string") [EInt 0; ECall (EFn "len") [EVar "nodes"]]); SRange "_" "node" (EVar "nodes") [SSet ["names"]
    (ECall (EFn "append") [EVar "names"; ESel (EVar "node") "Name"])]; SExpr (ECall (ESel (EVar "t") "Push") [ELit
    "Node" [("Type", ECst "ReferenceNodeType"); ("Names", EVar "names")]])].
(** Tree.PopFunction, miniquery/tree.go:80-96 *)
Definition mini_Tree_PopFunction : fundef :=
    Fundef ["t"] [] [SDef ["a"] (ECall (ESel (EVar "t") "Pop") []); SDef ["n"] (ECall (ESel (EVar "t") "Pop") []);
    SIf (EBin "||" (EBin "==" (EVar "a") ENil) (EBin "==" (EVar "n") ENil)) [SExpr (ECall (ESel (EVar "t")
    "AddError") [ECall (EFn "fmt.Errorf") [EStr #"invalid function exp %q %q"; EVar "n"; EVar "a"]]); SReturn []] [];
    SIf (EBin "&&" (EBin "&&" (EBin "==" (ESel (EVar "n") "Type") (ECst "IdentifierNodeType")) (EBin "==" (ESel (EVar
    "a") "Type") (ECst "ValueNodeType"))) (EBin "==" (ESel (EVar "a") "ValueType") (ECst "ArrayValueType"))) [SExpr
    (ECall (ESel (EVar "t") "Push") [ELit "Node" [("Type", ECst "FunctionExpressionType"); ("Name", ESel (EVar "n")
    "Name"); ("Params", ESel (EVar "a") "Array")]])] [SExpr (ECall (ESel (EVar "t") "AddError") [ECall (EFn
    "fmt.Errorf") [EStr #"invalid function exp %q %q"; ESel (EVar "n") "Type"; ESel (EVar "a") "Type"]])]].
(** Tree.PopBetween, miniquery/tree.go:98-112 *)
Definition mini_Tree_PopBetween : fundef :=
    Fundef ["t"] [] [SDef ["up"] (ECall (ESel (EVar "t") "Pop") []); SDef ["down"] (ECall (ESel (EVar "t") "Pop")
    []); SDef ["op"] (ECall (ESel (EVar "t") "Pop") []); SDef ["left"] (ECall (ESel (EVar "t") "Pop") []); SExpr
    (ECall (ESel (EVar "t") "Push") [ELit "Node" [("Type", ECst "BetweenExpressionType"); ("Left", EVar "left");
    ("Op", EVar "op"); ("Params", EList [EVar "down"; EVar "up"])]])].
(** Tree.PopPredicate, miniquery/tree.go:114-123 *)
Definition mini_Tree_PopPredicate : fundef :=
    Fundef ["t"] [] [SDef ["op"] (ECall (ESel (EVar "t") "Pop") []); SDef ["left"] (ECall (ESel (EVar "t") "Pop")
    []); SExpr (ECall (ESel (EVar "t") "Push") [ELit "Node" [("Type", ECst "PredicatesExpressionType"); ("Left", EVar
    "left"); ("Op", EVar "op")]])].
(** Tree.PopLogic, miniquery/tree.go:125-135 *)
Definition mini_Tree_PopLogic : fundef :=
    Fundef ["t"] [] [SDef ["right"] (ECall (ESel (EVar "t") "Pop") []); SDef ["op"] (ECall (ESel (EVar "t") "Pop")
    []); SDef ["left"] (ECall (ESel (EVar "t") "Pop") []); SExpr (ECall (ESel (EVar "t") "Push") [ELit "Node"
    [("Type", ECst "LogicExpressionType"); ("Left", EVar "left"); ("Op", EVar "op"); ("Right", EVar "right")]])].
(** Tree.PopCompare, miniquery/tree.go:137-148 *)
Definition mini_Tree_PopCompare : fundef :=
    Fundef ["t"] [] [SDef ["right"] (ECall (ESel (EVar "t") "Pop") []); SDef ["op"] (ECall (ESel (EVar "t") "Pop")
    []); SDef ["left"] (ECall (ESel (EVar "t") "Pop") []); SExpr (ECall (ESel (EVar "t") "Push") [ELit "Node"
    [("Type", ECst "CompareExpressionType"); ("Left", EVar "left"); ("Op", EVar "op"); ("Right", EVar "right")]])].
(** Tree.PopParentheses, miniquery/tree.go:150-155 *)
Definition mini_Tree_PopParentheses : fundef :=
    Fundef ["t"] [] [SExpr (ECall (ESel (EVar "t") "Push") [ELit "Node" [("Type", ECst "ParenthesesExpressionType");
    ("Expression", ECall (ESel (EVar "t") "Pop") [])]])].
(** Tree.PopMark, miniquery/tree.go:157-161 *)
Definition mini_Tree_PopMark : fundef :=
    Fundef ["t"] [] [SDef ["v"] (EIndex (ESel (EVar "t") "marks") (EBin "-" (ECall (EFn "len") [ESel (EVar "t")
    "marks"]) (EInt 1))); SSetSel "t" "marks" (ESlice (ESel (EVar "t") "marks") None (Some (EBin "-" (ECall (EFn
    "len") [ESel (EVar "t") "marks"]) (EInt 1)))); SReturn [EVar "v"]].
(** Tree.AddMark, miniquery/tree.go:163-165 *)
Definition mini_Tree_AddMark : fundef :=
    Fundef ["t"] [] [SSetSel "t" "marks" (ECall (EFn "append") [ESel (EVar "t") "marks"; ECall (EFn "len") [ESel
    (EVar "t") "Stack"]])].
(** Tree.popMarked, miniquery/tree.go:167-173 *)
Definition mini_Tree_popMarked : fundef :=
    Fundef ["t"] [] [SDef ["mark"] (ECall (ESel (EVar "t") "PopMark") []); SDef ["elements"] (ECall (EFn
    "make []*Node") [EBin "-" (ECall (EFn "len") [ESel (EVar "t") "Stack"]) (EVar "mark")]); SCopy "elements" (ESlice
    (ESel (EVar "t") "Stack") (Some (EVar "mark")) (Some (ECall (EFn "len") [ESel (EVar "t") "Stack"]))); SSetSel "t"
    "Stack" (ESlice (ESel (EVar "t") "Stack") (Some (EInt 0)) (Some (EVar "mark"))); SReturn [EVar "elements"]].
(** Tree.PopArray, miniquery/tree.go:175-181 *)
Definition mini_Tree_PopArray : fundef :=
    Fundef ["t"] [] [SExpr (ECall (ESel (EVar "t") "Push") [ELit "Node" [("Type", ECst "ValueNodeType");
    ("ValueType", ECst "ArrayValueType"); ("Array", ECall (ESel (EVar "t") "popMarked") [])]])].
(** Tree.AddOperation, miniquery/tree.go:183-188 *)
Definition mini_Tree_AddOperation : fundef :=
    Fundef ["t"; "s"] [] [SExpr (ECall (ESel (EVar "t") "Push") [ELit "Node" [("Type", ECst "OperationNodeType");
    ("Operation", ECall (EFn "NormalizeOperation") [EVar "s"])]])].
(** Tree.AddCompare, miniquery/tree.go:190-195 *)
Definition mini_Tree_AddCompare : fundef :=
    Fundef ["t"; "s"] [] [SExpr (ECall (ESel (EVar "t") "Push") [ELit "Node" [("Type", ECst "OperationNodeType");
    ("Operation", ECall (EFn "NormalizeOperation") [EVar "s"])]])].
(** Tree.AddLogic, miniquery/tree.go:197-202 *)
Definition mini_Tree_AddLogic : fundef :=
    Fundef ["t"; "s"] [] [SExpr (ECall (ESel (EVar "t") "Push") [ELit "Node" [("Type", ECst "OperationNodeType");
    ("Operation", ECall (EFn "NormalizeOperation") [EVar "s"])]])].
(** Tree.PopNot, miniquery/tree.go:204-209 *)
Definition mini_Tree_PopNot : fundef :=
    Fundef ["t"] [] [SExpr (ECall (ESel (EVar "t") "Push") [ELit "Node" [("Type", ECst "NotExpressionType");
    ("Expression", ECall (ESel (EVar "t") "Pop") [])]])].
(** Tree.AddMatch, miniquery/tree.go:211-216 *)
Definition mini_Tree_AddMatch : fundef :=
    Fundef ["t"; "s"] [] [SExpr (ECall (ESel (EVar "t") "Push") [ELit "Node" [("Type", ECst "OperationNodeType");
    ("Operation", ECall (EFn "NormalizeOperation") [EVar "s"])]])].
(** Tree.AddName, miniquery/tree.go:218-223 *)
Definition mini_Tree_AddName : fundef :=
    Fundef ["t"; "s"] [] [SExpr (ECall (ESel (EVar "t") "Push") [ELit "Node" [("Type", ECst "IdentifierNodeType");
    ("Name", EVar "s")]])].
(** Tree.AddError, miniquery/tree.go:225-229 *)
Definition mini_Tree_AddError : fundef :=
    Fundef ["t"; "err"] [] [SIf (EBin "!=" (EVar "err") ENil) [SSetSel "t" "Errors" (ECall (EFn "append") [ESel (EVar
    "t") "Errors"; EVar "err"])] []].
(** Tree.AddString, miniquery/tree.go:231-237 *)
Definition mini_Tree_AddString : fundef :=
    Fundef ["t"; "s"] [] [SSetSel "t" "Stack" (ECall (EFn "append") [ESel (EVar "t") "Stack"; ELit "Node" [("Type",
    ECst "ValueNodeType"); ("ValueType", ECst "StringValueType"); ("Str", EVar "s")]])].
(** Tree.AddFloat, miniquery/tree.go:239-247 *)
Definition mini_Tree_AddFloat : fundef :=
    Fundef ["t"; "s"] [] [SDef ["v"; "err"] (ECall (EFn "strconv.ParseFloat") [EVar "s"; EInt 64]); SExpr (ECall
    (ESel (EVar "t") "AddError") [EVar "err"]); SSetSel "t" "Stack" (ECall (EFn "append") [ESel (EVar "t") "Stack";
    ELit "Node" [("Type", ECst "ValueNodeType"); ("ValueType", ECst "FloatValueType"); ("Float", EVar "v")]])].
(** Tree.AddNull, miniquery/tree.go:249-254 *)
Definition mini_Tree_AddNull : fundef :=
    Fundef ["t"] [] [SSetSel "t" "Stack" (ECall (EFn "append") [ESel (EVar "t") "Stack"; ELit "Node" [("Type", ECst
    "ValueNodeType"); ("ValueType", ECst "NullValueType")]])].
(** Tree.AddBoolean, miniquery/tree.go:256-264 *)
Definition mini_Tree_AddBoolean : fundef :=
    Fundef ["t"; "s"] [] [SDef ["i"; "err"] (ECall (EFn "strconv.ParseBool") [EVar "s"]); SExpr (ECall (ESel (EVar
    "t") "AddError") [EVar "err"]); SSetSel "t" "Stack" (ECall (EFn "append") [ESel (EVar "t") "Stack"; ELit "Node"
    [("Type", ECst "ValueNodeType"); ("ValueType", ECst "BooleanValueType"); ("Bool", EVar "i")]])].
(** Tree.AddInteger, miniquery/tree.go:266-274 *)
Definition mini_Tree_AddInteger : fundef :=
    Fundef ["t"; "s"] [] [SDef ["i"; "err"] (ECall (EFn "strconv.Atoi") [EVar "s"]); SExpr (ECall (ESel (EVar "t")
    "AddError") [EVar "err"]); SSetSel "t" "Stack" (ECall (EFn "append") [ESel (EVar "t") "Stack"; ELit "Node"
    [("Type", ECst "ValueNodeType"); ("ValueType", ECst "IntValueType"); ("Int", EVar "i")]])].
(** normalize, miniquery/tree.go:23-41 *)
Definition mini_map_normalize : list (expr * expr) :=
    [(EStr #">=", EStr #"gte"); (EStr #">", EStr #"gt"); (EStr #"==", EStr #"eq"); (EStr #"=", EStr #"eq"); (EStr
    #"!=", EStr #"neq"); (EStr #"<>", EStr #"neq"); (EStr #"<", EStr #"lt"); (EStr #"<=", EStr #"lte"); (EStr #":",
    EStr #"eq"); (EStr #"&&", EStr #"and"); (EStr #"||", EStr #"or"); (EStr #",", EStr #"and"); (EStr #"isnull", EStr
    #"is null"); (EStr #"notnull", EStr #"is not null")].
(** type Tree struct, miniquery/tree.go:15-19: names and types of the fields *)
Definition mini_type_Tree : list (string * string) :=
    [("Stack", "[]*Node"); ("Errors", "[]error"); ("marks", "[]int")].
(** Node.Value, miniquery/node.go:57-77 *)
Definition mini_Node_Value : fundef :=
    Fundef ["n"] [] [SSwitch (ESel (EVar "n") "ValueType") [([ECst "IntValueType"], [SReturn [ESel (EVar "n")
    "Int"]]); ([ECst "StringValueType"], [SReturn [ESel (EVar "n") "Str"]]); ([ECst "FloatValueType"], [SReturn [ESel
    (EVar "n") "Float"]]); ([ECst "BooleanValueType"], [SReturn [ESel (EVar "n") "Bool"]]); ([ECst "NullValueType"],
    [SReturn [ENil]]); ([ECst "ArrayValueType"], [SDef ["s"] (EList []); SRange "_" "v" (ESel (EVar "n") "Array")
    [SSet ["s"] (ECall (EFn "append") [EVar "s"; ECall (ESel (EVar "v") "Value") []])]; SReturn [EVar "s"]])] [];
    SReturn [EStr #"<unknown value>"]].
(** Node.IsValue, miniquery/node.go:79-81 *)
Definition mini_Node_IsValue : fundef :=
    Fundef ["n"] [] [SReturn [EBin "!=" (ESel (EVar "n") "ValueType") (EStr #"")]].
(** Node.IsExpression, miniquery/node.go:83-89 *)
Definition mini_Node_IsExpression : fundef :=
    Fundef ["n"] [] [SSwitch (ESel (EVar "n") "Type") [([ECst "IdentifierNodeType"; ECst "ValueNodeType"; ECst
    "OperationNodeType"; ECst "ReferenceNodeType"], [SReturn [EBool false]])] []; SReturn [EBool true]].
(** Node.String, miniquery/node.go:91-138 *)
Definition mini_Node_String : fundef :=
    Fundef ["n"] [] [SDef ["buf"] (ELit "strings.Builder" []); SExpr (ECall (ESel (EVar "buf") "WriteString") [ECall
    (EFn "string") [ESel (EVar "n") "Type"]]); SExpr (ECall (ESel (EVar "buf") "WriteString") [EStr #"("]); SSwitch
    (ESel (EVar "n") "Type") [([ECst "BetweenExpressionType"], [SExpr (ECall (ESel (EVar "buf") "WriteString") [ECall
    (ESel (EIndex (ESel (EVar "n") "Params") (EInt 0)) "String") []]); SExpr (ECall (ESel (EVar "buf") "WriteString")
    [EStr #","]); SExpr (ECall (ESel (EVar "buf") "WriteString") [ECall (ESel (EIndex (ESel (EVar "n") "Params")
    (EInt 1)) "String") []])]); ([ECst "PredicatesExpressionType"], [SExpr (ECall (ESel (EVar "buf") "WriteString")
    [ESel (EVar "n") "Operation"])]); ([ECst "LogicExpressionType"], [SExpr (ECall (ESel (EVar "buf") "WriteString")
    [ECall (ESel (ESel (EVar "n") "Op") "String") []]); SExpr (ECall (ESel (EVar "buf") "WriteString") [EStr #","]);
    SExpr (ECall (ESel (EVar "buf") "WriteString") [ECall (ESel (ESel (EVar "n") "Left") "String") []]); SExpr (ECall
    (ESel (EVar "buf") "WriteString") [EStr #","]); SExpr (ECall (ESel (EVar "buf") "WriteString") [ECall (ESel (ESel
    (EVar "n") "Right") "String") []])]); ([ECst "CompareExpressionType"], [SExpr (ECall (ESel (EVar "buf")
    "WriteString") [ECall (ESel (ESel (EVar "n") "Left") "String") []]); SExpr (ECall (ESel (EVar "buf")
    "WriteString") [EStr #","]); SExpr (ECall (ESel (EVar "buf") "WriteString") [ECall (ESel (ESel (EVar "n") "Op")
    "String") []]); SExpr (ECall (ESel (EVar "buf") "WriteString") [EStr #","]); SExpr (ECall (ESel (EVar "buf")
    "WriteString") [ECall (ESel (ESel (EVar "n") "Right") "String") []])]); ([ECst "ParenthesesExpressionType"],
    [SFall]); ([ECst "NotExpressionType"], [SExpr (ECall (ESel (EVar "buf") "WriteString") [ECall (ESel (ESel (EVar
    "n") "Expression") "String") []])]); ([ECst "ValueNodeType"], [SSet ["_"; "_"] (ECall (EFn "fmt.Fprint") [EVar
    "buf"; ECall (ESel (EVar "n") "Value") []])]); ([ECst "OperationNodeType"], [SExpr (ECall (ESel (EVar "buf")
    "WriteString") [ESel (EVar "n") "Operation"])]); ([ECst "IdentifierNodeType"], [SExpr (ECall (ESel (EVar "buf")
    "WriteString") [ESel (EVar "n") "Name"])]); ([ECst "ReferenceNodeType"], [SExpr (ECall (ESel (EVar "buf")
    "WriteString") [ECall (EFn "strings.Join") [ESel (EVar "n") "Names"; EStr #"."]])]); ([ECst
    "FunctionExpressionType"], [SExpr (ECall (ESel (EVar "buf") "WriteString") [ESel (EVar "n") "Name"]); SRange "_"
    "v" (ESel (EVar "n") "Params") [SExpr (ECall (ESel (EVar "buf") "WriteString") [EStr #","]); SExpr (ECall (ESel
    (EVar "buf") "WriteString") [ECall (ESel (EVar "v") "String") []])]])] [SExpr (ECall (ESel (EVar "buf")
    "WriteString") [EStr #"unknown"])]; SExpr (ECall (ESel (EVar "buf") "WriteString") [EStr #")"]); SReturn [ECall
    (ESel (EVar "buf") "String") []]].
(** Build, miniquery/node.go:140-197 *)
Definition mini_Build : fundef :=
    Fundef ["n"] [] [SDef ["buf"] (ELit "strings.Builder" []); SDef ["visit"] ENil; SClosure "visit" ["node"]
    [SSwitch (ESel (EVar "node") "Type") [([ECst "NotExpressionType"], [SExpr (ECall (ESel (EVar "buf")
    "WriteString") [EStr #"not "]); SExpr (ECall (EVar "visit") [ESel (EVar "node") "Expression"])]); ([ECst
    "BetweenExpressionType"], [SExpr (ECall (EVar "visit") [ESel (EVar "node") "Left"]); SExpr (ECall (ESel (EVar
    "buf") "WriteString") [EStr #" "]); SExpr (ECall (EVar "visit") [ESel (EVar "node") "Op"]); SExpr (ECall (ESel
    (EVar "buf") "WriteString") [EStr #" "]); SExpr (ECall (EVar "visit") [EIndex (ESel (EVar "node") "Params") (EInt
    0)]); SExpr (ECall (ESel (EVar "buf") "WriteString") [EStr #" and "]); SExpr (ECall (EVar "visit") [EIndex (ESel
    (EVar "node") "Params") (EInt 1)])]); ([ECst "PredicatesExpressionType"], [SFall]); ([ECst
    "LogicExpressionType"], [SFall]); ([ECst "CompareExpressionType"], [SExpr (ECall (EVar "visit") [ESel (EVar
    "node") "Left"]); SExpr (ECall (ESel (EVar "buf") "WriteRune") [EStr #" "]); SExpr (ECall (EVar "visit") [ESel
    (EVar "node") "Op"]); SIf (EBin "!=" (ESel (EVar "node") "Right") ENil) [SExpr (ECall (ESel (EVar "buf")
    "WriteRune") [EStr #" "]); SExpr (ECall (EVar "visit") [ESel (EVar "node") "Right"])] []]); ([ECst
    "ParenthesesExpressionType"], [SExpr (ECall (ESel (EVar "buf") "WriteRune") [EStr #"("]); SExpr (ECall (EVar
    "visit") [ESel (EVar "node") "Expression"]); SExpr (ECall (ESel (EVar "buf") "WriteRune") [EStr #")"])]); ([ECst
    "OperationNodeType"], [SExpr (ECall (ESel (EVar "buf") "WriteString") [ECall (EFn "printPretty") [ESel (EVar
    "node") "Operation"]])]); ([ECst "IdentifierNodeType"], [SExpr (ECall (ESel (EVar "buf") "WriteString") [ESel
    (EVar "node") "Name"])]); ([ECst "ReferenceNodeType"], [SExpr (ECall (ESel (EVar "buf") "WriteString") [ECall
    (EFn "strings.Join") [ESel (EVar "node") "Names"; EStr #"."]])]); ([ECst "FunctionExpressionType"], [SExpr (ECall
    (ESel (EVar "buf") "WriteString") [ESel (EVar "n") "Name"]); SExpr (ECall (ESel (EVar "buf") "WriteRune") [EStr
    #"("]); SDef ["n"] (ECall (EFn "len") [ESel (EVar "node") "Params"]); SRange "i" "v" (ESel (EVar "node")
    "Params") [SExpr (ECall (EVar "visit") [EVar "v"]); SIf (EBin "!=" (EVar "i") (EBin "-" (EVar "n") (EInt 1)))
    [SExpr (ECall (ESel (EVar "buf") "WriteRune") [EStr #","])] []]; SExpr (ECall (ESel (EVar "buf") "WriteRune")
    [EStr #")"])]); ([ECst "ValueNodeType"], [SExpr (ECall (EFn "buildValue") [EVar "buf"; EVar "node"; EVar
    "visit"])])] [SExpr (ECall (ESel (EVar "buf") "WriteString") [EStr #"<unknown type>"])]]; SExpr (ECall (EVar
    "visit") [EVar "n"]); SReturn [ECall (ESel (EVar "buf") "String") []]].
(** buildValue, miniquery/node.go:199-221 *)
Definition mini_buildValue : fundef :=
    Fundef ["buf"; "node"; "visit"] [] [SSwitch (ESel (EVar "node") "ValueType") [([ECst "ArrayValueType"], [SExpr
    (ECall (ESel (EVar "buf") "WriteRune") [EStr #"["]); SDef ["n"] (ECall (EFn "len") [ESel (EVar "node") "Array"]);
    SRange "i" "v" (ESel (EVar "node") "Array") [SExpr (ECall (EVar "visit") [EVar "v"]); SIf (EBin "!=" (EVar "i")
    (EBin "-" (EVar "n") (EInt 1))) [SExpr (ECall (ESel (EVar "buf") "WriteRune") [EStr #","])] []]; SExpr (ECall
    (ESel (EVar "buf") "WriteRune") [EStr #"]"])]); ([ECst "StringValueType"], [SSet ["_"; "_"] (ECall (EFn
    "fmt.Fprintf") [EVar "buf"; EStr #"%q"; ESel (EVar "node") "Str"])])] [SDef ["value"] (ECall (ESel (EVar "node")
    "Value") []); SIf (EBin "==" (EVar "value") ENil) [SExpr (ECall (ESel (EVar "buf") "WriteString") [EStr
    #"null"])] [SSet ["_"; "_"] (ECall (EFn "fmt.Fprint") [EVar "buf"; EVar "value"])]]].
(** printPretty, miniquery/node.go:261-266 *)
Definition mini_printPretty : fundef :=
    Fundef ["s"] [] [SBlock [SDef ["v"; "ok"] (ELookup "pretties" (EVar "s")); SIf (EVar "ok") [SReturn [EVar "v"]]
    []]; SReturn [EVar "s"]].
(** pretties, miniquery/node.go:247-259 *)
Definition mini_map_pretties : list (expr * expr) :=
    [(EStr #"gte", EStr #">="); (EStr #"gt", EStr #">"); (EStr #"eq", EStr #"=="); (EStr #"neq", EStr #"!="); (EStr
    #"lt", EStr #"<"); (EStr #"lte", EStr #"<="); (EStr #"and", EStr #"&&"); (EStr #"or", EStr #"||"); (EStr
    #"isnull", EStr #"is null"); (EStr #"isnotnull", EStr #"is not null"); (EStr #"notin", EStr #"not in")].
(** type Node struct, miniquery/node.go:36-55: names and types of the fields *)
Definition mini_type_Node : list (string * string) :=
    [("Type", "NodeType"); ("ValueType", "ValueType"); ("Int", "int"); ("Bool", "bool"); ("Str", "string"); ("Float",
    "float64"); ("Array", "[]*Node"); ("Operation", "OpType"); ("Name", "string"); ("Names", "[]string");
    ("Expression", "*Node"); ("Left", "*Node"); ("Op", "*Node"); ("Right", "*Node"); ("Params", "[]*Node")].
(** Join, miniquery/join.go:5-25 *)
Definition mini_Join : fundef :=
    Fundef ["s"] [] [SSwitch (ECall (EFn "len") [EVar "s"]) [([EInt 0], [SReturn [EStr #""]]); ([EInt 1], [SReturn
    [EIndex (EVar "s") (EInt 0)]])] []; SDef ["sb"] (ELit "strings.Builder" []); SRange "_" "v" (EVar "s") [SIf (EBin
    "==" (ECall (EFn "len") [ECall (EFn "strings.TrimSpace") [EVar "v"]]) (EInt 0)) [SContinue] []; SIf (EBin "!="
    (ECall (ESel (EVar "sb") "Len") []) (EInt 0)) [SExpr (ECall (ESel (EVar "sb") "WriteString") [EStr #" and "])]
    []; SExpr (ECall (ESel (EVar "sb") "WriteString") [EStr #"("]); SExpr (ECall (ESel (EVar "sb") "WriteString")
    [EVar "v"]); SExpr (ECall (ESel (EVar "sb") "WriteString") [EStr #")"])]; SReturn [ECall (ESel (EVar "sb")
    "String") []]].
(** Parse, miniquery/parse.go:3-16 *)
Definition mini_Parse : fundef :=
    Fundef ["s"] [] [SDef ["p"] (ELit "MiniQueryPeg" [("Tree", ELit "Tree" []); ("Buffer", EVar "s")]); SBlock [SDef
    ["err"] (ECall (ESel (EVar "p") "Init") []); SIf (EBin "!=" (EVar "err") ENil) [SReturn [ENil; EVar "err"]] []];
    SBlock [SDef ["err"] (ECall (ESel (EVar "p") "Parse") []); SIf (EBin "!=" (EVar "err") ENil) [SReturn [ENil; EVar
    "err"]] []]; SExpr (ECall (ESel (EVar "p") "Execute") []); SIf (EBin "!=" (ECall (EFn "len") [ESel (EVar "p")
    "Errors"]) (EInt 0)) [SReturn [ENil; EIndex (ESel (EVar "p") "Errors") (EInt 0)]] []; SReturn [ECall (ESel (EVar
    "p") "Pop") []; ENil]].
(** the functions by name *)
Definition mini_table : list (string * fundef) :=
    [("NormalizeOperation", mini_NormalizeOperation); ("Tree.Push", mini_Tree_Push); ("Tree.Pop", mini_Tree_Pop);
    ("Tree.PopIdentifierReference", mini_Tree_PopIdentifierReference); ("Tree.PopFunction", mini_Tree_PopFunction);
    ("Tree.PopBetween", mini_Tree_PopBetween); ("Tree.PopPredicate", mini_Tree_PopPredicate); ("Tree.PopLogic",
    mini_Tree_PopLogic); ("Tree.PopCompare", mini_Tree_PopCompare); ("Tree.PopParentheses",
    mini_Tree_PopParentheses); ("Tree.PopMark", mini_Tree_PopMark); ("Tree.AddMark", mini_Tree_AddMark);
    ("Tree.popMarked", mini_Tree_popMarked); ("Tree.PopArray", mini_Tree_PopArray); ("Tree.AddOperation",
    mini_Tree_AddOperation); ("Tree.AddCompare", mini_Tree_AddCompare); ("Tree.AddLogic", mini_Tree_AddLogic);
    ("Tree.PopNot", mini_Tree_PopNot); ("Tree.AddMatch", mini_Tree_AddMatch); ("Tree.AddName", mini_Tree_AddName);
    ("Tree.AddError", mini_Tree_AddError); ("Tree.AddString", mini_Tree_AddString); ("Tree.AddFloat",
    mini_Tree_AddFloat); ("Tree.AddNull", mini_Tree_AddNull); ("Tree.AddBoolean", mini_Tree_AddBoolean);
    ("Tree.AddInteger", mini_Tree_AddInteger); ("Node.Value", mini_Node_Value); ("Node.IsValue", mini_Node_IsValue);
    ("Node.IsExpression", mini_Node_IsExpression); ("Node.String", mini_Node_String); ("Build", mini_Build);
    ("buildValue", mini_buildValue); ("printPretty", mini_printPretty); ("Join", mini_Join); ("Parse", mini_Parse)].
(** the string constants *)
Definition mini_consts : list (string * list N) :=
    [("ValueNodeType", #"value"); ("OperationNodeType", #"operation"); ("IdentifierNodeType", #"identifier");
    ("ReferenceNodeType", #"reference"); ("PredicatesExpressionType", #"predicates"); ("CompareExpressionType",
    #"compare"); ("LogicExpressionType", #"logic"); ("ParenthesesExpressionType", #"parentheses");
    ("NotExpressionType", #"not"); ("BetweenExpressionType", #"between"); ("FunctionExpressionType", #"function");
    ("IntValueType", #"int"); ("FloatValueType", #"float"); ("BooleanValueType", #"bool"); ("StringValueType",
    #"string"); ("NullValueType", #"null"); ("ArrayValueType", #"array"); ("OpGTE", #"gte"); ("OpGT", #"gt");
    ("OpEQ", #"eq"); ("OpNEQ", #"neq"); ("OpLT", #"lt"); ("OpLTE", #"lte"); ("OpAnd", #"and"); ("OpOr", #"or");
    ("OpBetween", #"between"); ("OpLike", #"like"); ("OpNotLike", #"not like"); ("OpNotBetween", #"not between");
    ("OpIsNull", #"is null"); ("OpIsNotNull", #"is not null"); ("OpNot", #"not"); ("OpIn", #"in"); ("OpNotIn",
    #"not in")].
(** the maps *)
Definition mini_maps : list (string * list (expr * expr)) :=
    [("normalize", mini_map_normalize); ("pretties", mini_map_pretties)].
