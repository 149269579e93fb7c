(** The functions of queryBuilder, gormq/miniquery.go.
    Written by tools/gofunc2v.py: one term of Gox.v for each statement and expression there. *)
From Verif Require Import Base Gox.
Open Scope string_scope.

(** queryBuilder.visitReference, gormq/miniquery.go:114-126 *)
Definition gorm_queryBuilder_visitReference : fundef :=
    Fundef ["qb"; "node"] [("err", ENil)] [SIf (EBin "!=" (ECall (EFn "len") [ESel (EVar "node") "Names"]) (EInt 2))
    [SReturn [ECall (EFn "errors.New") [EStr #"only support join one level"]]] []; SDef ["name"; "err"] (ECall (ESel
    (EVar "qb") "join") [EIndex (ESel (EVar "node") "Names") (EInt 0); EIndex (ESel (EVar "node") "Names") (EInt
    1)]); SIf (EBin "!=" (EVar "err") ENil) [SReturn [EVar "err"]] []; SDef ["quote"] (ESel (EVar "qb") "quote");
    SDef ["buf"] (ESel (EVar "qb") "buf"); SExpr (ECall (EVar "quote") [EVar "buf"; EVar "name"]); SReturn []].
(** queryBuilder.visitIdentifier, gormq/miniquery.go:128-148 *)
Definition gorm_queryBuilder_visitIdentifier : fundef :=
    Fundef ["qb"; "node"] [("err", ENil)] [SDef ["buf"] (ESel (EVar "qb") "buf"); SDef ["mapName"] (ESel (EVar "qb")
    "mapName"); SDef ["quote"] (ESel (EVar "qb") "quote"); SDef ["name"] (ESel (EVar "node") "Name"); SSet ["name";
    "err"] (ECall (EVar "mapName") [EVar "name"]); SIf (EBin "!=" (EVar "err") ENil) [SReturn [EVar "err"]] []; SExpr
    (ECall (EVar "quote") [EVar "buf"; EVar "name"]); SReturn []].
(** queryBuilder.visit, gormq/miniquery.go:150-207 *)
Definition gorm_queryBuilder_visit : fundef :=
    Fundef ["qb"; "node"] [("err", ENil)] [SDef ["buf"] (ESel (EVar "qb") "buf"); SDef ["addValue"] (ESel (EVar "qb")
    "addValue"); SDef ["visit"] (ESel (EVar "qb") "visit"); SSwitch (ESel (EVar "node") "Type") [([ECst
    "OperationNodeType"], [SExpr (ECall (ESel (EVar "buf") "WriteString") [ECall (EFn "normalizeSQL") [ESel (EVar
    "node") "Operation"]])]); ([ECst "ValueNodeType"], [SExpr (ECall (ESel (EVar "buf") "WriteRune") [EStr #"?"]);
    SExpr (ECall (EVar "addValue") [ECall (ESel (EVar "node") "Value") []])]); ([ECst "IdentifierNodeType"], [SSet
    ["err"] (ECall (ESel (EVar "qb") "visitIdentifier") [EVar "node"])]); ([ECst "ReferenceNodeType"], [SSet ["err"]
    (ECall (ESel (EVar "qb") "visitReference") [EVar "node"])]); ([ECst "ParenthesesExpressionType"], [SExpr (ECall
    (ESel (EVar "buf") "WriteRune") [EStr #"("]); SSet ["err"] (ECall (EVar "visit") [ESel (EVar "node")
    "Expression"]); SExpr (ECall (ESel (EVar "buf") "WriteRune") [EStr #")"])]); ([ECst "NotExpressionType"], [SExpr
    (ECall (ESel (EVar "buf") "WriteString") [EStr #"not "]); SSet ["err"] (ECall (EVar "visit") [ESel (EVar "node")
    "Expression"])]); ([ECst "FunctionExpressionType"], [SSet ["err"] (ECall (ESel (EVar "qb") "visitFunction") [EVar
    "node"])]); ([ECst "BetweenExpressionType"], [SSet ["err"] (ECall (EVar "visit") [ESel (EVar "node") "Left"]);
    SIf (EBin "==" (EVar "err") ENil) [SExpr (ECall (ESel (EVar "buf") "WriteRune") [EStr #" "]); SSet ["err"] (ECall
    (EVar "visit") [ESel (EVar "node") "Op"])] []; SIf (EBin "==" (EVar "err") ENil) [SExpr (ECall (ESel (EVar "buf")
    "WriteRune") [EStr #" "]); SSet ["err"] (ECall (EVar "visit") [EIndex (ESel (EVar "node") "Params") (EInt 0)])]
    []; SIf (EBin "==" (EVar "err") ENil) [SExpr (ECall (ESel (EVar "buf") "WriteString") [EStr #" and "]); SSet
    ["err"] (ECall (EVar "visit") [EIndex (ESel (EVar "node") "Params") (EInt 1)])] []]); ([ECst
    "PredicatesExpressionType"], [SFall]); ([ECst "LogicExpressionType"], [SFall]); ([ECst "CompareExpressionType"],
    [SSet ["err"] (ECall (EVar "visit") [ESel (EVar "node") "Left"]); SIf (EBin "==" (EVar "err") ENil) [SExpr (ECall
    (ESel (EVar "buf") "WriteRune") [EStr #" "]); SSet ["err"] (ECall (EVar "visit") [ESel (EVar "node") "Op"])] [];
    SIf (EBin "&&" (EBin "==" (EVar "err") ENil) (EBin "!=" (ESel (EVar "node") "Right") ENil)) [SExpr (ECall (ESel
    (EVar "buf") "WriteRune") [EStr #" "]); SSet ["err"] (ECall (EVar "visit") [ESel (EVar "node") "Right"])] []])]
    [SReturn [ECall (EFn "errors.Errorf") [EStr #"invalid type %q"; ESel (EVar "node") "Type"]]]; SReturn [EVar
    "err"]].
(** queryBuilder.visitFunction, gormq/miniquery.go:209-226 *)
Definition gorm_queryBuilder_visitFunction : fundef :=
    Fundef ["qb"; "node"] [("err", ENil)] [SDef ["buf"] (ESel (EVar "qb") "buf"); SDef ["visit"] (ESel (EVar "qb")
    "visit"); SSwitch (ESel (EVar "node") "Name") [([EStr #"date"], [SExpr (ECall (ESel (EVar "buf") "WriteString")
    [ESel (EVar "node") "Name"]); SExpr (ECall (ESel (EVar "buf") "WriteString") [EStr #"("]); SRange "_" "v" (ESel
    (EVar "node") "Params") [SBlock [SSet ["err"] (ECall (EVar "visit") [EVar "v"]); SIf (EBin "!=" (EVar "err")
    ENil) [SReturn []] []]]; SExpr (ECall (ESel (EVar "buf") "WriteString") [EStr #")"])])] [SSet ["err"] (ECall (EFn
    "fmt.Errorf") [EStr #"unsupported function: %q"; ESel (EVar "node") "Name"])]; SReturn []].
(** normalizeSQL, gormq/miniquery.go:243-248 *)
Definition gorm_normalizeSQL : fundef :=
    Fundef ["s"] [] [SBlock [SDef ["v"; "ok"] (ELookup "normalize" (EVar "s")); SIf (EVar "ok") [SReturn [EVar "v"]]
    []]; SReturn [EVar "s"]].
(** normalize, gormq/miniquery.go:250-259 *)
Definition gorm_map_normalize : list (expr * expr) :=
    [(EStr #"gt", EStr #">"); (EStr #"gte", EStr #">="); (EStr #"eq", EStr #"="); (EStr #"neq", EStr #"<>"); (EStr
    #"lt", EStr #"<"); (EStr #"lte", EStr #"<="); (EStr #"and", EStr #"and"); (EStr #"or", EStr #"or")].
(** type MiniQuery struct, gormq/miniquery.go:14-16: names and types of the fields *)
Definition gorm_type_MiniQuery : list (string * string) :=
    [("Query", "[]string")].
(** type queryBuilder struct, gormq/miniquery.go:106-112: names and types of the fields *)
Definition gorm_type_queryBuilder : list (string * string) :=
    [("buf", "*strings.Builder"); ("addValue", "func"); ("mapName", "func"); ("quote", "func"); ("join", "func")].
(** the functions by name *)
Definition gorm_table : list (string * fundef) :=
    [("queryBuilder.visitReference", gorm_queryBuilder_visitReference); ("queryBuilder.visitIdentifier",
    gorm_queryBuilder_visitIdentifier); ("queryBuilder.visit", gorm_queryBuilder_visit);
    ("queryBuilder.visitFunction", gorm_queryBuilder_visitFunction); ("normalizeSQL", gorm_normalizeSQL)].
(** the string constants *)
Definition gorm_consts : list (string * list N) :=
    [].
(** the maps *)
Definition gorm_maps : list (string * list (expr * expr)) :=
    [("normalize", gorm_map_normalize)].
