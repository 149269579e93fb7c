(** The rule constants and the rule functions of miniquery/miniquery.peg.go, written
    by tools/go2v.py: one statement (GoStmt.v) for each statement there, with the same
    labels and the same numbers of variables. *)
From Verif Require Import Base Peg GoStmt.

(** the constants of type pegRule in their order, iota: 0 is ruleUnknown *)
Definition go_constants : list tokrule :=
  [TRule rGrammar; TRule rExpression; TRule rLogicExpression; TRule rNotExpression; TRule rCompareExpression; TRule rCompareInExpression; TRule rPredicateExpression; TRule rBetweenExpression; TRule rPrimaryExpression; TRule rArgumentList; TRule rArgument; TRule rReference; TRule rIdentifierReference; TRule rJsonReference; TRule rIdentifier; TRule rCompare; TRule rLogic; TRule rMatch; TRule rValue; TRule rArray; TRule rLiteral; TRule rInteger; TRule rBoolean; TRule rNull; TRule rString; TRule rSpaceComment; TRule r_; TRule r__; TRule rComment; TRule rSpace; TRule rEndOfLine; TRule rEndOfFile; TAct 0; TAct 1; TAct 2; TPegText; TAct 3; TAct 4; TAct 5; TAct 6; TAct 7; TAct 8; TAct 9; TAct 10; TAct 11; TAct 12; TAct 13; TAct 14; TAct 15; TAct 16; TAct 17; TAct 18; TAct 19; TAct 20; TAct 21; TAct 22; TAct 23; TAct 24; TAct 25; TAct 26; TAct 27; TAct 28; TAct 29].

(** [1], ruleGrammar, miniquery.peg.go:524-546 *)
Definition go1 : list stmt :=
    [SSave 0; SBlock [SSavePos 1; SCall (TRule r_) 0; SCall (TRule rExpression) 0; SCall (TRule r_) 0; SCall (TRule rEndOfFile) 0; SAdd (TRule
    rGrammar) 1]; SReturn true; SLabel 0; SRestore 0; SReturn false].
(** [2], ruleExpression, miniquery.peg.go:548-561 *)
Definition go2 : list stmt :=
    [SSave 2; SBlock [SSavePos 3; SCall (TRule rLogicExpression) 2; SAdd (TRule rExpression) 3]; SReturn true; SLabel 2; SRestore 2; SReturn false].
(** [3], ruleLogicExpression, miniquery.peg.go:563-592 *)
Definition go3 : list stmt :=
    [SSave 4; SBlock [SSavePos 5; SCall (TRule rNotExpression) 4; SLabel 6; SBlock [SSave 7; SCall (TRule rLogic) 7; SCall (TRule rNotExpression) 7;
    SCall (TAct 0) 7; SGoto 6; SLabel 7; SRestore 7]; SAdd (TRule rLogicExpression) 5]; SReturn true; SLabel 4; SRestore 4; SReturn false].
(** [4], ruleNotExpression, miniquery.peg.go:594-671 *)
Definition go4 : list stmt :=
    [SSave 8; SBlock [SSavePos 9; SBlock [SSave 10; SCall (TRule rCompareExpression) 11; SGoto 10; SLabel 11; SRestore 10; SCall (TRule r_) 8; SBlock
    [SSave 12; SIfNot 110 13; SInc; SGoto 12; SLabel 13; SRestore 12; SIfNot 78 8; SInc]; SLabel 12; SBlock [SSave 14; SIfNot 111 15; SInc; SGoto 14;
    SLabel 15; SRestore 14; SIfNot 79 8; SInc]; SLabel 14; SBlock [SSave 16; SIfNot 116 17; SInc; SGoto 16; SLabel 17; SRestore 16; SIfNot 84 8;
    SInc]; SLabel 16; SCall (TRule r__) 8; SCall (TRule rCompareExpression) 8; SCall (TAct 1) 8]; SLabel 10; SAdd (TRule rNotExpression) 9]; SReturn
    true; SLabel 8; SRestore 8; SReturn false].
(** [5], ruleCompareExpression, miniquery.peg.go:673-702 *)
Definition go5 : list stmt :=
    [SSave 18; SBlock [SSavePos 19; SCall (TRule rCompareInExpression) 18; SLabel 20; SBlock [SSave 21; SCall (TRule rCompare) 21; SCall (TRule
    rCompareInExpression) 21; SCall (TAct 2) 21; SGoto 20; SLabel 21; SRestore 21]; SAdd (TRule rCompareExpression) 19]; SReturn true; SLabel 18;
    SRestore 18; SReturn false].
(** [6], ruleCompareInExpression, miniquery.peg.go:704-858 *)
Definition go6 : list stmt :=
    [SSave 22; SBlock [SSavePos 23; SCall (TRule rPredicateExpression) 22; SBlock [SSave 24; SCall (TRule r_) 24; SBlock [SSavePos 26; SBlock [SSave
    27; SBlock [SSave 29; SIfNot 105 30; SInc; SGoto 29; SLabel 30; SRestore 29; SIfNot 73 28; SInc]; SLabel 29; SBlock [SSave 31; SIfNot 110 32;
    SInc; SGoto 31; SLabel 32; SRestore 31; SIfNot 78 28; SInc]; SLabel 31; SGoto 27; SLabel 28; SRestore 27; SBlock [SSave 33; SIfNot 110 34; SInc;
    SGoto 33; SLabel 34; SRestore 33; SIfNot 78 24; SInc]; SLabel 33; SBlock [SSave 35; SIfNot 111 36; SInc; SGoto 35; SLabel 36; SRestore 35; SIfNot
    79 24; SInc]; SLabel 35; SBlock [SSave 37; SIfNot 116 38; SInc; SGoto 37; SLabel 38; SRestore 37; SIfNot 84 24; SInc]; SLabel 37; SCall (TRule
    r__) 24; SBlock [SSave 39; SIfNot 105 40; SInc; SGoto 39; SLabel 40; SRestore 39; SIfNot 73 24; SInc]; SLabel 39; SBlock [SSave 41; SIfNot 110 42;
    SInc; SGoto 41; SLabel 42; SRestore 41; SIfNot 78 24; SInc]; SLabel 41]; SLabel 27; SAdd TPegText 26]; SCall (TRule r_) 24; SCall (TAct 3) 24;
    SCall (TRule rArray) 24; SCall (TAct 4) 24; SGoto 25; SLabel 24; SRestore 24]; SLabel 25; SAdd (TRule rCompareInExpression) 23]; SReturn true;
    SLabel 22; SRestore 22; SReturn false].
(** [7], rulePredicateExpression, miniquery.peg.go:860-886 *)
Definition go7 : list stmt :=
    [SSave 43; SBlock [SSavePos 44; SCall (TRule rBetweenExpression) 43; SBlock [SSave 45; SCall (TRule rMatch) 45; SCall (TAct 5) 45; SGoto 46;
    SLabel 45; SRestore 45]; SLabel 46; SAdd (TRule rPredicateExpression) 44]; SReturn true; SLabel 43; SRestore 43; SReturn false].
(** [8], ruleBetweenExpression, miniquery.peg.go:888-1101 *)
Definition go8 : list stmt :=
    [SSave 47; SBlock [SSavePos 48; SCall (TRule rPrimaryExpression) 47; SBlock [SSave 49; SCall (TRule r_) 49; SBlock [SSavePos 51; SBlock [SSave 52;
    SBlock [SSave 54; SIfNot 110 55; SInc; SGoto 54; SLabel 55; SRestore 54; SIfNot 78 52; SInc]; SLabel 54; SBlock [SSave 56; SIfNot 111 57; SInc;
    SGoto 56; SLabel 57; SRestore 56; SIfNot 79 52; SInc]; SLabel 56; SBlock [SSave 58; SIfNot 116 59; SInc; SGoto 58; SLabel 59; SRestore 58; SIfNot
    84 52; SInc]; SLabel 58; SCall (TRule r__) 52; SGoto 53; SLabel 52; SRestore 52]; SLabel 53; SIfNot 98 49; SInc; SIfNot 101 49; SInc; SIfNot 116
    49; SInc; SIfNot 119 49; SInc; SIfNot 101 49; SInc; SIfNot 101 49; SInc; SIfNot 110 49; SInc; SAdd TPegText 51]; SCall (TAct 6) 49; SCall (TRule
    r_) 49; SBlock [SSave 60; SCall (TRule rValue) 61; SCall (TRule r_) 61; SBlock [SSave 62; SIfNot 97 63; SInc; SGoto 62; SLabel 63; SRestore 62;
    SIfNot 65 61; SInc]; SLabel 62; SBlock [SSave 64; SIfNot 110 65; SInc; SGoto 64; SLabel 65; SRestore 64; SIfNot 78 61; SInc]; SLabel 64; SBlock
    [SSave 66; SIfNot 100 67; SInc; SGoto 66; SLabel 67; SRestore 66; SIfNot 68 61; SInc]; SLabel 66; SCall (TRule r_) 61; SCall (TRule rValue) 61;
    SGoto 60; SLabel 61; SRestore 60; SIfNot 91 49; SInc; SCall (TRule r_) 49; SCall (TRule rValue) 49; SCall (TRule r_) 49; SIfNot 44 49; SInc; SCall
    (TRule r_) 49; SCall (TRule rValue) 49; SCall (TRule r_) 49; SIfNot 93 49; SInc]; SLabel 60; SCall (TAct 7) 49; SGoto 50; SLabel 49; SRestore 49];
    SLabel 50; SAdd (TRule rBetweenExpression) 48]; SReturn true; SLabel 47; SRestore 47; SReturn false].
(** [9], rulePrimaryExpression, miniquery.peg.go:1103-1161 *)
Definition go9 : list stmt :=
    [SSave 68; SBlock [SSavePos 69; SBlock [SSave 70; SIfNot 40 71; SInc; SCall (TRule r_) 71; SCall (TRule rExpression) 71; SCall (TRule r_) 71;
    SIfNot 41 71; SInc; SCall (TAct 8) 71; SGoto 70; SLabel 71; SRestore 70; SCall (TRule rValue) 72; SGoto 70; SLabel 72; SRestore 70; SCall (TRule
    rIdentifier) 73; SCall (TRule rArgumentList) 73; SCall (TAct 9) 73; SGoto 70; SLabel 73; SRestore 70; SCall (TRule rReference) 68]; SLabel 70;
    SAdd (TRule rPrimaryExpression) 69]; SReturn true; SLabel 68; SRestore 68; SReturn false].
(** [10], ruleArgumentList, miniquery.peg.go:1163-1237 *)
Definition go10 : list stmt :=
    [SSave 74; SBlock [SSavePos 75; SIfNot 40 74; SInc; SCall (TRule r_) 74; SCall (TAct 10) 74; SBlock [SSave 76; SCall (TRule rArgument) 76; SLabel
    78; SBlock [SSave 79; SCall (TRule r_) 79; SIfNot 44 79; SInc; SCall (TRule r_) 79; SCall (TRule rArgument) 79; SGoto 78; SLabel 79; SRestore 79];
    SCall (TRule r_) 76; SBlock [SSave 80; SIfNot 44 80; SInc; SGoto 81; SLabel 80; SRestore 80]; SLabel 81; SGoto 77; SLabel 76; SRestore 76]; SLabel
    77; SCall (TRule r_) 74; SIfNot 41 74; SInc; SCall (TAct 11) 74; SAdd (TRule rArgumentList) 75]; SReturn true; SLabel 74; SRestore 74; SReturn
    false].
(** [11], ruleArgument, miniquery.peg.go:1239-1252 *)
Definition go11 : list stmt :=
    [SSave 82; SBlock [SSavePos 83; SCall (TRule rExpression) 82; SAdd (TRule rArgument) 83]; SReturn true; SLabel 82; SRestore 82; SReturn false].
(** [12], ruleReference, miniquery.peg.go:1254-1283 *)
Definition go12 : list stmt :=
    [SSave 84; SBlock [SSavePos 85; SBlock [SSave 86; SCall (TRule rIdentifierReference) 87; SGoto 86; SLabel 87; SRestore 86; SCall (TRule
    rJsonReference) 88; SGoto 86; SLabel 88; SRestore 86; SCall (TRule rIdentifier) 84]; SLabel 86; SAdd (TRule rReference) 85]; SReturn true; SLabel
    84; SRestore 84; SReturn false].
(** [13], ruleIdentifierReference, miniquery.peg.go:1285-1325 *)
Definition go13 : list stmt :=
    [SSave 89; SBlock [SSavePos 90; SCall (TAct 12) 89; SCall (TRule rIdentifier) 89; SIfNot 46 89; SInc; SCall (TRule rIdentifier) 89; SLabel 91;
    SBlock [SSave 92; SIfNot 46 92; SInc; SCall (TRule rIdentifier) 92; SGoto 91; SLabel 92; SRestore 92]; SCall (TAct 13) 89; SAdd (TRule
    rIdentifierReference) 90]; SReturn true; SLabel 89; SRestore 89; SReturn false].
(** [14], ruleJsonReference, miniquery.peg.go:1327-1361 *)
Definition go14 : list stmt :=
    [SSave 93; SBlock [SSavePos 94; SCall (TRule rIdentifier) 93; SIfNot 45 93; SInc; SIfNot 62 93; SInc; SBlock [SSave 95; SCall (TRule
    rJsonReference) 96; SGoto 95; SLabel 96; SRestore 95; SCall (TRule rIdentifier) 93]; SLabel 95; SAdd (TRule rJsonReference) 94]; SReturn true;
    SLabel 93; SRestore 93; SReturn false].
(** [15], ruleIdentifier, miniquery.peg.go:1363-1478 *)
Definition go15 : list stmt :=
    [SSave 97; SBlock [SSavePos 98; SBlock [SSave 99; SBlock [SSave 100; SIfNot 110 101; SInc; SGoto 100; SLabel 101; SRestore 100; SIfNot 78 99;
    SInc]; SLabel 100; SBlock [SSave 102; SIfNot 111 103; SInc; SGoto 102; SLabel 103; SRestore 102; SIfNot 79 99; SInc]; SLabel 102; SBlock [SSave
    104; SIfNot 116 105; SInc; SGoto 104; SLabel 105; SRestore 104; SIfNot 84 99; SInc]; SLabel 104; SGoto 97; SLabel 99; SRestore 99]; SBlock
    [SSavePos 106; SBlock [SSave 107; SIfNotIn 97 122 108; SInc; SGoto 107; SLabel 108; SRestore 107; SIfNotIn 65 90 97; SInc]; SLabel 107; SLabel
    109; SBlock [SSave 110; SBlock [SSwitch [([48; 49; 50; 51; 52; 53; 54; 55; 56; 57]%N, [SIfNotIn 48 57 110; SInc]); ([65; 66; 67; 68; 69; 70; 71;
    72; 73; 74; 75; 76; 77; 78; 79; 80; 81; 82; 83; 84; 85; 86; 87; 88; 89; 90]%N, [SIfNotIn 65 90 110; SInc]); ([95]%N, [SIfNot 95 110; SInc])]
    [SIfNotIn 97 122 110; SInc]]; SGoto 109; SLabel 110; SRestore 110]; SAdd TPegText 106]; SCall (TAct 14) 97; SAdd (TRule rIdentifier) 98]; SReturn
    true; SLabel 97; SRestore 97; SReturn false].
(** [16], ruleCompare, miniquery.peg.go:1480-2039 *)
Definition go16 : list stmt :=
    [SSave 112; SBlock [SSavePos 113; SBlock [SSave 114; SCall (TRule r_) 115; SBlock [SSavePos 116; SBlock [SSave 117; SIfNot 62 118; SInc; SIfNot 61
    118; SInc; SGoto 117; SLabel 118; SRestore 117; SIfNot 60 119; SInc; SIfNot 61 119; SInc; SGoto 117; SLabel 119; SRestore 117; SIfNot 61 120;
    SInc; SIfNot 61 120; SInc; SGoto 117; SLabel 120; SRestore 117; SIfNot 60 121; SInc; SGoto 117; SLabel 121; SRestore 117; SBlock [SSwitch
    [([61]%N, [SIfNot 61 115; SInc]); ([60]%N, [SIfNot 60 115; SInc; SIfNot 62 115; SInc]); ([62]%N, [SIfNot 62 115; SInc])] [SIfNot 33 115; SInc;
    SIfNot 61 115; SInc]]]; SLabel 117; SAdd TPegText 116]; SCall (TRule r_) 115; SCall (TAct 15) 115; SGoto 114; SLabel 115; SRestore 114; SCall
    (TRule r_) 123; SBlock [SSavePos 124; SBlock [SSave 125; SBlock [SSave 127; SIfNot 103 128; SInc; SGoto 127; SLabel 128; SRestore 127; SIfNot 71
    126; SInc]; SLabel 127; SBlock [SSave 129; SIfNot 116 130; SInc; SGoto 129; SLabel 130; SRestore 129; SIfNot 84 126; SInc]; SLabel 129; SGoto 125;
    SLabel 126; SRestore 125; SBlock [SSave 132; SIfNot 108 133; SInc; SGoto 132; SLabel 133; SRestore 132; SIfNot 76 131; SInc]; SLabel 132; SBlock
    [SSave 134; SIfNot 116 135; SInc; SGoto 134; SLabel 135; SRestore 134; SIfNot 84 131; SInc]; SLabel 134; SGoto 125; SLabel 131; SRestore 125;
    SBlock [SSwitch [([78; 110]%N, [SBlock [SSave 137; SIfNot 110 138; SInc; SGoto 137; SLabel 138; SRestore 137; SIfNot 78 123; SInc]; SLabel 137;
    SBlock [SSave 139; SIfNot 101 140; SInc; SGoto 139; SLabel 140; SRestore 139; SIfNot 69 123; SInc]; SLabel 139; SBlock [SSave 141; SIfNot 113 142;
    SInc; SGoto 141; SLabel 142; SRestore 141; SIfNot 81 123; SInc]; SLabel 141; SBreak]); ([69; 101]%N, [SBlock [SSave 143; SIfNot 101 144; SInc;
    SGoto 143; SLabel 144; SRestore 143; SIfNot 69 123; SInc]; SLabel 143; SBlock [SSave 145; SIfNot 113 146; SInc; SGoto 145; SLabel 146; SRestore
    145; SIfNot 81 123; SInc]; SLabel 145; SBreak]); ([76; 108]%N, [SBlock [SSave 147; SIfNot 108 148; SInc; SGoto 147; SLabel 148; SRestore 147;
    SIfNot 76 123; SInc]; SLabel 147; SBlock [SSave 149; SIfNot 116 150; SInc; SGoto 149; SLabel 150; SRestore 149; SIfNot 84 123; SInc]; SLabel 149;
    SBlock [SSave 151; SIfNot 101 152; SInc; SGoto 151; SLabel 152; SRestore 151; SIfNot 69 123; SInc]; SLabel 151; SBreak])] [SBlock [SSave 153;
    SIfNot 103 154; SInc; SGoto 153; SLabel 154; SRestore 153; SIfNot 71 123; SInc]; SLabel 153; SBlock [SSave 155; SIfNot 116 156; SInc; SGoto 155;
    SLabel 156; SRestore 155; SIfNot 84 123; SInc]; SLabel 155; SBlock [SSave 157; SIfNot 101 158; SInc; SGoto 157; SLabel 158; SRestore 157; SIfNot
    69 123; SInc]; SLabel 157; SBreak]]]; SLabel 125; SAdd TPegText 124]; SCall (TRule r_) 123; SCall (TAct 16) 123; SGoto 114; SLabel 123; SRestore
    114; SCall (TRule r_) 112; SBlock [SSavePos 159; SBlock [SSave 160; SBlock [SSave 162; SIfNot 108 163; SInc; SGoto 162; SLabel 163; SRestore 162;
    SIfNot 76 161; SInc]; SLabel 162; SBlock [SSave 164; SIfNot 105 165; SInc; SGoto 164; SLabel 165; SRestore 164; SIfNot 73 161; SInc]; SLabel 164;
    SBlock [SSave 166; SIfNot 107 167; SInc; SGoto 166; SLabel 167; SRestore 166; SIfNot 75 161; SInc]; SLabel 166; SBlock [SSave 168; SIfNot 101 169;
    SInc; SGoto 168; SLabel 169; SRestore 168; SIfNot 69 161; SInc]; SLabel 168; SGoto 160; SLabel 161; SRestore 160; SBlock [SSave 170; SIfNot 110
    171; SInc; SGoto 170; SLabel 171; SRestore 170; SIfNot 78 112; SInc]; SLabel 170; SBlock [SSave 172; SIfNot 111 173; SInc; SGoto 172; SLabel 173;
    SRestore 172; SIfNot 79 112; SInc]; SLabel 172; SBlock [SSave 174; SIfNot 116 175; SInc; SGoto 174; SLabel 175; SRestore 174; SIfNot 84 112;
    SInc]; SLabel 174; SCall (TRule r__) 112; SBlock [SSave 176; SIfNot 108 177; SInc; SGoto 176; SLabel 177; SRestore 176; SIfNot 76 112; SInc];
    SLabel 176; SBlock [SSave 178; SIfNot 105 179; SInc; SGoto 178; SLabel 179; SRestore 178; SIfNot 73 112; SInc]; SLabel 178; SBlock [SSave 180;
    SIfNot 107 181; SInc; SGoto 180; SLabel 181; SRestore 180; SIfNot 75 112; SInc]; SLabel 180; SBlock [SSave 182; SIfNot 101 183; SInc; SGoto 182;
    SLabel 183; SRestore 182; SIfNot 69 112; SInc]; SLabel 182]; SLabel 160; SAdd TPegText 159]; SCall (TRule r_) 112; SCall (TAct 17) 112]; SLabel
    114; SAdd (TRule rCompare) 113]; SReturn true; SLabel 112; SRestore 112; SReturn false].
(** [17], ruleLogic, miniquery.peg.go:2041-2189 *)
Definition go17 : list stmt :=
    [SSave 184; SBlock [SSavePos 185; SBlock [SSave 186; SCall (TRule r_) 187; SBlock [SSavePos 188; SBlock [SSave 189; SBlock [SSave 191; SIfNot 97
    192; SInc; SGoto 191; SLabel 192; SRestore 191; SIfNot 65 190; SInc]; SLabel 191; SBlock [SSave 193; SIfNot 110 194; SInc; SGoto 193; SLabel 194;
    SRestore 193; SIfNot 78 190; SInc]; SLabel 193; SBlock [SSave 195; SIfNot 100 196; SInc; SGoto 195; SLabel 196; SRestore 195; SIfNot 68 190;
    SInc]; SLabel 195; SGoto 189; SLabel 190; SRestore 189; SBlock [SSave 197; SIfNot 111 198; SInc; SGoto 197; SLabel 198; SRestore 197; SIfNot 79
    187; SInc]; SLabel 197; SBlock [SSave 199; SIfNot 114 200; SInc; SGoto 199; SLabel 200; SRestore 199; SIfNot 82 187; SInc]; SLabel 199]; SLabel
    189; SAdd TPegText 188]; SCall (TRule r_) 187; SCall (TAct 18) 187; SGoto 186; SLabel 187; SRestore 186; SCall (TRule r_) 184; SBlock [SSavePos
    201; SBlock [SSave 202; SIfNot 38 203; SInc; SIfNot 38 203; SInc; SGoto 202; SLabel 203; SRestore 202; SIfNot 124 184; SInc; SIfNot 124 184;
    SInc]; SLabel 202; SAdd TPegText 201]; SCall (TRule r_) 184; SCall (TAct 19) 184]; SLabel 186; SAdd (TRule rLogic) 185]; SReturn true; SLabel 184;
    SRestore 184; SReturn false].
(** [18], ruleMatch, miniquery.peg.go:2191-2436 *)
Definition go18 : list stmt :=
    [SSave 204; SBlock [SSavePos 205; SCall (TRule r__) 204; SBlock [SSavePos 206; SBlock [SSave 207; SIfNot 105 208; SInc; SIfNot 115 208; SInc;
    SIfNot 110 208; SInc; SIfNot 117 208; SInc; SIfNot 108 208; SInc; SIfNot 108 208; SInc; SGoto 207; SLabel 208; SRestore 207; SIfNot 110 209; SInc;
    SIfNot 111 209; SInc; SIfNot 116 209; SInc; SIfNot 110 209; SInc; SIfNot 117 209; SInc; SIfNot 108 209; SInc; SIfNot 108 209; SInc; SGoto 207;
    SLabel 209; SRestore 207; SIfNot 105 210; SInc; SIfNot 115 210; SInc; SCall (TRule r__) 210; SBlock [SSwitch [([110]%N, [SIfNot 110 210; SInc;
    SIfNot 117 210; SInc; SIfNot 108 210; SInc; SIfNot 108 210; SInc]); ([102]%N, [SIfNot 102 210; SInc; SIfNot 97 210; SInc; SIfNot 108 210; SInc;
    SIfNot 115 210; SInc; SIfNot 101 210; SInc])] [SIfNot 116 210; SInc; SIfNot 114 210; SInc; SIfNot 117 210; SInc; SIfNot 101 210; SInc]]; SGoto
    207; SLabel 210; SRestore 207; SIfNot 105 204; SInc; SIfNot 115 204; SInc; SCall (TRule r__) 204; SIfNot 110 204; SInc; SIfNot 111 204; SInc;
    SIfNot 116 204; SInc; SCall (TRule r__) 204; SBlock [SSwitch [([110]%N, [SIfNot 110 204; SInc; SIfNot 117 204; SInc; SIfNot 108 204; SInc; SIfNot
    108 204; SInc]); ([102]%N, [SIfNot 102 204; SInc; SIfNot 97 204; SInc; SIfNot 108 204; SInc; SIfNot 115 204; SInc; SIfNot 101 204; SInc])] [SIfNot
    116 204; SInc; SIfNot 114 204; SInc; SIfNot 117 204; SInc; SIfNot 101 204; SInc]]]; SLabel 207; SAdd TPegText 206]; SCall (TRule r_) 204; SCall
    (TAct 20) 204; SAdd (TRule rMatch) 205]; SReturn true; SLabel 204; SRestore 204; SReturn false].
(** [19], ruleValue, miniquery.peg.go:2438-2461 *)
Definition go19 : list stmt :=
    [SSave 213; SBlock [SSavePos 214; SBlock [SSave 215; SCall (TRule rLiteral) 216; SGoto 215; SLabel 216; SRestore 215; SCall (TRule rArray) 213];
    SLabel 215; SAdd (TRule rValue) 214]; SReturn true; SLabel 213; SRestore 213; SReturn false].
(** [20], ruleArray, miniquery.peg.go:2463-2608 *)
Definition go20 : list stmt :=
    [SSave 217; SBlock [SSavePos 218; SBlock [SSave 219; SIfNot 91 220; SInc; SCall (TAct 21) 220; SCall (TRule r_) 220; SBlock [SSave 221; SCall
    (TRule rLiteral) 221; SLabel 223; SBlock [SSave 224; SCall (TRule r_) 224; SIfNot 44 224; SInc; SCall (TRule r_) 224; SCall (TRule rLiteral) 224;
    SGoto 223; SLabel 224; SRestore 224]; SCall (TRule r_) 221; SBlock [SSave 225; SIfNot 44 225; SInc; SGoto 226; SLabel 225; SRestore 225]; SLabel
    226; SGoto 222; SLabel 221; SRestore 221]; SLabel 222; SCall (TRule r_) 220; SIfNot 93 220; SInc; SCall (TAct 22) 220; SGoto 219; SLabel 220;
    SRestore 219; SIfNot 40 217; SInc; SCall (TAct 23) 217; SCall (TRule r_) 217; SBlock [SSave 227; SCall (TRule rLiteral) 227; SLabel 229; SBlock
    [SSave 230; SCall (TRule r_) 230; SIfNot 44 230; SInc; SCall (TRule r_) 230; SCall (TRule rLiteral) 230; SGoto 229; SLabel 230; SRestore 230];
    SCall (TRule r_) 227; SBlock [SSave 231; SIfNot 44 231; SInc; SGoto 232; SLabel 231; SRestore 231]; SLabel 232; SGoto 228; SLabel 227; SRestore
    227]; SLabel 228; SCall (TRule r_) 217; SIfNot 41 217; SInc; SCall (TAct 24) 217]; SLabel 219; SAdd (TRule rArray) 218]; SReturn true; SLabel 217;
    SRestore 217; SReturn false].
(** [21], ruleLiteral, miniquery.peg.go:2610-2641 *)
Definition go21 : list stmt :=
    [SSave 233; SBlock [SSavePos 234; SBlock [SSwitch [([78; 110]%N, [SCall (TRule rNull) 233]); ([70; 84; 102; 116]%N, [SCall (TRule rBoolean) 233]);
    ([34; 39]%N, [SCall (TRule rString) 233])] [SCall (TRule rInteger) 233]]; SAdd (TRule rLiteral) 234]; SReturn true; SLabel 233; SRestore 233;
    SReturn false].
(** [22], ruleInteger, miniquery.peg.go:2643-2686 *)
Definition go22 : list stmt :=
    [SSave 236; SBlock [SSavePos 237; SBlock [SSavePos 238; SBlock [SSave 239; SIfNot 48 240; SInc; SGoto 239; SLabel 240; SRestore 239; SIfNotIn 49
    57 236; SInc; SLabel 241; SBlock [SSave 242; SIfNotIn 48 57 242; SInc; SGoto 241; SLabel 242; SRestore 242]]; SLabel 239; SAdd TPegText 238];
    SCall (TAct 25) 236; SAdd (TRule rInteger) 237]; SReturn true; SLabel 236; SRestore 236; SReturn false].
(** [23], ruleBoolean, miniquery.peg.go:2688-2786 *)
Definition go23 : list stmt :=
    [SSave 243; SBlock [SSavePos 244; SBlock [SSavePos 245; SBlock [SSwitch [([70]%N, [SIfNot 70 243; SInc; SIfNot 65 243; SInc; SIfNot 76 243; SInc;
    SIfNot 83 243; SInc; SIfNot 69 243; SInc]); ([84]%N, [SIfNot 84 243; SInc; SIfNot 82 243; SInc; SIfNot 85 243; SInc; SIfNot 69 243; SInc]);
    ([102]%N, [SIfNot 102 243; SInc; SIfNot 97 243; SInc; SIfNot 108 243; SInc; SIfNot 115 243; SInc; SIfNot 101 243; SInc])] [SIfNot 116 243; SInc;
    SIfNot 114 243; SInc; SIfNot 117 243; SInc; SIfNot 101 243; SInc]]; SAdd TPegText 245]; SCall (TAct 26) 243; SAdd (TRule rBoolean) 244]; SReturn
    true; SLabel 243; SRestore 243; SReturn false].
(** [24], ruleNull, miniquery.peg.go:2788-2844 *)
Definition go24 : list stmt :=
    [SSave 247; SBlock [SSavePos 248; SBlock [SSavePos 249; SBlock [SSave 250; SIfNot 110 251; SInc; SIfNot 117 251; SInc; SIfNot 108 251; SInc;
    SIfNot 108 251; SInc; SGoto 250; SLabel 251; SRestore 250; SIfNot 78 247; SInc; SIfNot 85 247; SInc; SIfNot 76 247; SInc; SIfNot 76 247; SInc];
    SLabel 250; SAdd TPegText 249]; SCall (TAct 27) 247; SAdd (TRule rNull) 248]; SReturn true; SLabel 247; SRestore 247; SReturn false].
(** [25], ruleString, miniquery.peg.go:2846-2933 *)
Definition go25 : list stmt :=
    [SSave 252; SBlock [SSavePos 253; SBlock [SSave 254; SIfNot 39 255; SInc; SBlock [SSavePos 256; SLabel 257; SBlock [SSave 258; SBlock [SSave 259;
    SIfNot 39 259; SInc; SGoto 258; SLabel 259; SRestore 259]; SIfNotDot 258; SGoto 257; SLabel 258; SRestore 258]; SAdd TPegText 256]; SIfNot 39 255;
    SInc; SCall (TAct 28) 255; SGoto 254; SLabel 255; SRestore 254; SIfNot 34 252; SInc; SBlock [SSavePos 260; SLabel 261; SBlock [SSave 262; SBlock
    [SSave 263; SIfNot 34 263; SInc; SGoto 262; SLabel 263; SRestore 263]; SIfNotDot 262; SGoto 261; SLabel 262; SRestore 262]; SAdd TPegText 260];
    SIfNot 34 252; SInc; SCall (TAct 29) 252]; SLabel 254; SAdd (TRule rString) 253]; SReturn true; SLabel 252; SRestore 252; SReturn false].
(** [26], ruleSpaceComment, miniquery.peg.go:2935-2958 *)
Definition go26 : list stmt :=
    [SSave 264; SBlock [SSavePos 265; SBlock [SSave 266; SCall (TRule rSpace) 267; SGoto 266; SLabel 267; SRestore 266; SCall (TRule rComment) 264];
    SLabel 266; SAdd (TRule rSpaceComment) 265]; SReturn true; SLabel 264; SRestore 264; SReturn false].
(** [27], rule_, miniquery.peg.go:2960-2976 *)
Definition go27 : list stmt :=
    [SBlock [SSavePos 269; SLabel 270; SBlock [SSave 271; SCall (TRule rSpaceComment) 271; SGoto 270; SLabel 271; SRestore 271]; SAdd (TRule r_) 269];
    SReturn true].
(** [28], rule__, miniquery.peg.go:2978-3001 *)
Definition go28 : list stmt :=
    [SSave 272; SBlock [SSavePos 273; SCall (TRule rSpaceComment) 272; SLabel 274; SBlock [SSave 275; SCall (TRule rSpaceComment) 275; SGoto 274;
    SLabel 275; SRestore 275]; SAdd (TRule r__) 273]; SReturn true; SLabel 272; SRestore 272; SReturn false].
(** [29], ruleComment, miniquery.peg.go:3003-3058 *)
Definition go29 : list stmt :=
    [SSave 276; SBlock [SSavePos 277; SBlock [SSave 278; SIfNot 45 279; SInc; SIfNot 45 279; SInc; SGoto 278; SLabel 279; SRestore 278; SIfNot 47 276;
    SInc; SIfNot 47 276; SInc]; SLabel 278; SLabel 280; SBlock [SSave 281; SBlock [SSave 282; SCall (TRule rEndOfLine) 282; SGoto 281; SLabel 282;
    SRestore 282]; SIfNotDot 281; SGoto 280; SLabel 281; SRestore 281]; SCall (TRule rEndOfLine) 276; SAdd (TRule rComment) 277]; SReturn true; SLabel
    276; SRestore 276; SReturn false].
(** [30], ruleSpace, miniquery.peg.go:3060-3089 *)
Definition go30 : list stmt :=
    [SSave 283; SBlock [SSavePos 284; SBlock [SSwitch [([9]%N, [SIfNot 9 283; SInc]); ([32]%N, [SIfNot 32 283; SInc])] [SCall (TRule rEndOfLine)
    283]]; SAdd (TRule rSpace) 284]; SReturn true; SLabel 283; SRestore 283; SReturn false].
(** [31], ruleEndOfLine, miniquery.peg.go:3091-3127 *)
Definition go31 : list stmt :=
    [SSave 286; SBlock [SSavePos 287; SBlock [SSave 288; SIfNot 13 289; SInc; SIfNot 10 289; SInc; SGoto 288; SLabel 289; SRestore 288; SIfNot 10 290;
    SInc; SGoto 288; SLabel 290; SRestore 288; SIfNot 13 286; SInc]; SLabel 288; SAdd (TRule rEndOfLine) 287]; SReturn true; SLabel 286; SRestore 286;
    SReturn false].
(** [32], ruleEndOfFile, miniquery.peg.go:3129-3148 *)
Definition go32 : list stmt :=
    [SSave 291; SBlock [SSavePos 292; SBlock [SSave 293; SIfNotDot 293; SGoto 291; SLabel 293; SRestore 293]; SAdd (TRule rEndOfFile) 292]; SReturn
    true; SLabel 291; SRestore 291; SReturn false].
(** [33], ruleAction0, miniquery.peg.go:3150-3155 *)
Definition go33 : list stmt :=
    [SBlock [SAddHere (TAct 0)]; SReturn true].
(** [34], ruleAction1, miniquery.peg.go:3157-3162 *)
Definition go34 : list stmt :=
    [SBlock [SAddHere (TAct 1)]; SReturn true].
(** [35], ruleAction2, miniquery.peg.go:3164-3169 *)
Definition go35 : list stmt :=
    [SBlock [SAddHere (TAct 2)]; SReturn true].
(** [37], ruleAction3, miniquery.peg.go:3172-3177 *)
Definition go37 : list stmt :=
    [SBlock [SAddHere (TAct 3)]; SReturn true].
(** [38], ruleAction4, miniquery.peg.go:3179-3184 *)
Definition go38 : list stmt :=
    [SBlock [SAddHere (TAct 4)]; SReturn true].
(** [39], ruleAction5, miniquery.peg.go:3186-3191 *)
Definition go39 : list stmt :=
    [SBlock [SAddHere (TAct 5)]; SReturn true].
(** [40], ruleAction6, miniquery.peg.go:3193-3198 *)
Definition go40 : list stmt :=
    [SBlock [SAddHere (TAct 6)]; SReturn true].
(** [41], ruleAction7, miniquery.peg.go:3200-3205 *)
Definition go41 : list stmt :=
    [SBlock [SAddHere (TAct 7)]; SReturn true].
(** [42], ruleAction8, miniquery.peg.go:3207-3212 *)
Definition go42 : list stmt :=
    [SBlock [SAddHere (TAct 8)]; SReturn true].
(** [43], ruleAction9, miniquery.peg.go:3214-3219 *)
Definition go43 : list stmt :=
    [SBlock [SAddHere (TAct 9)]; SReturn true].
(** [44], ruleAction10, miniquery.peg.go:3221-3226 *)
Definition go44 : list stmt :=
    [SBlock [SAddHere (TAct 10)]; SReturn true].
(** [45], ruleAction11, miniquery.peg.go:3228-3233 *)
Definition go45 : list stmt :=
    [SBlock [SAddHere (TAct 11)]; SReturn true].
(** [46], ruleAction12, miniquery.peg.go:3235-3240 *)
Definition go46 : list stmt :=
    [SBlock [SAddHere (TAct 12)]; SReturn true].
(** [47], ruleAction13, miniquery.peg.go:3242-3247 *)
Definition go47 : list stmt :=
    [SBlock [SAddHere (TAct 13)]; SReturn true].
(** [48], ruleAction14, miniquery.peg.go:3249-3254 *)
Definition go48 : list stmt :=
    [SBlock [SAddHere (TAct 14)]; SReturn true].
(** [49], ruleAction15, miniquery.peg.go:3256-3261 *)
Definition go49 : list stmt :=
    [SBlock [SAddHere (TAct 15)]; SReturn true].
(** [50], ruleAction16, miniquery.peg.go:3263-3268 *)
Definition go50 : list stmt :=
    [SBlock [SAddHere (TAct 16)]; SReturn true].
(** [51], ruleAction17, miniquery.peg.go:3270-3275 *)
Definition go51 : list stmt :=
    [SBlock [SAddHere (TAct 17)]; SReturn true].
(** [52], ruleAction18, miniquery.peg.go:3277-3282 *)
Definition go52 : list stmt :=
    [SBlock [SAddHere (TAct 18)]; SReturn true].
(** [53], ruleAction19, miniquery.peg.go:3284-3289 *)
Definition go53 : list stmt :=
    [SBlock [SAddHere (TAct 19)]; SReturn true].
(** [54], ruleAction20, miniquery.peg.go:3291-3296 *)
Definition go54 : list stmt :=
    [SBlock [SAddHere (TAct 20)]; SReturn true].
(** [55], ruleAction21, miniquery.peg.go:3298-3303 *)
Definition go55 : list stmt :=
    [SBlock [SAddHere (TAct 21)]; SReturn true].
(** [56], ruleAction22, miniquery.peg.go:3305-3310 *)
Definition go56 : list stmt :=
    [SBlock [SAddHere (TAct 22)]; SReturn true].
(** [57], ruleAction23, miniquery.peg.go:3312-3317 *)
Definition go57 : list stmt :=
    [SBlock [SAddHere (TAct 23)]; SReturn true].
(** [58], ruleAction24, miniquery.peg.go:3319-3324 *)
Definition go58 : list stmt :=
    [SBlock [SAddHere (TAct 24)]; SReturn true].
(** [59], ruleAction25, miniquery.peg.go:3326-3331 *)
Definition go59 : list stmt :=
    [SBlock [SAddHere (TAct 25)]; SReturn true].
(** [60], ruleAction26, miniquery.peg.go:3333-3338 *)
Definition go60 : list stmt :=
    [SBlock [SAddHere (TAct 26)]; SReturn true].
(** [61], ruleAction27, miniquery.peg.go:3340-3345 *)
Definition go61 : list stmt :=
    [SBlock [SAddHere (TAct 27)]; SReturn true].
(** [62], ruleAction28, miniquery.peg.go:3347-3352 *)
Definition go62 : list stmt :=
    [SBlock [SAddHere (TAct 28)]; SReturn true].
(** [63], ruleAction29, miniquery.peg.go:3354-3359 *)
Definition go63 : list stmt :=
    [SBlock [SAddHere (TAct 29)]; SReturn true].

(** the array _rules, miniquery.peg.go:521-3360; None is nil *)
Definition go_rules : list (option (list stmt)) :=
    [None; Some go1; Some go2; Some go3; Some go4; Some go5; Some go6; Some go7; Some go8; Some go9; Some go10; Some go11; Some go12; Some go13; Some
    go14; Some go15; Some go16; Some go17; Some go18; Some go19; Some go20; Some go21; Some go22; Some go23; Some go24; Some go25; Some go26; Some
    go27; Some go28; Some go29; Some go30; Some go31; Some go32; Some go33; Some go34; Some go35; None; Some go37; Some go38; Some go39; Some go40;
    Some go41; Some go42; Some go43; Some go44; Some go45; Some go46; Some go47; Some go48; Some go49; Some go50; Some go51; Some go52; Some go53;
    Some go54; Some go55; Some go56; Some go57; Some go58; Some go59; Some go60; Some go61; Some go62; Some go63].

(** rul3s, miniquery.peg.go:86-151 *)
Definition go_names : list (list N) :=
    [#"Unknown"; #"Grammar"; #"Expression"; #"LogicExpression"; #"NotExpression"; #"CompareExpression"; #"CompareInExpression";
    #"PredicateExpression"; #"BetweenExpression"; #"PrimaryExpression"; #"ArgumentList"; #"Argument"; #"Reference"; #"IdentifierReference";
    #"JsonReference"; #"Identifier"; #"Compare"; #"Logic"; #"Match"; #"Value"; #"Array"; #"Literal"; #"Integer"; #"Boolean"; #"Null"; #"String";
    #"SpaceComment"; #"_"; #"__"; #"Comment"; #"Space"; #"EndOfLine"; #"EndOfFile"; #"Action0"; #"Action1"; #"Action2"; #"PegText"; #"Action3";
    #"Action4"; #"Action5"; #"Action6"; #"Action7"; #"Action8"; #"Action9"; #"Action10"; #"Action11"; #"Action12"; #"Action13"; #"Action14";
    #"Action15"; #"Action16"; #"Action17"; #"Action18"; #"Action19"; #"Action20"; #"Action21"; #"Action22"; #"Action23"; #"Action24"; #"Action25";
    #"Action26"; #"Action27"; #"Action28"; #"Action29"].

(** The switch of Execute, miniquery.peg.go:360-433: the method called for ruleActionN and
    whether its argument is text. *)
Definition go_actions : list (nat * (list N * bool)) :=
    [(0, (#"PopLogic", false)); (1, (#"PopNot", false)); (2, (#"PopCompare", false)); (3, (#"AddCompare", true)); (4, (#"PopCompare", false)); (5,
    (#"PopPredicate", false)); (6, (#"AddOperation", true)); (7, (#"PopBetween", false)); (8, (#"PopParentheses", false)); (9, (#"PopFunction",
    false)); (10, (#"AddMark", false)); (11, (#"PopArray", false)); (12, (#"AddMark", false)); (13, (#"PopIdentifierReference", false)); (14,
    (#"AddName", true)); (15, (#"AddCompare", true)); (16, (#"AddCompare", true)); (17, (#"AddCompare", true)); (18, (#"AddLogic", true)); (19,
    (#"AddLogic", true)); (20, (#"AddMatch", true)); (21, (#"AddMark", false)); (22, (#"PopArray", false)); (23, (#"AddMark", false)); (24,
    (#"PopArray", false)); (25, (#"AddInteger", true)); (26, (#"AddBoolean", true)); (27, (#"AddNull", false)); (28, (#"AddString", true)); (29,
    (#"AddString", true))].
