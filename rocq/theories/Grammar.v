(** The rule bodies of the query grammar, twice: as written in
    miniquery/miniquery.peg ([Gpeg]) and as generated into
    miniquery/miniquery.peg.go with -switch ([Ggo]). *)
From Verif Require Import Base Peg.

Declare Scope peg_scope.
Delimit Scope peg_scope with peg.
Infix ";;" := PSeq (at level 60, right associativity) : peg_scope.
Infix "//" := PAlt (at level 65, right associativity) : peg_scope.
Notation "e **" := (PStar e) (at level 30) : peg_scope.
Local Open Scope peg_scope.

Definition PPlus (e : pexp) : pexp := e ;; (e **).
Notation W := (PRule r_).     (* rule _  *)
Notation WW := (PRule r__).   (* rule __ *)
Definition ch (s : list N) : pexp := lit s.

Definition az := PRange 97 122.
Definition AZ := PRange 65 90.
Definition d09 := PRange 48 57.
Definition d19 := PRange 49 57.

(** Sub-expressions that occur in several rules. *)
(** Literal ( _ ',' _ Literal)* _ ','?  in miniquery.peg:47-48. *)
Definition LitList : pexp :=
  PRule rLiteral ;; ((W ;; ch #"," ;; W ;; PRule rLiteral) **) ;; W ;; POpt (ch #",").
(** Argument ( _ ',' _ Argument)* _ ','?  in miniquery.peg:23. *)
Definition ArgList : pexp :=
  PRule rArgument ;; ((W ;; ch #"," ;; W ;; PRule rArgument) **) ;; W ;; POpt (ch #",").

(** miniquery/miniquery.peg:8-61, rule by rule.  Action numbers are the ones the
    generator assigns (miniquery.peg.go:3149-3359). *)
Definition Gpeg (r : rule) : pexp :=
  match r with
  | rGrammar => W ;; PRule rExpression ;; W ;; PRule rEndOfFile
  | rExpression => PRule rLogicExpression
  | rLogicExpression =>
      PRule rNotExpression ;; ((PRule rLogic ;; PRule rNotExpression ;; PAct 0) **)
  | rNotExpression =>
      PRule rCompareExpression
      // (W ;; ilit #"not" ;; WW ;; PRule rCompareExpression ;; PAct 1)
  | rCompareExpression =>
      PRule rCompareInExpression ;; ((PRule rCompare ;; PRule rCompareInExpression ;; PAct 2) **)
  | rCompareInExpression =>
      PRule rPredicateExpression
      ;; POpt (W ;; PCap (ilit #"in" // (ilit #"not" ;; WW ;; ilit #"in")) ;; W ;; PAct 3
               ;; PRule rArray ;; PAct 4)
  | rPredicateExpression => PRule rBetweenExpression ;; POpt (PRule rMatch ;; PAct 5)
  | rBetweenExpression =>
      PRule rPrimaryExpression
      ;; POpt (W ;; PCap (POpt (ilit #"not" ;; WW) ;; lit #"between") ;; PAct 6 ;; W
               ;; ((PRule rValue ;; W ;; ilit #"and" ;; W ;; PRule rValue)
                   // (ch #"[" ;; W ;; PRule rValue ;; W ;; ch #"," ;; W ;; PRule rValue ;; W ;; ch #"]"))
               ;; PAct 7)
  | rPrimaryExpression =>
      (ch #"(" ;; W ;; PRule rExpression ;; W ;; ch #")" ;; PAct 8)
      // PRule rValue
      // (PRule rIdentifier ;; PRule rArgumentList ;; PAct 9)
      // PRule rReference
  | rArgumentList =>
      ch #"(" ;; W ;; PAct 10 ;; POpt ArgList ;; W ;; ch #")" ;; PAct 11
  | rArgument => PRule rExpression
  | rReference => PRule rIdentifierReference // PRule rJsonReference // PRule rIdentifier
  | rIdentifierReference =>
      PAct 12 ;; PRule rIdentifier ;; ch #"." ;; PRule rIdentifier
      ;; ((ch #"." ;; PRule rIdentifier) **) ;; PAct 13
  | rJsonReference => PRule rIdentifier ;; lit #"->" ;; (PRule rJsonReference // PRule rIdentifier)
  | rIdentifier =>
      PNot (ilit #"not")
      ;; PCap ((az // AZ) ;; ((ch #"_" // az // AZ // d09) **)) ;; PAct 14
  | rCompare =>
      (W ;; PCap (lit #">=" // lit #"<=" // lit #"==" // lit #"!=" // lit #">" // lit #"<"
                  // lit #"<>" // lit #"=") ;; W ;; PAct 15)
      // (W ;; PCap (ilit #"gt" // ilit #"lt" // ilit #"gte" // ilit #"lte" // ilit #"eq"
                  // ilit #"neq") ;; W ;; PAct 16)
      // (W ;; PCap (ilit #"like" // (ilit #"not" ;; WW ;; ilit #"like")) ;; W ;; PAct 17)
  | rLogic =>
      (W ;; PCap (ilit #"and" // ilit #"or") ;; W ;; PAct 18)
      // (W ;; PCap (lit #"&&" // lit #"||") ;; W ;; PAct 19)
  | rMatch =>
      WW ;; PCap (lit #"isnull" // lit #"notnull"
                  // (lit #"is" ;; WW ;; (lit #"true" // lit #"false" // lit #"null"))
                  // (lit #"is" ;; WW ;; lit #"not" ;; WW
                      ;; (lit #"true" // lit #"false" // lit #"null")))
      ;; W ;; PAct 20
  | rValue => PRule rLiteral // PRule rArray
  | rArray =>
      (ch #"[" ;; PAct 21 ;; W ;; POpt LitList ;; W ;; ch #"]" ;; PAct 22)
      // (ch #"(" ;; PAct 23 ;; W ;; POpt LitList ;; W ;; ch #")" ;; PAct 24)
  | rLiteral => PRule rString // PRule rInteger // PRule rBoolean // PRule rNull
  | rInteger => PCap (ch #"0" // (d19 ;; (d09 **))) ;; PAct 25
  | rBoolean => PCap (lit #"true" // lit #"false" // lit #"TRUE" // lit #"FALSE") ;; PAct 26
  | rNull => PCap (lit #"null" // lit #"NULL") ;; PAct 27
  | rString =>
      (PChar 39 ;; PCap ((PNot (PChar 39) ;; PDot) **) ;; PChar 39 ;; PAct 28)
      // (PChar 34 ;; PCap ((PNot (PChar 34) ;; PDot) **) ;; PChar 34 ;; PAct 29)
  | rSpaceComment => PRule rSpace // PRule rComment
  | r_ => (PRule rSpaceComment) **
  | r__ => PPlus (PRule rSpaceComment)
  | rComment =>
      (lit #"--" // lit #"//") ;; ((PNot (PRule rEndOfLine) ;; PDot) **) ;; PRule rEndOfLine
  | rSpace => PChar 32 // PChar 9 // PRule rEndOfLine
  | rEndOfLine => (PChar 13 ;; PChar 10) // PChar 10 // PChar 13
  | rEndOfFile => PNot PDot
  end.

Definition letters_lower : list N := #"abcdefghijklmnopqrstuvwxyz".
Definition letters_upper : list N := #"ABCDEFGHIJKLMNOPQRSTUVWXYZ".
Definition digits : list N := #"0123456789".

(** The generated code.  Only the rules the generator rewrites into switches
    differ in shape from [Gpeg]; each is cited. *)
Definition Ggo (r : rule) : pexp :=
  match r with
  | rIdentifier => (* miniquery.peg.go:1363-1478 *)
      PNot (ilit #"not")
      ;; PCap ((az // AZ) ;; ((PSw digits d09 (PSw letters_upper AZ (PSw #"_" (ch #"_") az))) **))
      ;; PAct 14
  | rCompare => (* miniquery.peg.go:1480-2039 *)
      (W ;; PCap (lit #">=" // lit #"<=" // lit #"==" // lit #"<"
                  // PSw #"=" (lit #"=") (PSw #"<" (lit #"<>") (PSw #">" (lit #">") (lit #"!="))))
         ;; W ;; PAct 15)
      // (W ;; PCap (ilit #"gt" // ilit #"lt"
                  // PSw #"Nn" (ilit #"neq") (PSw #"Ee" (ilit #"eq") (PSw #"Ll" (ilit #"lte") (ilit #"gte"))))
         ;; W ;; PAct 16)
      // (W ;; PCap (ilit #"like" // (ilit #"not" ;; WW ;; ilit #"like")) ;; W ;; PAct 17)
  | rMatch => (* miniquery.peg.go:2191-2436 *)
      WW ;; PCap (lit #"isnull" // lit #"notnull"
                  // (lit #"is" ;; WW
                      ;; PSw #"n" (lit #"null") (PSw #"f" (lit #"false") (lit #"true")))
                  // (lit #"is" ;; WW ;; lit #"not" ;; WW
                      ;; PSw #"n" (lit #"null") (PSw #"f" (lit #"false") (lit #"true"))))
      ;; W ;; PAct 20
  | rLiteral => (* miniquery.peg.go:2610-2641 *)
      PSw #"Nn" (PRule rNull) (PSw #"FTft" (PRule rBoolean)
        (PSw [34; 39]%N (PRule rString) (PRule rInteger)))
  | rBoolean => (* miniquery.peg.go:2688-2786 *)
      PCap (PSw #"F" (lit #"FALSE") (PSw #"T" (lit #"TRUE") (PSw #"f" (lit #"false") (lit #"true"))))
      ;; PAct 26
  | rSpace => (* miniquery.peg.go:3060-3089 *)
      PSw [9]%N (PChar 9) (PSw [32]%N (PChar 32) (PRule rEndOfLine))
  (* the other rules have the shape of miniquery.peg; bodies at
     miniquery.peg.go:523 (Grammar) .. 3148 (EndOfFile) *)
  | r => Gpeg r
  end.
