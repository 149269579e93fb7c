(** Specification: the parse tree of a text under a parsing expression grammar.
    One node for each rule and each capture that matched some text; a rule or
    capture that matched the empty text has no node, and neither have actions. *)
From Verif Require Import Base Peg Grammar Node Tree Parse Build Ast QuoteSpec.

Inductive ptree : Set := PT (r : tokrule) (text : list N) (kids : list ptree).

Definition shown (r : tokrule) (text : list N) (kids : list ptree) : list ptree :=
  match text with [] => [] | _ => [PT r text kids] end.

Section Derives.
  Variable G : rule -> pexp.

  (** [derives e s None]: [e] does not match at the beginning of [s];
      [derives e s (Some (F, r))]: it does, [r] remains, [F] are the trees of
      the outermost rules and captures, from left to right. *)
  Inductive derives : pexp -> list N -> option (list ptree * list N) -> Prop :=
  | d_char_ok : forall c t, derives (PChar c) (c :: t) (Some ([], t))
  | d_char_no : forall c x t, x <> c -> derives (PChar c) (x :: t) None
  | d_char_nil : forall c, derives (PChar c) [] None
  | d_range_ok : forall lo hi x t, (lo <= x <= hi)%N -> derives (PRange lo hi) (x :: t) (Some ([], t))
  | d_range_no : forall lo hi x t, ~ (lo <= x <= hi)%N -> derives (PRange lo hi) (x :: t) None
  | d_range_nil : forall lo hi, derives (PRange lo hi) [] None
  | d_dot_ok : forall x t, derives PDot (x :: t) (Some ([], t))
  | d_dot_nil : derives PDot [] None
  | d_seq_ok : forall a b s F1 s1 F2 s2, derives a s (Some (F1, s1)) -> derives b s1 (Some (F2, s2)) ->
      derives (PSeq a b) s (Some (F1 ++ F2, s2))
  | d_seq_no1 : forall a b s, derives a s None -> derives (PSeq a b) s None
  | d_seq_no2 : forall a b s F1 s1, derives a s (Some (F1, s1)) -> derives b s1 None -> derives (PSeq a b) s None
  | d_alt_1 : forall a b s r, derives a s (Some r) -> derives (PAlt a b) s (Some r)
  | d_alt_2 : forall a b s o, derives a s None -> derives b s o -> derives (PAlt a b) s o
  | d_star_0 : forall a s, derives a s None -> derives (PStar a) s (Some ([], s))
  | d_star_1 : forall a s F1 s1 F2 s2, derives a s (Some (F1, s1)) -> derives (PStar a) s1 (Some (F2, s2)) ->
      derives (PStar a) s (Some (F1 ++ F2, s2))
  | d_opt_1 : forall a s r, derives a s (Some r) -> derives (POpt a) s (Some r)
  | d_opt_0 : forall a s, derives a s None -> derives (POpt a) s (Some ([], s))
  | d_not_ok : forall a s, derives a s None -> derives (PNot a) s (Some ([], s))
  | d_not_no : forall a s r, derives a s (Some r) -> derives (PNot a) s None
  | d_cap_ok : forall a p s1 F, derives a (p ++ s1) (Some (F, s1)) -> derives (PCap a) (p ++ s1) (Some (shown TPegText p F, s1))
  | d_cap_no : forall a s, derives a s None -> derives (PCap a) s None
  | d_act : forall n s, derives (PAct n) s (Some ([], s))
  | d_rule_ok : forall r p s1 F, derives (G r) (p ++ s1) (Some (F, s1)) -> derives (PRule r) (p ++ s1) (Some (shown (TRule r) p F, s1))
  | d_rule_no : forall r s, derives (G r) s None -> derives (PRule r) s None
  | d_sw_in : forall cs a d x t o, mem x cs = true -> derives a (x :: t) o -> derives (PSw cs a d) (x :: t) o
  | d_sw_out : forall cs a d x t o, mem x cs = false -> derives d (x :: t) o -> derives (PSw cs a d) (x :: t) o
  | d_sw_nil : forall cs a d o, derives d [] o -> derives (PSw cs a d) [] o.
End Derives.

(** The lines of an indented outline of a tree: depth, rule, text. *)
Fixpoint outline (depth : nat) (t : ptree) : list (nat * tokrule * list N) :=
  match t with PT r text kids => (depth, r, text) :: concat (map (outline (S depth)) kids) end.

(** The name of a rule in miniquery.peg; PegText is a capture.  Actions have no
    node and no line. *)
Definition title (r : tokrule) : list N :=
  match r with
  | TPegText => #"PegText"
  | TAct _ => []
  | TRule rGrammar => #"Grammar" | TRule rExpression => #"Expression"
  | TRule rLogicExpression => #"LogicExpression" | TRule rNotExpression => #"NotExpression"
  | TRule rCompareExpression => #"CompareExpression" | TRule rCompareInExpression => #"CompareInExpression"
  | TRule rPredicateExpression => #"PredicateExpression" | TRule rBetweenExpression => #"BetweenExpression"
  | TRule rPrimaryExpression => #"PrimaryExpression" | TRule rArgumentList => #"ArgumentList"
  | TRule rArgument => #"Argument" | TRule rReference => #"Reference"
  | TRule rIdentifierReference => #"IdentifierReference" | TRule rJsonReference => #"JsonReference"
  | TRule rIdentifier => #"Identifier" | TRule rCompare => #"Compare" | TRule rLogic => #"Logic"
  | TRule rMatch => #"Match" | TRule rValue => #"Value" | TRule rArray => #"Array"
  | TRule rLiteral => #"Literal" | TRule rInteger => #"Integer" | TRule rBoolean => #"Boolean"
  | TRule rNull => #"Null" | TRule rString => #"String" | TRule rSpaceComment => #"SpaceComment"
  | TRule r_ => #"_" | TRule r__ => #"__" | TRule rComment => #"Comment" | TRule rSpace => #"Space"
  | TRule rEndOfLine => #"EndOfLine" | TRule rEndOfFile => #"EndOfFile"
  end.

(** A line of the printed tree, given its depth, rule and text: blanks, the name
    of the rule (in blue if [pretty], by terminal codes), a blank, the text as
    Go string literal, a line end. *)
Definition coloured (pretty : bool) (code t : list N) : list N :=
  if pretty then [27%N] ++ #"[" ++ code ++ #"m" ++ t ++ [27%N] ++ #"[m" else t.
Definition line (is_print : N -> bool) (pretty : bool) (l : nat * tokrule * list N) (out : list N) : Prop :=
  match l with (d, r, text) =>
    exists lit, literal is_print text lit /\ out = repeat 32%N d ++ coloured pretty #"36" (title r) ++ #" " ++ lit ++ [10%N]
  end.
Definition printed (is_print : N -> bool) (pretty : bool) (P : ptree) (out : list N) : Prop :=
  exists lines, Forall2 (line is_print pretty) (outline 0 P) lines /\ out = concat lines.

(** [t] depicts [P] on [q]: same rules, same shape, and the text of a node is
    the part of [q] its token spans. *)
Fixpoint depicts (q : list N) (t : node32) (P : ptree) {struct t} : Prop :=
  match t, P with
  | N32 tk up, PT r text kids =>
      trule tk = r /\
      (exists a b, q = a ++ text ++ b /\ tbegin tk = length a /\ tend tk = length a + length text) /\
      (fix all (up : list node32) (kids : list ptree) : Prop :=
         match up, kids with
         | [], [] => True
         | t :: up', P :: kids' => depicts q t P /\ all up' kids'
         | _, _ => False
         end) up kids
  end.

(** Spans nest: a node is not empty, its children lie in it, from left to right
    and without overlap. *)
Fixpoint nested (t : node32) : Prop :=
  match t with
  | N32 tk up =>
      tbegin tk < tend tk /\
      (fix along (from : nat) (up : list node32) : Prop :=
         match up with
         | [] => from <= tend tk
         | c :: up' => from <= tbegin (ntok c) /\ nested c /\ along (tend (ntok c)) up'
         end) (tbegin tk) up
  end.
