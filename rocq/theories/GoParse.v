(** Parse of miniquery/parse.go on top of the rule functions of the generated file as they
    are (GoRules.v, GoStmt.v) instead of Peg.v's machine and Tree.v's [run_action]. *)
From Verif Require Import Base Peg Node Tree Parse Ast GoStmt GoRules.

(** The methods of Tree that Execute calls, tree.go:53-230: by name, whether there is a
    parameter, and the model of the method.  [None] is a panic. *)
Definition go_methods (lo : N -> N) : list (list N * (bool * (list N -> tree -> option tree))) :=
  [ (#"PopLogic", (false, fun _ t => pop_logic t));
    (#"PopNot", (false, fun _ t => pop_not t));
    (#"PopCompare", (false, fun _ t => pop_compare t));
    (#"PopPredicate", (false, fun _ t => pop_predicate t));
    (#"PopBetween", (false, fun _ t => pop_between t));
    (#"PopParentheses", (false, fun _ t => pop_parentheses t));
    (#"PopFunction", (false, fun _ t => pop_function t));
    (#"PopArray", (false, fun _ t => pop_array t));
    (#"PopIdentifierReference", (false, fun _ t => pop_identifier_reference t));
    (#"AddMark", (false, fun _ t => Some (add_mark t)));
    (#"AddNull", (false, fun _ t => Some (add_null t)));
    (#"AddOperation", (true, fun s t => Some (add_operation lo s t)));
    (#"AddCompare", (true, fun s t => Some (add_operation lo s t)));
    (#"AddLogic", (true, fun s t => Some (add_operation lo s t)));
    (#"AddMatch", (true, fun s t => Some (add_operation lo s t)));
    (#"AddName", (true, fun s t => Some (add_name s t)));
    (#"AddInteger", (true, fun s t => Some (add_integer s t)));
    (#"AddBoolean", (true, fun s t => Some (add_boolean s t)));
    (#"AddString", (true, fun s t => Some (add_string s t))) ].

Fixpoint case_of {A} (n : nat) (l : list (nat * A)) : option A :=
  match l with
  | [] => None
  | (m, a) :: l' => if Nat.eqb n m then Some a else case_of n l'
  end.

(** The case of ruleActionN in Execute; a constant without a case does nothing.  [None] is
    a panic or not a Go program. *)
Definition go_action (lo : N -> N) (n : nat) (text : list N) (t : tree) : option tree :=
  match case_of n go_actions with
  | None => Some t
  | Some (name, arg) =>
      match assoc name (go_methods lo) with
      | Some (arg', m) => if Bool.eqb arg arg' then m text t else None
      | None => None
      end
  end.

(** Execute, miniquery.peg.go:360-433 *)
Fixpoint go_execute (lo : N -> N) (buf : list N) (toks : list token) (text : list N) (t : tree) : option tree :=
  match toks with
  | [] => Some t
  | tk :: toks' =>
      match trule tk with
      | TPegText =>
          match slice_rng buf (tbegin tk) (tend tk) with
          | None => None
          | Some s => go_execute lo buf toks' s t
          end
      | TAct n =>
          match go_action lo n text t with
          | None => None
          | Some t' => go_execute lo buf toks' text t'
          end
      | TRule _ => go_execute lo buf toks' text t
      end
  end.

(** p.Parse(), miniquery.peg.go:268-270 and 475-487: p.rules[1](); [f] bounds the number of
    statements run one after another or nested. *)
Definition go_machine (f : nat) (q : list N) : called :=
  call go_constants go_rules (init_buffer q) f 1 init_state.

(** miniquery.Parse, parse.go:3-16.  [None]: no result within [f], or not a Go program. *)
Definition go_parse (lo : N -> N) (f : nat) (q : list N) : option (outcome perr (option node)) :=
  match go_machine f q with
  | CFuel | CStuck => None
  | CPanic => Some Panic
  | CRet false s => Some (Err (PESyntax (tbegin (mmax s)) (tend (mmax s))))
  | CRet true s =>
      Some (match go_execute lo (init_buffer q) (trim (mtree s) (mtidx s)) [] tree0 with
            | None => Panic
            | Some t =>
                match tErrors t with
                | e :: _ => Err e
                | [] => Ok (fst (pop t))
                end
            end)
  end.

(** rul3s[ruleR] *)
Definition go_name (r : tokrule) : option (list N) :=
  match rule_value go_constants r with
  | Some i => nth_error go_names i
  | None => None
  end.
