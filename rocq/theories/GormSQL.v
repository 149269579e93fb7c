(** The WHERE clause gorm makes of the conditions that gormq hands over with
    db.Where (gormq/miniquery.go:101).  After gorm v1.31.1: Statement.BuildCondition
    and Statement.AddVar (statement.go), Expr.Build (clause/expression.go), Where
    and buildExprs (clause/where.go), restricted to what Where with a string adds. *)
From Verif Require Import Base Node Vocab Tree Build Gorm.

(** the statement: its text and its variables *)
Record stmt : Type := Stmt { sSQL : list N; sVars : list gval }.
Definition put (t : list N) (s : stmt) : stmt := Stmt (sSQL s ++ t) (sVars s).

(** strings.Contains *)
Fixpoint starts (p t : list N) : bool :=
  match p, t with
  | [], _ => true
  | c :: p', d :: t' => (c =? d)%N && starts p' t'
  | _ :: _, [] => false
  end.
Fixpoint contains (p t : list N) : bool :=
  starts p t || match t with [] => false | _ :: t' => contains p t' end.

Section Where.
  Variable dialect : list N.
  Variable upper_hi : N -> N.                              (* unicode.ToUpper above 127 *)

  (** Dialector.BindVarTo: $n in postgres, ? elsewhere *)
  Definition bind_var (v : gval) (s : stmt) : stmt :=
    let vs := sVars s ++ [v] in
    Stmt (sSQL s ++ if streq dialect #"postgres" then #"$" ++ print_N (N.of_nat (length vs)) else #"?") vs.
  (** Statement.AddVar *)
  Fixpoint add_var (v : gval) (s : stmt) : stmt :=
    match v with
    | GArr [] => put #"(NULL)" s
    | GArr (x :: l) =>
        put #")" ((fix more (l : list gval) (s : stmt) : stmt :=
                     match l with [] => s | y :: l' => more l' (add_var y (put #"," s)) end) l (add_var x (put #"(" s)))
    | _ => bind_var v s
    end.
  (** the items of a slice after an opening parenthesis, Expr.Build *)
  Fixpoint more_vars (l : list gval) (s : stmt) : stmt :=
    match l with [] => s | y :: l' => more_vars l' (add_var y (put #"," s)) end.
  Definition spread (v : gval) (s : stmt) : stmt :=
    match v with
    | GArr [] => add_var GNil s
    | GArr (x :: l) => more_vars l (add_var x s)
    | _ => add_var v s
    end.
  (** Expr.Build; [after] is afterParenthesis *)
  Fixpoint expr_build (after : bool) (t : list N) (vars : list gval) (s : stmt) : stmt :=
    match t with
    | [] => Stmt (sSQL s) (sVars s ++ vars)                  (* left over: sql.NamedArg *)
    | c :: t' =>
        match (c =? 63)%N, vars with
        | true, v :: vars' => expr_build after t' vars' ((if after then spread else add_var) v s)
        | _, _ => expr_build (c =? 40)%N t' vars (put [c] s)
        end
    end.

  (** strings.ToUpper *)
  Definition upper (c : N) : N := if (c <? 128)%N then if (97 <=? c)%N && (c <=? 122)%N then (c - 32)%N else c else upper_hi c.
  (** contains and or or, with blanks around *)
  Definition spaced (t : list N) : bool := contains #" AND " (map upper t) || contains #" OR " (map upper t).
  (** buildExprs, for expressions of type Expr; [many]: more than one *)
  Definition build_one (many : bool) (c : list N * list gval) (s : stmt) : stmt :=
    if many && spaced (fst c) then put #")" (expr_build false (fst c) (snd c) (put #"(" s))
    else expr_build false (fst c) (snd c) s.
  Definition build_exprs (cs : list (list N * list gval)) (s : stmt) : stmt :=
    match cs with
    | [] => s
    | [c] => build_one false c s
    | c :: cs => fold_left (fun s c => build_one true c (put #" AND " s)) cs (build_one true c s)
    end.

  (** Statement.BuildCondition for a string with arguments; [None]: it is taken
      for a primary key, a name or a text with named arguments, which is not
      modelled.  strconv.Atoi accepts no more than [number]. *)
  Definition number (t : list N) : bool :=
    let r := match t with c :: r => if mem c #"+-" then r else t | [] => t end in
    match r with [] => false | _ => forallb is_digit r end.
  Definition build_condition (c : list N * list gval) : option (list (list N * list gval)) :=
    if number (fst c) then None
    else match fst c, snd c with
         | [], [] => Some []
         | t, [] => Some [c]
         | t, _ => if mem 63%N t then Some [c] else None
         end.
  Fixpoint all_conditions (cs : list (list N * list gval)) : option (list (list N * list gval)) :=
    match cs with
    | [] => Some []
    | c :: cs' =>
        match build_condition c, all_conditions cs' with
        | Some a, Some b => Some (a ++ b)
        | _, _ => None
        end
    end.
  (** what follows WHERE, and the variables *)
  Definition where_clause (d : gdb) : option (list N * list gval) :=
    match all_conditions (dWheres d) with
    | Some cs => let s := build_exprs cs (Stmt [] []) in Some (sSQL s, sVars s)
    | None => None
    end.
End Where.
