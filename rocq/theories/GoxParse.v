(** Parse of miniquery/parse.go, statement by statement (GoxMini.v), on top of the rule
    functions of the generated file (GoRules.v), the cases of Execute (GoRules.v) and the
    methods of tree.go, statement by statement (GoxMini.v). *)
From Verif Require Import Base Peg Node Tree Parse Ast GoStmt GoRules GoParse Build Gox GoxMini GoxMiniLib.
From Coq Require Ascii.
Open Scope string_scope.

(** a name *)
Definition name_of (l : list N) : string := fold_right (fun c r => String (Ascii.ascii_of_N c) r) "" l.

Section Peg.
  Variable lo : N -> N.
  Variable is_print : N -> bool.
  Variable fmt_float : Z -> list N.
  Variable F : nat.                                  (* for the nesting of calls in tree.go *)
  Variable f : nat.                                  (* for the rule functions *)
  Variable q : list N.                               (* the text Parse is called with *)
  Notation mcall := (mini_call lo is_print fmt_float F).

  (** Execute, miniquery.peg.go:360-433, calling the methods of tree.go *)
  Fixpoint gox_execute (buf : list N) (toks : list token) (text : list N) (t : tree) : res tree unit :=
    match toks with
    | [] => Ret tt t
    | tk :: toks' =>
        match trule tk with
        | TPegText =>
            match slice_rng buf (tbegin tk) (tend tk) with
            | None => Panics
            | Some s => gox_execute buf toks' s t
            end
        | TAct n =>
            match case_of n go_actions with
            | None => gox_execute buf toks' text t
            | Some (name, arg) =>
                match mcall (WMeth "Tree" (name_of name)) (if arg : bool then [WStr text] else []) (St _ [] t) with
                | Ret _ s => gox_execute buf toks' text (world _ s)
                | Panics => Panics
                | Stuck => Stuck
                | NoFuel => NoFuel
                end
            end
        | TRule _ => gox_execute buf toks' text t
        end
    end.

  (** The parser object: the tokens of the last p.Parse(), and its Tree. *)
  Notation pw := (list token * tree)%type.
  Notation pst := (st pw).

  (** type MiniQueryPeg struct, miniquery.peg.go:256-266: the fields of the embedded Tree *)
  Definition peg_field (ty fd : string) (w : pw) : option mval :=
    if ty =? "MiniQueryPeg" then mini_field "Tree" fd (snd w) else None.
  (** &MiniQueryPeg{Tree: ..., Buffer: s}, parse.go:4 *)
  Definition peg_lit (ty : string) (fs : list (string * mval)) : option mval :=
    if ty =? "Tree" then match fs with [] => Some (WObj "Tree") | _ => None end
    else if ty =? "MiniQueryPeg" then
      match get "Tree" fs, get "Buffer" fs, fs with
      | Some (WObj "Tree"), Some (WStr b), [_; _] => if streq b q then Some (WObj "MiniQueryPeg") else None
      | _, _, _ => None
      end
    else None.
  (** Init and Parse of the generated file as in GoParse.v; Pop is Tree's *)
  Definition peg_prim (fn : string) (args : list mval) (s : pst) : res pst mval :=
    if fn =? "MiniQueryPeg.Init" then match args with [] => Ret WNil s | _ => Stuck end
    else if fn =? "MiniQueryPeg.Parse" then
      match args with
      | [] =>
          match go_machine f q with
          | GoStmt.CFuel => NoFuel
          | GoStmt.CStuck => Stuck
          | GoStmt.CPanic => Panics
          | GoStmt.CRet false m => Ret (WX (PESyntax (tbegin (mmax m)) (tend (mmax m)))) s
          | GoStmt.CRet true m => Ret WNil (St _ (heap _ s) (trim (mtree m) (mtidx m), snd (world _ s)))
          end
      | _ => Stuck
      end
    else if fn =? "MiniQueryPeg.Execute" then
      match args with
      | [] =>
          match gox_execute (init_buffer q) (fst (world _ s)) [] (snd (world _ s)) with
          | Ret _ t => Ret WNil (St _ (heap _ s) (fst (world _ s), t))
          | Panics => Panics
          | Stuck => Stuck
          | NoFuel => NoFuel
          end
      | _ => Stuck
      end
    else if fn =? "MiniQueryPeg.Pop" then
      match mcall (WMeth "Tree" "Pop") args (St _ (heap _ s) (snd (world _ s))) with
      | Ret v s' => Ret v (St _ (heap _ s') (fst (world _ s), world _ s'))
      | Panics => Panics
      | Stuck => Stuck
      | NoFuel => NoFuel
      end
    else Stuck.
  Definition peg_call : nat -> mval -> list mval -> pst -> res pst mval :=
    call perr pw [("Parse", mini_Parse)] mini_consts mini_maps (fun _ => None) peg_field (fun _ _ _ _ => None) peg_prim
      peg_lit (fun _ _ => None).

  (** (node, nil) or (nil, error) *)
  Definition gox_parse : option (outcome perr (option node)) :=
    match peg_call 3 (WFun "Parse") [WStr q] (St _ [] ([], tree0)) with
    | Ret (WList [v; WNil]) _ => match as_node _ v with Some n => Some (Ok n) | None => None end
    | Ret (WList [WNil; WX e]) _ => Some (Err e)
    | Panics => Some Panic
    | _ => None
    end.
End Peg.
