(** What the functions of tree.go, node.go and join.go (GoxMini.v) find around them: the
    Tree, and the library functions as they are in Tree.v and Build.v. *)
From Verif Require Import Base Node Tree Build Gox GoxMini.
Open Scope string_scope.

Notation mval := (val perr).
Notation mst := (st tree).

(** type Tree struct, tree.go:15-19 *)
Definition mini_field (ty f : string) (t : tree) : option mval :=
  if ty =? "Tree" then
    if f =? "Stack" then Some (WList (map WNode (tStack t)))
    else if f =? "Errors" then Some (WList (map WX (tErrors t)))
    else if f =? "marks" then Some (WList (map (fun n => WInt (Z.of_nat n)) (tMarks t)))
    else None
  else None.
Fixpoint as_errors (l : list mval) : option (list perr) :=
  match l with
  | [] => Some []
  | WX e :: l' => match as_errors l' with Some r => Some (e :: r) | None => None end
  | _ => None
  end.
Fixpoint as_marks (l : list mval) : option (list nat) :=
  match l with
  | [] => Some []
  | WInt z :: l' =>
      if (z <? 0)%Z then None else match as_marks l' with Some r => Some (Z.to_nat z :: r) | None => None end
  | _ => None
  end.
Definition mini_setfield (ty f : string) (v : mval) (t : tree) : option tree :=
  match v with
  | WList l =>
      if ty =? "Tree" then
        if f =? "Stack" then match as_nodes _ l with Some s => Some (Tree s (tErrors t) (tMarks t)) | None => None end
        else if f =? "Errors" then match as_errors l with Some e => Some (Tree (tStack t) e (tMarks t)) | None => None end
        else if f =? "marks" then match as_marks l with Some m => Some (Tree (tStack t) (tErrors t) m) | None => None end
        else None
      else None
  | _ => None
  end.

(** an error or nil *)
Definition error_val (e : option perr) : mval := match e with Some x => WX x | None => WNil end.

(** interface{} *)
Fixpoint as_gval (v : mval) : option gval :=
  match v with
  | WNil => Some GNil
  | WInt z => Some (GInt z)
  | WBool b => Some (GBool b)
  | WStr s => Some (GStr s)
  | WFloat z => Some (GFloat z)
  | WList l =>
      match (fix go (l : list mval) : option (list gval) :=
               match l with
               | [] => Some []
               | x :: l' => match as_gval x, go l' with Some y, Some r => Some (y :: r) | _, _ => None end
               end) l with
      | Some r => Some (GArr r)
      | None => None
      end
  | _ => None
  end.

Section Lib.
  Variable lo : N -> N.                              (* unicode.ToLower above 127 *)
  Variable is_print : N -> bool.                     (* strconv.IsPrint *)
  Variable fmt_float : Z -> list N.

  Definition wrote (r : option mst) : res mst mval :=
    match r with Some s => Ret (WList [WNil; WNil]) s | None => Stuck end.
  Definition mini_prim (f : string) (args : list mval) (s : mst) : res mst mval :=
    if f =? "strings.TrimSpace" then match args with [WStr t] => Ret (WStr (trim_space t)) s | _ => Stuck end
    else if f =? "strings.ToLower" then
      match args with [WStr t] => Ret (WStr (map (to_lower_rune lo) t)) s | _ => Stuck end
    else if f =? "regSpace.ReplaceAllString" then  (* regSpace: \s+, tree.go:22 *)
      match args with [WStr t; WStr [32%N]] => Ret (WStr (collapse false t)) s | _ => Stuck end
    else if f =? "strings.Join" then
      match args with
      | [WList l; WStr sep] => match as_strs _ l with Some ls => Ret (WStr (sjoin sep ls)) s | None => Stuck end
      | _ => Stuck
      end
    else if f =? "strconv.Atoi" then
      match args with [WStr t] => Ret (WList [WInt (fst (atoi t)); error_val (snd (atoi t))]) s | _ => Stuck end
    else if f =? "strconv.ParseBool" then
      match args with [WStr t] => Ret (WList [WBool (fst (parse_bool t)); error_val (snd (parse_bool t))]) s | _ => Stuck end
    else if f =? "fmt.Errorf" then
      match args with
      | [WStr t; _; _] => if streq t #"invalid function exp %q %q" then Ret (WX PEFunction) s else Stuck
      | _ => Stuck
      end
    else if f =? "fmt.Fprint" then
      match args with
      | [WPtr a; v] => match as_gval v with Some x => wrote (write _ a (fprint fmt_float x) s) | None => Stuck end
      | _ => Stuck
      end
    else if f =? "fmt.Fprintf" then
      match args with
      | [WPtr a; WStr t; WStr x] => if streq t #"%q" then wrote (write _ a (quoted is_print x) s) else Stuck
      | _ => Stuck
      end
    else Stuck.

  (** A call of a function of the package. *)
  Definition mini_call : nat -> mval -> list mval -> mst -> res mst mval :=
    call perr tree mini_table mini_consts mini_maps (fun _ => None) mini_field mini_setfield mini_prim
      (fun _ _ => None) (fun _ _ => None).
End Lib.
