(** What the methods of queryBuilder (GoxGorm.v) find around them.  The fields of the one
    queryBuilder are those WireMiniQuery gives it, gormq/miniquery.go:62-97: its builder, and
    four function literals, which are here as Gorm.v has them ([map_name], [do_join],
    appending to vals, QuoteTo).  Node.Value is taken from node.go (GoxMini.v). *)
From Verif Require Import Base Node Gox GoxMini GoxGorm.
From Verif Require Gorm.
Open Scope string_scope.

Notation qval := (val Gorm.gerr).
(** the address of buf, vals, the Joins calls made so far, joined *)
Record gworld : Type := GW {
  wBuf : nat;
  wVals : list gval;
  wJoins : list (list N);
  wJoined : list (list N * list (list N))
}.
Notation gst := (st gworld).

(** type queryBuilder struct, gormq/miniquery.go:106-112 *)
Definition gorm_field (ty f : string) (w : gworld) : option qval :=
  if ty =? "queryBuilder" then
    if f =? "buf" then Some (WPtr (wBuf w))
    else if (f =? "addValue") || (f =? "mapName") || (f =? "quote") || (f =? "join") then Some (WFun ("qb." ++ f))
    else None
  else None.

(** interface{} *)
Fixpoint gval_of (v : qval) : option gval :=
  match v with
  | WNil => Some GNil
  | WInt z => Some (GInt z)
  | WBool b => Some (GBool b)
  | WStr s => Some (GStr s)
  | WFloat z => Some (GFloat z)
  | WList l =>
      match (fix go (l : list qval) : option (list gval) :=
               match l with
               | [] => Some []
               | x :: l' => match gval_of x, go l' with Some y, Some r => Some (y :: r) | _, _ => None end
               end) l with
      | Some r => Some (GArr r)
      | None => None
      end
  | _ => None
  end.

Section Lib.
  Variable fold_eq : list N -> list N -> bool.       (* strings.EqualFold *)
  Variable quote : list N -> list N.                 (* db.QuoteTo *)
  Variable sch : Gorm.schema.

  Definition gorm_prim (f : string) (args : list qval) (s : gst) : res gst qval :=
    let w := world _ s in
    if f =? "qb.addValue" then                       (* gormq/miniquery.go:66-68 *)
      match args with
      | [v] => match gval_of v with
               | Some x => Ret WNil (St _ (heap _ s) (GW (wBuf w) (wVals w ++ [x])%list (wJoins w) (wJoined w)))
               | None => Stuck
               end
      | _ => Stuck
      end
    else if f =? "qb.mapName" then                   (* gormq/miniquery.go:69-75 *)
      match args with
      | [WStr n] => match Gorm.map_name fold_eq sch n with
                    | inl x => Ret (WList [WStr x; WNil]) s
                    | inr e => Ret (WList [WStr n; WX e]) s
                    end
      | _ => Stuck
      end
    else if f =? "qb.join" then                      (* gormq/miniquery.go:76-94 *)
      match args with
      | [WStr r; WStr n] =>
          match Gorm.do_join fold_eq sch r n (Gorm.QS [] (wVals w) (wJoins w) (wJoined w)) with
          | Gorm.JOk x q => Ret (WList [WStr x; WNil]) (St _ (heap _ s) (GW (wBuf w) (Gorm.qVals q) (Gorm.qJoins q) (Gorm.qJoined q)))
          | Gorm.JErr e q => Ret (WList [WStr []; WX e]) (St _ (heap _ s) (GW (wBuf w) (Gorm.qVals q) (Gorm.qJoins q) (Gorm.qJoined q)))
          | Gorm.JPanic => Panics
          end
      | _ => Stuck
      end
    else if f =? "qb.quote" then                     (* gormq/miniquery.go:59-61 *)
      match args with
      | [WPtr a; WStr n] => match write _ a (quote n) s with Some s => Ret WNil s | None => Stuck end
      | _ => Stuck
      end
    else if f =? "errors.New" then
      match args with
      | [WStr t] => if streq t #"only support join one level" then Ret (WX Gorm.GLevels) s else Stuck
      | _ => Stuck
      end
    else if f =? "errors.Errorf" then
      match args with
      | [WStr t; WStr ty] => if streq t #"invalid type %q" then Ret (WX (Gorm.GType (ntype_of ty))) s else Stuck
      | _ => Stuck
      end
    else if f =? "fmt.Errorf" then
      match args with
      | [WStr t; WStr n] => if streq t #"unsupported function: %q" then Ret (WX (Gorm.GFunc n)) s else Stuck
      | _ => Stuck
      end
    else Stuck.

  Definition gorm_functions : list (string * fundef) := ("Node.Value", mini_Node_Value) :: gorm_table.
  (** A call of a method of the queryBuilder. *)
  Definition gorm_call : nat -> qval -> list qval -> gst -> res gst qval :=
    call Gorm.gerr gworld gorm_functions mini_consts gorm_maps (fun _ => None) gorm_field (fun _ _ _ _ => None) gorm_prim
      (fun _ _ => None) (fun _ _ => None).
End Lib.

(** The state in which the builder has the contents of [q], among other builders. *)
Definition at_q (h g : list (list N)) (q : Gorm.qst) : gst :=
  St _ (h ++ Gorm.qBuf q :: g)%list (GW (length h) (Gorm.qVals q) (Gorm.qJoins q) (Gorm.qJoined q)).
