(** WireMiniQuery on the handles of gorm: gormq/miniquery.go:43-104 with the
    getInstance of gorm.DB.  A *gorm.DB whose clone field is 0 is a statement
    under construction, and Joins and Where change it in place; with clone 1
    (gorm.Open, Session with NewDB) or 2 (Session) they work on a new DB with a
    new or copied statement, and the handle stays as it is.  AddError and
    Statement.Parse change the handle itself.  [None] is a panic. *)
From Verif Require Import Base Node Tree Parse Build Gorm.

Inductive clone : Set := C0 | C1 | C2.
(** DB.getInstance of gorm for a handle that is not under construction *)
Definition instance (c : clone) (d : gdb) : gdb :=
  match c with
  | C1 => DB None None [] [] (dErrors d)
  | _ => d
  end.
(** the handle given and, if it is another one, the value of the variable db *)
Record vars : Type := Vars { vGiven : gdb; vNew : option gdb }.
(** db = db.Joins(..) or db.Where(..), lines 88 and 101 *)
Definition chain (c : clone) (f : gdb -> gdb) (v : vars) : vars :=
  match vNew v, c with
  | Some x, _ => Vars (vGiven v) (Some (f x))
  | None, C0 => Vars (f (vGiven v)) None
  | None, _ => Vars (vGiven v) (Some (f (instance c (vGiven v))))
  end.
(** db.AddError(e), lines 49, 55 and 99 *)
Definition record_err (e : gerr) (v : vars) : vars :=
  match vNew v with
  | Some x => Vars (vGiven v) (Some (add_err e x))
  | None => Vars (add_err e (vGiven v)) None
  end.

Section Session.
  Variable fold_eq : list N -> list N -> bool.
  Variable quote : list N -> list N.
  Variable lower_hi : N -> N.

  Definition wire_handle (c : clone) (d : gdb) (query : list N) : option vars :=
    match query with
    | [] => Some (Vars d None)
    | _ =>
        match parse lower_hi query with
        | Panic => None
        | Err e => Some (record_err (GSyntax e) (Vars d None))
        | Ok ast =>
            match get_or_parse_schema d with
            | (inr e, d') => Some (record_err e (Vars d' None))
            | (inl sch, d') =>
                match ast with
                | None => None
                | Some n =>
                    match visit fold_eq quote sch n (QS [] [] [] []) with
                    | QPanic => None
                    | QErr e s => Some (record_err e (fold_left (fun v r => chain c (add_joins [r]) v) (qJoins s) (Vars d' None)))
                    | QOk s => Some (chain c (add_where (qBuf s, qVals s)) (fold_left (fun v r => chain c (add_joins [r]) v) (qJoins s) (Vars d' None)))
                    end
                end
            end
        end
    end.
End Session.
(** the handle returned *)
Definition returned (v : vars) : gdb := match vNew v with Some x => x | None => vGiven v end.
