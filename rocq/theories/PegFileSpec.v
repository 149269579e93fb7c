(** What miniquery/miniquery.peg says a query is, from the text of the file alone: its rules
    (PegRead.v, PegSpec.v) and its actions. *)
From Verif Require Import Base Peg Node Tree GoRules GoParse PegText PegRead.

(** The names of the rules that are no actions: rul3s, miniquery.peg.go:85-151. *)
Definition peg_names : list (list N * rule) :=
  flat_map (fun p => match snd p with TRule r => [(fst p, r)] | _ => [] end) (combine (tl go_names) go_constants).

(** p.Name() or p.Name(text) *)
Definition call_of (a : list N) : option (list N * bool) :=
  match a with
  | 112%N :: 46%N :: a' =>
      let (name, args) := span id_char a' in
      if streq args #"()" then Some (name, false)
      else if streq args #"(text)" then Some (name, true)
      else None
  | _ => None
  end.

(** An action of the file; [None]: a panic, or not such a call. *)
Definition file_action (lo : N -> N) (a : list N) (text : list N) (t : tree) : option tree :=
  match call_of a with
  | Some (name, arg) =>
      match assoc name (go_methods lo) with
      | Some (arg', m) => if Bool.eqb arg arg' then m text t else None
      | None => None
      end
  | None => None
  end.

(** What was recorded while matching, in order: captured texts and actions. *)
Fixpoint perform (lo : N -> N) (acts : list (list N)) (ev : list event) (text : list N) (t : tree) : option tree :=
  match ev with
  | [] => Some t
  | EText s :: ev' => perform lo acts ev' s t
  | EAct n :: ev' =>
      match nth_error acts n with
      | Some a =>
          match file_action lo a text t with
          | Some t' => perform lo acts ev' text t'
          | None => None
          end
      | None => None
      end
  end.

(** What Parse returns when this is what the grammar records. *)
Definition returns (lo : N -> N) (acts : list (list N)) (o : option (list event * list N))
  (res : outcome perr (option node)) : Prop :=
  match o with
  | None => exists b e, res = Err (PESyntax b e)
  | Some (ev, _) =>
      exists t, perform lo acts ev [] tree0 = Some t /\
        res = match tErrors t with x :: _ => Err x | [] => Ok (fst (pop t)) end
  end.
