(** One step of a run of Gox.v at a time. *)
From Verif Require Import Base Node Gox.
Open Scope string_scope.

Section Step.
  Variable X : Set.
  Variable W : Type.
  Variable table : list (string * fundef).
  Variable consts : list (string * list N).
  Variable maps : list (string * list (expr * expr)).
  Variable cst : string -> option (val X).
  Variable field : string -> string -> W -> option (val X).
  Variable setfield : string -> string -> val X -> W -> option W.
  Variable lit : string -> list (string * val X) -> option (val X).
  Variable assert : val X -> string -> option (val X).
  Variable call : val X -> list (val X) -> st W -> res (st W) (val X).
  Notation env := (list (string * val X)).
  Notation st := (st W).
  Notation eval := (eval X W consts maps cst field lit assert call).
  Notation evals := (evals X W consts maps cst field lit assert call).
  Notation exec := (exec X W consts maps cst field setfield lit assert call).
  Notation execs := (execs X W consts maps cst field setfield lit assert call).
  Notation exit := (exit X W).
  Implicit Types (g : env) (s : st) (e : expr).

  Definition some (o : option (val X)) (s : st) : res st (val X) := match o with Some v => Ret v s | None => Stuck end.
  Definition next (o : option env) (s : st) : res st (ctl X * env) := match o with Some g => Ret (CNext, g) s | None => Stuck end.
  Definition efields (g : env) := fix go (fs : list (string * expr)) (s : st) : res st (list (string * val X)) :=
    match fs with
    | [] => Ret [] s
    | (f, e) :: fs' => bind (eval e g s) (fun v s => bind (go fs' s) (fun vs s => Ret ((f, v) :: vs) s))
    end.
  Definition lookup (k : list N) (s : st) := fix go (l : list (expr * expr)) : res st (val X) :=
    match l with
    | [] => Ret (WList [WNil; WBool false]) s
    | (ek, ev) :: l' =>
        match (match ek with EStr t => Some t | ECst x => get x consts | _ => None end) with
        | Some t =>
            if streq k t
            then match (match ev with EStr t => Some (WStr t) | ECst x => cst x | _ => None end) with
                 | Some v => Ret (WList [v; WBool true]) s
                 | None => Stuck
                 end
            else go l'
        | None => Stuck
        end
    end.
  Definition range (rs : list string) (i v : string) (b : list stmt) :=
    fix go (k : Z) (l : list (val X)) (g : env) (s : st) : res st (ctl X * env) :=
      match l with
      | [] => Ret (CNext, g) s
      | x :: l' =>
          match define X [i; v] [WInt k; x] g with
          | None => Stuck
          | Some g1 =>
              bind (exit g (execs rs b g1 s)) (fun r s =>
                match fst r with
                | CNext | CContinue => go (k + 1)%Z l' (snd r) s
                | CBreak => Ret (CNext, snd r) s
                | _ => Ret r s
                end)
          end
      end.
  Definition ends (r : res st (ctl X * env)) : res st (ctl X * env) :=
    bind r (fun r s => match fst r with CBreak => Ret (CNext, snd r) s | CFall => Stuck | _ => Ret r s end).
  Definition any (v : val X) (g : env) := fix any (es : list expr) (s : st) : res st bool :=
    match es with
    | [] => Ret false s
    | e :: es' =>
        bind (eval e g s) (fun w s =>
          match equal X v w with
          | Some true => Ret true s
          | Some false => any es' s
          | None => Stuck
          end)
    end.
  Definition from (rs : list string) (d : list stmt) (g : env) :=
    fix from (cs : list (list expr * list stmt)) (s : st) : res st (ctl X * env) :=
      match cs with
      | [] => ends (exit g (execs rs d g s))
      | (_, b) :: cs' =>
          bind (exit g (execs rs b g s)) (fun r s =>
            match fst r with
            | CFall => from cs' s
            | CBreak => Ret (CNext, snd r) s
            | _ => Ret r s
            end)
      end.
  Definition find (rs : list string) (v : val X) (d : list stmt) (g : env) :=
    fix find (cs : list (list expr * list stmt)) (s : st) : res st (ctl X * env) :=
      match cs with
      | [] => ends (exit g (execs rs d g s))
      | (es, b) :: cs' => bind (any v g es s) (fun hit s => if hit then from rs d g cs s else find cs' s)
      end.

  Lemma bind_ret : forall S A B (a : A) (x : S) (f : A -> S -> res S B), bind (Ret a x) f = f a x.
  Proof. reflexivity. Qed.
  Lemma bind_panics : forall S A B (f : A -> S -> res S B), bind Panics f = Panics.
  Proof. reflexivity. Qed.
  Lemma bind_bind : forall S A B C (m : res S A) (f : A -> S -> res S B) (k : B -> S -> res S C),
    bind (bind m f) k = bind m (fun a x => bind (f a x) k).
  Proof. intros. now destruct m. Qed.
  Lemma bind_if : forall S A B (b : bool) (m n : res S A) (f : A -> S -> res S B),
    bind (if b then m else n) f = if b then bind m f else bind n f.
  Proof. intros. now destruct b. Qed.

  Lemma eval_eq : forall e g s, eval e g s =
    match e with
    | ENil => Ret WNil s
    | EInt z => Ret (WInt z) s
    | EBool b => Ret (WBool b) s
    | EStr t => Ret (WStr t) s
    | EVar x => some (get x g) s
    | ECst x => match get x consts with Some t => Ret (WStr t) s | None => some (cst x) s end
    | EFn f => Ret (WFun f) s
    | ESel e f =>
        bind (eval e g s) (fun v s =>
          match v with
          | WNode None => Panics
          | WNode (Some n) => some (node_field X n f) s
          | WObj ty => match field ty f (world _ s) with Some v => Ret v s | None => Ret (WMeth ty f) s end
          | _ => Stuck
          end)
    | EIndex e i =>
        bind (eval e g s) (fun v s => bind (eval i g s) (fun iv s =>
          match v, iv with
          | WList l, WInt z => match index X l z with Some v => Ret v s | None => Panics end
          | _, _ => Stuck
          end))
    | ESlice e lo hi =>
        bind (eval e g s) (fun v s =>
        bind (match lo with None => Ret (WInt 0) s | Some e => eval e g s end) (fun vl s =>
        bind (match hi, v with None, WList l => Ret (WInt (zlen l)) s | None, _ => Stuck | Some e, _ => eval e g s end) (fun vh s =>
          match v, vl, vh with
          | WList l, WInt a, WInt b => match slice X l a b with Some r => Ret (WList r) s | None => Panics end
          | _, _, _ => Stuck
          end)))
    | ECall f args =>
        match f with
        | ESel e m =>
            bind (eval e g s) (fun v s =>
            match v with
            | WNode None => Panics
            | WNode (Some n) => bind (evals args g s) (fun vs s => call (WFun ("Node." ++ m)) (v :: vs) s)
            | WPtr a => bind (evals args g s) (fun vs s => call (WFun ("Builder." ++ m)) (v :: vs) s)
            | WObj ty =>
                match field ty m (world _ s) with
                | Some f => bind (evals args g s) (fun vs s => call f vs s)
                | None => bind (evals args g s) (fun vs s => call (WMeth ty m) vs s)
                end
            | _ => Stuck
            end)
        | _ => bind (eval f g s) (fun fv s => bind (evals args g s) (fun vs s => call fv vs s))
        end
    | EBin op a b =>
        bind (eval a g s) (fun va s =>
          if op =? "&&" then
            match va with
            | WBool false => Ret (WBool false) s
            | WBool true => bind (eval b g s) (fun vb s => match vb with WBool x => Ret (WBool x) s | _ => Stuck end)
            | _ => Stuck
            end
          else if op =? "||" then
            match va with
            | WBool true => Ret (WBool true) s
            | WBool false => bind (eval b g s) (fun vb s => match vb with WBool x => Ret (WBool x) s | _ => Stuck end)
            | _ => Stuck
            end
          else bind (eval b g s) (fun vb s => some (binary X op va vb) s))
    | ENot e => bind (eval e g s) (fun v s => match v with WBool b => Ret (WBool (negb b)) s | _ => Stuck end)
    | ELit ty fs =>
        bind (efields g fs s) (fun vs s =>
          if ty =? "Node" then match lit_node X vs with Some n => Ret (WNode (Some n)) s | None => Stuck end
          else if ty =? "strings.Builder" then Ret (WPtr (length (heap _ s))) (St _ (heap _ s ++ [[]])%list (world _ s))
          else some (lit ty vs) s)
    | EList es => bind (evals es g s) (fun vs s => Ret (WList vs) s)
    | EAssert e ty => bind (eval e g s) (fun v s => match assert v ty with Some v => Ret v s | None => Panics end)
    | ELookup m k =>
        bind (eval k g s) (fun vk s => match get m maps, vk with Some l, WStr k => lookup k s l | _, _ => Stuck end)
    end.
  Proof. destruct e; reflexivity. Qed.
  Lemma evals_eq : forall es g s, evals es g s =
    match es with
    | [] => Ret [] s
    | e :: es => bind (eval e g s) (fun v s => bind (evals es g s) (fun vs s => Ret (v :: vs) s))
    end.
  Proof. destruct es; reflexivity. Qed.
  Lemma efields_eq : forall g es s, efields g es s =
    match es with
    | [] => Ret [] s
    | (f, e) :: es => bind (eval e g s) (fun v s => bind (efields g es s) (fun vs s => Ret ((f, v) :: vs) s))
    end.
  Proof. destruct es; reflexivity. Qed.
  Lemma exit_ret : forall g c s, exit g (Ret c s) = Ret (fst c, leave X g (snd c)) s. Proof. reflexivity. Qed.
  Lemma exit_panics : forall g, exit g Panics = Panics. Proof. reflexivity. Qed.
  Lemma exit_if : forall g (b : bool) m n, exit g (if b then m else n) = if b then exit g m else exit g n.
  Proof. intros. now destruct b. Qed.
  Lemma ends_ret : forall r s, ends (Ret r s) = match fst r with CBreak => Ret (CNext, snd r) s | CFall => Stuck | _ => Ret r s end.
  Proof. reflexivity. Qed.
  Lemma ends_panics : ends Panics = Panics. Proof. reflexivity. Qed.
  Lemma execs_eq : forall rs b g s, execs rs b g s =
    match b with
    | [] => Ret (CNext, g) s
    | c :: b => bind (exec rs c g s) (fun r s => match fst r with CNext => execs rs b (snd r) s | _ => Ret r s end)
    end.
  Proof. destruct b; reflexivity. Qed.
  Lemma exec_eq : forall rs c g s, exec rs c g s =
    match c with
    | SExpr e => bind (eval e g s) (fun _ s => Ret (CNext, g) s)
    | SDef xs e =>
        bind (eval e g s) (fun v s => next (match several X xs v with Some vs => define X xs vs g | None => None end) s)
    | SSet xs e =>
        bind (eval e g s) (fun v s => next (match several X xs v with Some vs => assign X xs vs g | None => None end) s)
    | SSetSel x f e =>
        bind (eval e g s) (fun v s =>
          match get x g with
          | Some (WObj ty) =>
              match setfield ty f v (world _ s) with
              | Some w => Ret (CNext, g) (St _ (heap _ s) w)
              | None => Stuck
              end
          | _ => Stuck
          end)
    | SClosure x ps b => next (upd x (WClo x ps b g) g) s
    | SCopy x e =>
        bind (eval e g s) (fun v s =>
          match get x g, v with
          | Some (WList d), WList r => next (upd x (WList (firstn (length d) r ++ skipn (length r) d)%list) g) s
          | _, _ => Stuck
          end)
    | SPanic => Panics
    | SIf e th el =>
        bind (eval e g s) (fun v s =>
          match v with
          | WBool true => exit g (execs rs th g s)
          | WBool false => exit g (execs rs el g s)
          | _ => Stuck
          end)
    | SBlock b => exit g (execs rs b g s)
    | SReturn [] =>
        match rs with
        | [] => Ret (CRet WNil, g) s
        | [x] => match get x g with Some v => Ret (CRet v, g) s | None => Stuck end
        | _ => match evals (map EVar rs) g s with Ret vs s => Ret (CRet (WList vs), g) s | _ => Stuck end
        end
    | SReturn [e] => bind (eval e g s) (fun v s => Ret (CRet v, g) s)
    | SReturn es => bind (evals es g s) (fun vs s => Ret (CRet (WList vs), g) s)
    | SRange i v e b =>
        bind (eval e g s) (fun l s => match l with WList l => range rs i v b 0%Z l g s | _ => Stuck end)
    | SSwitch e cases d => bind (eval e g s) (fun v s => find rs v d g cases s)
    | SBreak => Ret (CBreak, g) s
    | SContinue => Ret (CContinue, g) s
    | SFall => Ret (CFall, g) s
    end.
  Proof. destruct c; reflexivity. Qed.
  Lemma range_eq : forall rs i v b k l g s, range rs i v b k l g s =
    match l with
    | [] => Ret (CNext, g) s
    | x :: l =>
        match define X [i; v] [WInt k; x] g with
        | None => Stuck
        | Some g1 =>
            bind (exit g (execs rs b g1 s)) (fun r s =>
              match fst r with
              | CNext | CContinue => range rs i v b (k + 1)%Z l (snd r) s
              | CBreak => Ret (CNext, snd r) s
              | _ => Ret r s
              end)
        end
    end.
  Proof. destruct l; reflexivity. Qed.
  Lemma find_eq : forall rs v d g cs s, find rs v d g cs s =
    match cs with
    | [] => ends (exit g (execs rs d g s))
    | (es, b) :: cs' => bind (any v g es s) (fun hit s => if hit then from rs d g cs s else find rs v d g cs' s)
    end.
  Proof. destruct cs as [|[]]; reflexivity. Qed.
  Lemma from_eq : forall rs d g cs s, from rs d g cs s =
    match cs with
    | [] => ends (exit g (execs rs d g s))
    | (es, b) :: cs =>
        bind (exit g (execs rs b g s)) (fun r s =>
          match fst r with
          | CFall => from rs d g cs s
          | CBreak => Ret (CNext, snd r) s
          | _ => Ret r s
          end)
    end.
  Proof. destruct cs as [|[]]; reflexivity. Qed.
  Lemma any_eq : forall v g es s, any v g es s =
    match es with
    | [] => Ret false s
    | e :: es =>
        bind (eval e g s) (fun w s =>
          match equal X v w with Some true => Ret true s | Some false => any v g es s | None => Stuck end)
    end.
  Proof. destruct es; reflexivity. Qed.
End Step.

#[global] Arguments bind : simpl never.
#[global] Arguments eval : simpl never.
#[global] Arguments evals : simpl never.
#[global] Arguments exec : simpl never.
#[global] Arguments execs : simpl never.
#[global] Arguments exit : simpl never.
#[global] Arguments efields : simpl never.
#[global] Arguments range : simpl never.
#[global] Arguments find : simpl never.
#[global] Arguments from : simpl never.
#[global] Arguments any : simpl never.
#[global] Arguments ends : simpl never.

Ltac headof t := match t with bind ?m _ => headof m | exit _ _ _ ?m => headof m | ends _ _ ?m => headof m | _ => t end.
Ltac unfold_head h :=
  match h with
  | execs ?X ?W ?a ?b ?c ?d ?e ?f ?g ?h ?rs ?x ?y ?z => rewrite (execs_eq X W a b c d e f g h rs x y z); cbv beta iota
  | exec ?X ?W ?a ?b ?c ?d ?e ?f ?g ?h ?rs ?x ?y ?z => rewrite (exec_eq X W a b c d e f g h rs x y z); cbv beta iota
  | eval ?X ?W ?a ?b ?c ?d ?e ?f ?g ?x ?y ?z => rewrite (eval_eq X W a b c d e f g x y z); cbv beta iota
  | evals ?X ?W ?a ?b ?c ?d ?e ?f ?g ?x ?y ?z => rewrite (evals_eq X W a b c d e f g x y z); cbv beta iota
  | efields ?X ?W ?a ?b ?c ?d ?e ?f ?g ?x ?y ?z => rewrite (efields_eq X W a b c d e f g x y z); cbv beta iota
  | find ?X ?W ?a ?b ?c ?d ?e ?f ?g ?h ?rs ?v ?x ?y ?z ?u => rewrite (find_eq X W a b c d e f g h rs v x y z u); cbv beta iota
  | from ?X ?W ?a ?b ?c ?d ?e ?f ?g ?h ?rs ?x ?y ?z ?u => rewrite (from_eq X W a b c d e f g h rs x y z u); cbv beta iota
  | any ?X ?W ?a ?b ?c ?d ?e ?f ?g ?x ?y ?z ?u => rewrite (any_eq X W a b c d e f g x y z u); cbv beta iota
  | range ?X ?W ?a ?b ?c ?d ?e ?f ?g ?h ?rs ?x ?y ?z ?k (_ :: _) ?p ?q => rewrite range_eq; cbv beta iota
  | range ?X ?W ?a ?b ?c ?d ?e ?f ?g ?h ?rs ?x ?y ?z ?k [] ?p ?q => rewrite range_eq; cbv beta iota
  | Ret _ _ => first [rewrite bind_ret | rewrite exit_ret | rewrite ends_ret]; cbn
  | Panics => first [rewrite bind_panics | rewrite exit_panics | rewrite ends_panics]
  end.
Create HintDb gox discriminated.
#[global] Hint Extern 0 (_ < _) => lia : gox.
(** a call of a function already known *)
Ltac known h :=
  let E := fresh "E" in
  eassert (E : h = _) by (solve [eauto 2 with gox nocore]); rewrite E; clear E.
Ltac step := match goal with
  | |- ?l = _ => let h := headof l in unfold_head h
  | |- exists _, ?l = _ => let h := headof l in unfold_head h
  end.
