(** A reader of the notation of .peg files (pointlander/peg, as far as miniquery.peg uses
    it): from the text of a file to its rules and actions.  Independent of Grammar.v.

    Not read: predicates and state changes (&{}, !{}), [[ ]] classes, octal and hex
    escapes, imports.  The reader fails on them; miniquery.peg has none. *)
From Verif Require Import Base Peg.

Inductive ptok : Set :=
| KId (s : list N)              (* a name *)
| KArrow                        (* <- *)
| KSlash | KOpen | KClose | KBegin | KEnd | KStar | KPlus | KOpt | KNot | KDot
| KLit (s : list N)             (* '...' *)
| KILit (s : list N)            (* "...": letters in either case *)
| KClass (neg : bool) (items : list (N * N))  (* [a-zA-Z], [^...] *)
| KAct (s : list N).            (* {...} *)

Definition id_start (c : N) : bool :=
  ((97 <=? c) && (c <=? 122) || (65 <=? c) && (c <=? 90) || (c =? 95))%N.
Definition id_char (c : N) : bool := id_start c || ((48 <=? c) && (c <=? 57))%N.
Definition is_letter (c : N) : bool := ((97 <=? c) && (c <=? 122) || (65 <=? c) && (c <=? 90))%N.
Definition is_blank (c : N) : bool := mem c [9; 10; 13; 32]%N.

(** The longest prefix of characters with [p], and the rest. *)
Fixpoint span (p : N -> bool) (s : list N) : list N * list N :=
  match s with
  | c :: t => if p c then let (a, b) := span p t in (c :: a, b) else ([], s)
  | [] => ([], [])
  end.

(** One character of a literal or class; escapes \t \n \r \\ and of the quotes. *)
Definition unescape (s : list N) : option (N * list N) :=
  match s with
  | 92%N :: c :: t =>
      if (c =? 116)%N then Some (9%N, t) else if (c =? 110)%N then Some (10%N, t)
      else if (c =? 114)%N then Some (13%N, t)
      else if mem c [92; 39; 34; 91; 93; 45; 94]%N then Some (c, t) else None
  | c :: t => Some (c, t)
  | [] => None
  end.

(** Characters up to the closing [q]. *)
Fixpoint quoted_to (fuel : nat) (q : N) (s : list N) : option (list N * list N) :=
  match fuel, s with
  | O, _ | _, [] => None
  | S f, c :: t =>
      if (c =? q)%N then Some ([], t)
      else match unescape s with
           | Some (x, s1) =>
               match quoted_to f q s1 with Some (w, r) => Some (x :: w, r) | None => None end
           | None => None
           end
  end.

(** Items of a class up to the closing bracket: a-z or a single character. *)
Fixpoint class_to (fuel : nat) (s : list N) : option (list (N * N) * list N) :=
  match fuel, s with
  | O, _ | _, [] => None
  | S f, c :: t =>
      if (c =? 93)%N then Some ([], t)
      else match unescape s with
           | Some (x, 45%N :: s1) =>
               match s1 with
               | 93%N :: _ => None
               | _ =>
                   match unescape s1 with
                   | Some (y, s2) =>
                       match class_to f s2 with Some (l, r) => Some ((x, y) :: l, r) | None => None end
                   | None => None
                   end
               end
           | Some (x, s1) =>
               match class_to f s1 with Some (l, r) => Some ((x, x) :: l, r) | None => None end
           | None => None
           end
  end.

(** The text of an action up to the closing brace (no braces inside). *)
Definition braces (s : list N) : option (list N * list N) :=
  match span (fun c => negb (mem c [123; 125]%N)) s with
  | (a, 125%N :: r) => Some (a, r)
  | _ => None
  end.

Fixpoint tokenize (fuel : nat) (s : list N) : option (list ptok) :=
  match fuel with
  | O => None
  | S f =>
    let one k r := match tokenize f r with Some l => Some (k :: l) | None => None end in
    match s with
    | [] => Some []
    | c :: t =>
        if is_blank c then tokenize f t
        else if (c =? 35)%N then tokenize f (snd (span (fun x => negb (mem x [10; 13]%N)) t))
        else if id_start c then let (w, r) := span id_char s in one (KId w) r
        else if (c =? 60)%N then
          match t with
          | 45%N :: r => one KArrow r
          | _ => one KBegin t
          end
        else if (c =? 62)%N then one KEnd t
        else if (c =? 47)%N then one KSlash t
        else if (c =? 40)%N then one KOpen t
        else if (c =? 41)%N then one KClose t
        else if (c =? 42)%N then one KStar t
        else if (c =? 43)%N then one KPlus t
        else if (c =? 63)%N then one KOpt t
        else if (c =? 33)%N then one KNot t
        else if (c =? 46)%N then one KDot t
        else if (c =? 39)%N then
          match quoted_to (length t) 39 t with Some (w, r) => one (KLit w) r | None => None end
        else if (c =? 34)%N then
          match quoted_to (length t) 34 t with Some (w, r) => one (KILit w) r | None => None end
        else if (c =? 91)%N then
          match t with
          | 94%N :: t' => match class_to (length t') t' with Some (l, r) => one (KClass true l) r | None => None end
          | _ => match class_to (length t) t with Some (l, r) => one (KClass false l) r | None => None end
          end
        else if (c =? 123)%N then
          match braces t with Some (a, r) => one (KAct a) r | None => None end
        else None
    end
  end.

(** What the tokens mean as parsing expressions. *)
Fixpoint seq_of (l : list pexp) : option pexp :=
  match l with
  | [] => None
  | [e] => Some e
  | e :: l' => match seq_of l' with Some e' => Some (PSeq e e') | None => None end
  end.
Fixpoint alt_of (l : list pexp) : option pexp :=
  match l with
  | [] => None
  | [e] => Some e
  | e :: l' => match alt_of l' with Some e' => Some (PAlt e e') | None => None end
  end.
Definition lower (c : N) : N := if ((65 <=? c) && (c <=? 90))%N then (c + 32)%N else c.
Definition upper (c : N) : N := if ((97 <=? c) && (c <=? 122))%N then (c - 32)%N else c.
(** "x": a letter in either case, the lower case first *)
Definition either_case (c : N) : pexp :=
  if is_letter c then PAlt (PChar (lower c)) (PChar (upper c)) else PChar c.
Definition item (i : N * N) : pexp := if (fst i =? snd i)%N then PChar (fst i) else PRange (fst i) (snd i).

Section Read.
  Variable names : list (list N * rule).     (* the rules that may be defined *)

  (** Result of reading an expression: expression, texts of the actions so far (last
      first; their number is the number of the next action), tokens left. *)
  Definition rd : Set := option (pexp * list (list N) * list ptok).

  Fixpoint read (fuel : nat) (acts : list (list N)) (ts : list ptok) {struct fuel} : rd :=
    (* sequence ('/' sequence)* *)
    match fuel with
    | O => None
    | S f =>
      match read_seq f acts ts with
      | Some (e, acts1, KSlash :: ts1) =>
          match read f acts1 ts1 with
          | Some (e2, acts2, ts2) => Some (PAlt e e2, acts2, ts2)
          | None => None
          end
      | r => r
      end
    end
  with read_seq (fuel : nat) (acts : list (list N)) (ts : list ptok) {struct fuel} : rd :=
    (* one or more of: ! suffix, suffix *)
    match fuel with
    | O => None
    | S f =>
      match (match ts with
             | KNot :: ts1 =>
                 match read_suffix f acts ts1 with
                 | Some (e, a, r) => Some (PNot e, a, r)
                 | None => None
                 end
             | _ => read_suffix f acts ts
             end) with
      | Some (e, acts1, ts1) =>
          let ends :=
            match ts1 with
            | [] | KSlash :: _ | KClose :: _ | KEnd :: _ => true
            | KId _ :: KArrow :: _ => true         (* the next rule *)
            | _ => false
            end in
          if ends then Some (e, acts1, ts1)
          else match read_seq f acts1 ts1 with
               | Some (e2, acts2, ts2) => Some (PSeq e e2, acts2, ts2)
               | None => None
               end
      | None => None
      end
    end
  with read_suffix (fuel : nat) (acts : list (list N)) (ts : list ptok) {struct fuel} : rd :=
    match fuel with
    | O => None
    | S f =>
      match read_primary f acts ts with
      | Some (e, acts1, KStar :: ts1) => Some (PStar e, acts1, ts1)
      | Some (e, acts1, KPlus :: ts1) => Some (PSeq e (PStar e), acts1, ts1)
      | Some (e, acts1, KOpt :: ts1) => Some (POpt e, acts1, ts1)
      | r => r
      end
    end
  with read_primary (fuel : nat) (acts : list (list N)) (ts : list ptok) {struct fuel} : rd :=
    match fuel with
    | O => None
    | S f =>
      match ts with
      | KId s :: ts1 =>
          match ts1 with
          | KArrow :: _ => None
          | _ => match assoc s names with Some r => Some (PRule r, acts, ts1) | None => None end
          end
      | KOpen :: ts1 =>
          match read f acts ts1 with
          | Some (e, acts1, KClose :: ts2) => Some (e, acts1, ts2)
          | _ => None
          end
      | KBegin :: ts1 =>
          match read f acts ts1 with
          | Some (e, acts1, KEnd :: ts2) => Some (PCap e, acts1, ts2)
          | _ => None
          end
      | KLit w :: ts1 => match seq_of (map PChar w) with Some e => Some (e, acts, ts1) | None => None end
      | KILit w :: ts1 => match seq_of (map either_case w) with Some e => Some (e, acts, ts1) | None => None end
      | KClass neg l :: ts1 =>
          match alt_of (map item l) with
          | Some e => Some (if neg then PSeq (PNot e) PDot else e, acts, ts1)
          | None => None
          end
      | KDot :: ts1 => Some (PDot, acts, ts1)
      | KAct a :: ts1 => Some (PAct (length acts), a :: acts, ts1)
      | _ => None
      end
    end.

  (** name <- expression, ... *)
  Fixpoint read_rules (fuel : nat) (acts : list (list N)) (ts : list ptok)
    : option (list (rule * pexp) * list (list N)) :=
    match fuel with
    | O => None
    | S f =>
      match ts with
      | [] => Some ([], rev acts)
      | KId s :: KArrow :: ts1 =>
          match assoc s names with
          | None => None
          | Some r =>
              match read f acts ts1 with
              | Some (e, acts1, ts2) =>
                  match read_rules f acts1 ts2 with
                  | Some (l, a) => Some ((r, e) :: l, a)
                  | None => None
                  end
              | None => None
              end
          end
      | _ => None
      end
    end.

  (** package p  type T Peg { ... }  rules *)
  Definition read_peg (text : list N) : option (list (rule * pexp) * list (list N)) :=
    match tokenize (S (length text)) text with
    | Some (KId p :: KId _ :: KId t :: KId _ :: KId g :: KAct _ :: ts) =>
        if streq p #"package" && streq t #"type" && streq g #"Peg"
        then read_rules (S (length text)) [] ts else None
    | _ => None
    end.
End Read.
