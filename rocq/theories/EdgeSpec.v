(** The condition of an edge beside the condition that makes a row a neighbour
    (C90): has_edge(p, e). *)
From Verif Require Import Base Node Vocab Tree Syntax Build Gorm GormSpec EntSQL EntWhere SqlSpec SqlSpecDb SqlSpecEntDb SqlSpecWhere SqlSpecEntWhere.

(** The query [E], asked of the node [n] of the schema graph, asks whether the
    edge [p] of node [c] leads to a row with [e]; perhaps inside the condition of
    another edge. *)
Section Asks.
  Variable heap : nat -> gnode.
  Inductive asks : option nat -> expr -> nat -> list N -> expr -> Prop :=
  | asks_here : forall c p e, asks (Some c) (ECall #"has_edge" [EName p; e]) c p e
  | asks_edge : forall n p E t s c p' e, assoc p (gnEdges (heap n)) = Some (Some t, s) -> asks (Some t) E c p' e -> asks (Some n) (ECall #"has_edge" [EName p; E]) c p' e
  | asks_paren : forall n E c p e, asks n E c p e -> asks n (EParen E) c p e
  | asks_not : forall n E c p e, asks n E c p e -> asks n (ENot E) c p e
  | asks_date : forall n E more c p e, asks n E c p e -> asks n (ECall #"date" (E :: more)) c p e
  | asks_pred : forall n E o c p e, asks n E c p e -> asks n (EPred E o) c p e
  | asks_in : forall n E o tr ls c p e, asks n E c p e -> asks n (EIn E o tr ls) c p e
  | asks_between : forall n E o f a b c p e, asks n E c p e -> asks n (EBetween E o f a b) c p e
  | asks_cmp_l : forall n l o r c p e, asks n l c p e -> asks n (ECmp l o r) c p e
  | asks_cmp_r : forall n l o r c p e, asks n r c p e -> asks n (ECmp l o r) c p e
  | asks_logic_l : forall n l o r c p e, asks n l c p e -> asks n (ELogic l o r) c p e
  | asks_logic_r : forall n l o r c p e, asks n r c p e -> asks n (ELogic l o r) c p e.
End Asks.
(** The text [g], without arguments, is the conditions [gs] wherever it stands. *)
Definition guards (name_lex : list N -> option (list N * list N)) (d g : list N) (gs : list sql) : Prop :=
  conjuncts name_lex d (fun _ _ => Some (g, [], [])) gs.
