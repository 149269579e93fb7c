(** Proofs for C95. *)
From Verif Require Import Base Node Vocab Tree Syntax Gorm GormSpec EntSQL EntSQLSpec SqlSpec SqlSpecDb SqlSpecEntDb SqlSpecWhere NestSpec ScopeSpec.

Lemma wanted_local : forall w R table has get lo heap code own col, innermost w R has get -> from_table w R table heap code ->
  forall e r env c, table c r -> at_home w R table has heap col (Some c) e ->
    wanted w R lo heap code own col (r :: env) (Some c) e = local w R get lo heap code own col r env (Some c) e.
Proof.
  intros w R table has get lo heap code own col IN FT. fix IH 1. intros [v|x|xs|xs|f args|e|e o t a b|e o|e o t ls|l o r'|e|l o r'] r env c T H; cbn [at_home wanted local] in *; try reflexivity; try contradiction.
  - now rewrite IN, (H r T).
  - destruct (streq f #"has_edge"); [|f_equal; destruct args; [reflexivity|now apply IH]].
    destruct args as [|[v|p|xs|xs|f' a|e|e o b x y|e o|e o pp ls|l o r'|e|l o r'] [|e2 [|e3 args]]]; try contradiction; [reflexivity|].
    destruct (target heap c p) as [t|] eqn:TG; [|contradiction]. apply (FT c p t); [exact TG|]. intros r' T'. f_equal. now apply IH.
  - now apply IH.
  - f_equal. now apply IH.
  - f_equal. now apply IH.
  - f_equal. now apply IH.
  - destruct H as [H1 H2]. f_equal; now apply IH.
  - f_equal. now apply IH.
  - destruct H as [H1 H2]. destruct (is_or o); f_equal; now apply IH.
Qed.
