(** Quoted names in two dialects, as an instance of what [SqlSpec.quotes] asks
    for.  gorm's dialects quote every part of a dotted name by itself. *)
From Verif Require Import Base Vocab Tree Syntax Gorm GormSpec SqlSpec.

Section Dialect.
  Variable q : N.                                                      (* ` or a double quote *)
  Definition quote_part (c : N) : list N := if (c =? 46)%N then [q; 46%N; q] else [c].
  Definition quote_name (x : list N) : list N := q :: flat_map quote_part x ++ [q].
  (** the inside of a quoted name *)
  Fixpoint in_quotes (t : list N) : option (list N * list N) :=
    match t with
    | [] => None
    | c :: r =>
        if (c =? q)%N then
          match r with
          | d :: d' :: r' =>
              if ((d =? 46) && (d' =? q))%N then match in_quotes r' with Some (x, t) => Some (46%N :: x, t) | None => None end
              else Some ([], r)
          | _ => Some ([], r)
          end
        else match in_quotes r with Some (x, t) => Some (c :: x, t) | None => None end
    end.
  Definition lex_name (t : list N) : option (list N * list N) :=
    match t with c :: r => if (c =? q)%N then in_quotes r else None | [] => None end.

  (** no table, column or relation contains the quote character *)
  Definition no_quote (x : list N) : bool := negb (mem q x).
  Definition clean_table (t : table) : bool := forallb no_quote (tByDB t) && forallb (fun p => no_quote (snd p)) (tByName t) && forallb (fun p => no_quote (snd p)) (tFields t).
  Definition clean_schema (sch : schema) : bool :=
    clean_table (sTable sch) &&
    forallb (fun r => no_quote (fst r) && match snd r with Some t => clean_table t | None => true end) (sRelations sch).

  Hypothesis q_out : unquoted q = false.
  Hypothesis q_dot : (q =? 46)%N = false.
  Lemma in_quotes_ok : forall x t, ~ In q x -> ends_name t -> in_quotes (flat_map quote_part x ++ [q] ++ t) = Some (x, t).
  Proof.
    induction x as [|c x IH]; intros t H E.
    - cbn [flat_map app in_quotes]. rewrite N.eqb_refl. destruct t as [|d [|d' t]]; try reflexivity.
      destruct (N.eqb_spec d 46) as [K|K]; [|reflexivity]. subst d. discriminate E.
    - cbn [flat_map]. unfold quote_part at 1. destruct (N.eqb_spec c 46) as [K|K].
      + cbn [app in_quotes]. rewrite !N.eqb_refl. cbn [andb]. change (q :: t) with ([q] ++ t). rewrite IH; [now rewrite K|intro X; apply H; now right|exact E].
      + cbn [app in_quotes]. destruct (N.eqb_spec c q) as [K'|K']; [exfalso; apply H; now left|].
        change (q :: t) with ([q] ++ t). rewrite IH; [reflexivity|intro X; apply H; now right|exact E].
  Qed.
  Lemma dialect_quotes : forall P : list N -> Prop, (forall x, P x -> ~ In q x) -> quotes lex_name quote_name (fun c => c) P.
  Proof.
    intros P HP. split; [|split].
    - intros c t H. cbn [lex_name]. destruct (N.eqb_spec c q) as [K|K]; [|reflexivity]. subst c. rewrite q_out in H. discriminate.
    - discriminate.
    - intros x t H E. unfold quote_name. cbn [app lex_name]. rewrite N.eqb_refl, <- app_assoc. now apply in_quotes_ok; [apply HP|].
  Qed.

  Lemma no_quote_out : forall x, no_quote x = true -> ~ In q x.
  Proof.
    intros x H I. unfold no_quote in H. apply negb_true_iff in H. unfold mem in H.
    enough (E : existsb (N.eqb q) x = true) by (rewrite E in H; discriminate). apply existsb_exists. exists q. split; [exact I|apply N.eqb_refl].
  Qed.
  Lemma assoc_in : forall (A : Type) k l (v : A), assoc k l = Some v -> exists k', In (k', v) l /\ streq k k' = true.
  Proof.
    intros A k l v. induction l as [|[k' v'] l IH]; cbn [assoc]; [discriminate|]. destruct (streq k k') eqn:E.
    - intro H. injection H as <-. exists k'. split; [now left|exact E].
    - intro H. destruct (IH H) as (k2 & I & K). exists k2. split; [now right|exact K].
  Qed.
  Variable fold_eq : list N -> list N -> bool.
  Lemma clean_resolves : forall t x c, clean_table t = true -> resolves fold_eq t x c -> ~ In q c.
  Proof.
    intros t x c H R. unfold clean_table in H. apply andb_prop in H as [H H3]. apply andb_prop in H as [H1 H2].
    rewrite forallb_forall in H1, H2, H3. apply no_quote_out. destruct R as [I|db _ A|b f db a _ _ E _ _].
    - now apply H1.
    - apply assoc_in in A as (k & I & _). exact (H2 _ I).
    - apply (H3 (f, db)). rewrite E. apply in_or_app. right. now left.
  Qed.
  Lemma clean_column : forall sch c, clean_schema sch = true -> is_column fold_eq sch c -> ~ In q c.
  Proof.
    intros sch c H (n & C). unfold clean_schema in H. apply andb_prop in H as [H1 H2]. rewrite forallb_forall in H2. destruct C as [db _ R|rel f t db _ _ A R].
    - exact (clean_resolves _ _ _ H1 R).
    - apply assoc_in in A as (k & I & K). apply streq_eq in K. subst k. specialize (H2 _ I). cbn [fst snd] in H2. apply andb_prop in H2 as [H2 H3].
      intro X. apply in_app_or in X as [X|X]; [exact (no_quote_out _ H2 X)|]. apply in_app_or in X as [X|X]; [|exact (clean_resolves _ _ _ H3 R X)].
      destruct X as [X|[]]. rewrite <- X in q_dot. discriminate q_dot.
  Qed.
  Lemma clean_quotes : forall sch, clean_schema sch = true -> quotes lex_name quote_name (fun c => c) (is_column fold_eq sch).
  Proof. intros sch H. apply dialect_quotes. intros x C. exact (clean_column _ _ H C). Qed.
End Dialect.
