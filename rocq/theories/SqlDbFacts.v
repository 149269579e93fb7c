(** Proofs about [db_means]: by clauses, and where it is the meaning of the query. *)
From Verif Require Import Base Node Vocab Tree Syntax Gorm GormSpec SqlSpec SqlSpecDb.

Lemma add_last_app : forall r cs c, add_last r (cs ++ [c]) = cs ++ [c ++ [r]].
Proof. induction cs as [|x cs IH]; intro c; [reflexivity|]. cbn [app add_last]. rewrite IH. destruct cs; reflexivity. Qed.

Lemma joined_app : forall (V : Type) (f : V -> V -> V) none l x, l <> [] -> joined f none (l ++ [x]) = f (joined f none l) x.
Proof. intros V f none [|a l] x H; [easy|]. cbn [app joined]. now rewrite fold_left_app. Qed.

Section W.
  Variable w : world.
  Variable lo : N -> N.
  Variable nm : list (list N) -> wV w.
  Notation none := (wVal w GNil).
  Notation jand c := (joined (wAnd w) none (map (db_means w lo nm) c)).
  Notation jor cs := (joined (wOr w) none (map (fun c => jand c) cs)).

  Lemma parts_clauses : forall e, exists cs c, clauses e = cs ++ [c] /\ c <> [] /\ snd (db_parts w lo nm e) = jand c /\
    fst (db_parts w lo nm e) = match cs with [] => None | _ => Some (jor cs) end.
  Proof.
    induction e as [v|x|xs|xs|f args|e IH|e IH o t a b|e IH o|e IH o t ls|l IH1 o r IH2|e IH|l IH1 o r IH2]; try (eexists [], [_]; cbn [clauses app]; split; [reflexivity|]; split; [discriminate|]; now split).
    destruct IH1 as (cs & c & E1 & N1 & S1 & F1). cbn [clauses db_parts]. destruct (is_or o).
    - exists (cs ++ [c]), [r]. rewrite E1. split; [reflexivity|]. split; [discriminate|]. cbn [fst snd]. split; [reflexivity|].
      unfold whole. destruct (db_parts w lo nm l) as [d a]. cbn [fst snd] in *. subst. destruct cs as [|c1 cs]; [reflexivity|].
      change (match (c1 :: cs) ++ [c] with [] => None | _ => Some (jor ((c1 :: cs) ++ [c])) end) with (Some (jor ((c1 :: cs) ++ [c]))). f_equal.
      rewrite map_app. cbn [map]. rewrite joined_app by discriminate. reflexivity.
    - exists cs, (c ++ [r]). rewrite E1, add_last_app. split; [reflexivity|]. split; [now destruct c|]. cbn [fst snd]. split; [|exact F1].
      rewrite map_app. cbn [map]. rewrite joined_app by (now destruct c). now rewrite S1.
  Qed.

  Lemma db_clauses : forall e, db_means w lo nm e = jor (clauses e).
  Proof.
    intro e. destruct (parts_clauses e) as (cs & c & E & N1 & S1 & F1). unfold db_means, whole. destruct (db_parts w lo nm e) as [d a]. cbn [fst snd] in *. subst. rewrite E.
    destruct cs as [|c1 cs]; [reflexivity|]. rewrite map_app. cbn [map]. rewrite joined_app by discriminate. reflexivity.
  Qed.

  Lemma parts_loose : forall e, fst (db_parts w lo nm e) = None <-> loose_or e = false.
  Proof.
    induction e as [v|x|xs|xs|f args|e IH|e IH o t a b|e IH o|e IH o t ls|l IH1 o r IH2|e IH|l IH1 o r IH2]; try (split; reflexivity).
    cbn [db_parts loose_or]. destruct (is_or o); cbn [orb fst]; [split; discriminate|exact IH1].
  Qed.

  Lemma neat_db : forall e, neat lo e = true -> db_means w lo nm e = query_means w lo nm e.
  Proof.
    fix IH 1. intros [v|x|xs|xs|f args|e|e o t a b|e o|e o t ls|l o r|e|l o r] H; cbn [neat] in H; try reflexivity.
    - unfold db_means. cbn [db_parts whole query_means]. apply andb_prop in H as [_ H]. destruct args as [|a [|]]; try discriminate. f_equal. now apply IH.
    - unfold db_means. cbn [db_parts whole query_means]. now apply IH.
    - unfold db_means. cbn [db_parts whole query_means]. apply andb_prop in H as [H _]. apply andb_prop in H as [H _]. f_equal. now apply IH.
    - unfold db_means. cbn [db_parts whole query_means]. apply andb_prop in H as [H _]. apply andb_prop in H as [H _]. f_equal. now apply IH.
    - unfold db_means. cbn [db_parts whole query_means]. apply andb_prop in H as [H _]. apply andb_prop in H as [H _]. f_equal. now apply IH.
    - unfold db_means. cbn [db_parts whole query_means]. apply andb_prop in H as [H _]. apply andb_prop in H as [H _]. apply andb_prop in H as [H _]. apply andb_prop in H as [H1 H2]. f_equal; now apply IH.
    - unfold db_means. cbn [db_parts whole query_means]. f_equal. now apply IH.
    - apply andb_prop in H as [H H3]. apply andb_prop in H as [H1 H2]. pose proof (IH l H1) as E1. pose proof (IH r H2) as E2. clear IH.
      unfold db_means in *. cbn [db_parts query_means]. destruct (is_or o).
      + cbn [whole]. now rewrite E1, E2.
      + cbn [orb] in H3. apply Bool.negb_true_iff in H3. apply parts_loose in H3. rewrite E2. destruct (db_parts w lo nm l) as [d a]. cbn [fst snd whole] in *. subst d. now rewrite E1.
  Qed.
End W.

Lemma db_neat : forall lo nm e, simple lo e = true -> db_means free_world lo nm e = query_means free_world lo nm e -> neat lo e = true.
Proof.
  intros lo nm. fix IH 1. intros [v|x|xs|xs|f args|e|e o t a b|e o|e o t ls|l o r|e|l o r] H E; cbn [simple neat] in *; try reflexivity; try discriminate; unfold db_means in E; cbn [db_parts whole query_means] in E.
  - apply andb_prop in H as [H1 H]. destruct args as [|a [|]]; try discriminate. rewrite H1. injection E as E. now apply IH.
  - now apply IH.
  - apply andb_prop in H as [H H2]. apply andb_prop in H as [H H1]. injection E as E. now rewrite (IH e H E), H1, H2.
  - apply andb_prop in H as [H H2]. apply andb_prop in H as [H H1]. injection E as E. now rewrite (IH e H E), H1, H2.
  - apply andb_prop in H as [H H2]. apply andb_prop in H as [H H1]. injection E as E. now rewrite (IH e H E), H1, H2.
  - apply andb_prop in H as [H H5]. apply andb_prop in H as [H H4]. apply andb_prop in H as [H H3]. apply andb_prop in H as [H1 H2]. injection E as E1 E2. now rewrite (IH l H1 E1), (IH r H2 E2), H3, H4, H5.
  - injection E as E. now apply IH.
  - apply andb_prop in H as [H1 H2]. specialize (IH l H1) as I1. specialize (IH r H2) as I2. clear IH. unfold db_means in I1, I2. destruct (is_or o).
    + cbn [whole] in E. injection E as E1 E2. now rewrite (I1 E1), (I2 E2).
    + pose proof (parts_loose free_world lo nm l) as P. destruct (db_parts free_world lo nm l) as [[d|] a]; cbn [fst snd whole] in *; [discriminate|]. injection E as E1 E2.
      rewrite (I1 E1), (I2 E2). now rewrite (proj1 P eq_refl).
Qed.

Lemma db_exact : forall lo e, simple lo e = true ->
  (neat lo e = true <-> forall w nm, db_means w lo nm e = query_means w lo nm e).
Proof. intros lo e H. split; [intros N w nm; now apply neat_db|]. intro K. apply (db_neat lo (fun _ => QVal GNil) e H). exact (K free_world (fun _ => QVal GNil)). Qed.
