(** Vocabulary for C72. *)
From Verif Require Import Base Gorm.
(** the conditions, joins and errors of a handle are as before *)
Definition untouched (d d' : gdb) : Prop := dJoins d' = dJoins d /\ dWheres d' = dWheres d /\ dErrors d' = dErrors d.
