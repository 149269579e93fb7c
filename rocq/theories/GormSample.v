(** A sample schema for examples and refutations: columns id, user_name, a, b,
    c and a relation Profile with the column age.  As in gorm, the relation is
    also a field, with an empty column name. *)
From Verif Require Import Base Vocab Tree Gorm.

Definition lo2 (c : N) : N := c.
Definition fold2 (a b : list N) : bool := streq (map ascii_lower a) (map ascii_lower b).
Definition quote2 (c : list N) : list N := #"`" ++ c ++ #"`".
Definition prof2 : table := Table [#"age"] [(#"Age", #"age")] [(#"Age", #"age")].
Definition tab2 : table :=
  Table [#"id"; #"user_name"; #"a"; #"b"; #"c"]
    [(#"ID", #"id"); (#"UserName", #"user_name"); (#"A", #"a"); (#"B", #"b"); (#"C", #"c"); (#"Profile", [])]
    [(#"ID", #"id"); (#"UserName", #"user_name"); (#"A", #"a"); (#"B", #"b"); (#"C", #"c"); (#"Profile", [])].
Definition sch2 : schema := Schema tab2 [(#"Profile", Some prof2)].
Definition db2 : gdb := DB (Some sch2) None [] [] [].

