(** Independent notions for C45, C60 and C61. *)
From Coq Require Import List NArith ZArith Bool.
From Verif Require Import Text.
Import ListNotations.

(** The rows of a table with a given key, and of all queried keys, in query order. *)
Definition rows_with (table : list (bytes * list bytes)) (q : bytes) : list (bytes * list bytes) :=
  filter (fun r => beqb (fst r) q) table.
Definition rows_of (table : list (bytes * list bytes)) (qs : list bytes) : list (bytes * list bytes) :=
  flat_map (rows_with table) qs.
(** How many of the queried keys occur. *)
Definition known (table : list (bytes * list bytes)) (qs : list bytes) : list bytes :=
  filter (fun q => existsb (fun r => beqb (fst r) q) table) qs.

(** Tables whose labels can be merged and split again: [n] labels per row, free of the two
    separator characters. *)
Definition mergeable (n : nat) (table : list (bytes * list bytes)) : Prop :=
  n <> 0 /\ forall k ls l, In (k, ls) table -> length ls = n /\ (In l ls -> ~ In 30%N l /\ ~ In 31%N l).
