(** Filtering lines by positions, abstractly. *)
From Coq Require Import List NArith Bool Sorting.Sorted Sorting.Permutation.
From Verif Require Import Base.
Import ListNotations.

(** Positions strictly increasing and within the data lines. *)
Definition good_positions (n : nat) (ind : list N) : Prop :=
  StronglySorted N.lt ind /\ Forall (fun i => (i < N.of_nat n)%N) ind.

(** The data lines whose position is (not) listed, in file order. *)
Definition pick {A : Type} (want : bool) (ind : list N) (data : list A) : list A :=
  map snd (filter (fun p => Bool.eqb (existsb (N.eqb (N.of_nat (fst p))) ind) want) (number 0 data)).
