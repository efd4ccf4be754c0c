(** Specification vocabulary for the packing: bit strings, most significant bit first. *)
From Coq Require Import List NArith.
Import ListNotations.

(** The low [k] bits of [v], most significant first. *)
Fixpoint bits (k : nat) (v : N) : list bool :=
  match k with
  | O => []
  | S k' => N.testbit v (N.of_nat k') :: bits k' v
  end.

(** Concatenation of the [k]-bit strings of the words. *)
Definition bitstring (k : nat) (l : list N) : list bool := flat_map (bits k) l.
