(** Matching of two lists of values, abstractly. *)
From Coq Require Import List NArith Bool Sorting.Permutation.
Import ListNotations.
Local Open Scope N_scope.

(** The ranges cover [0, n) once, in some order (what parallel_for hands to its workers). *)
Definition covers (n : nat) (ranges : list (nat * nat)) : Prop :=
  Permutation (flat_map (fun r => seq (fst r) (snd r - fst r)) ranges) (seq 0 n).

(** M lists exactly the pairs (i, j) with equal truncated values, each once. *)
Definition exact_matches (trunc : N -> N) (selfs peers : list N) (M : list (nat * nat)) : Prop :=
  NoDup M /\
  forall i j, In (i, j) M <->
    exists v u, nth_error selfs i = Some v /\ nth_error peers j = Some u /\ trunc v = trunc u.
