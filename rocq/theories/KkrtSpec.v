(** What the KKRT exchange should deliver, independent of bins and hashes. *)
From Coq Require Import List NArith.
From Verif Require Import Base Text.
Import ListNotations.

(** [res] lists each own position at most once and exactly the positions of items
    the sender holds, with [val] of the sender's count. *)
Definition exact_result {P : Type} (pos : P -> nat) (val : N -> N)
  (codes : list N) (items : list (N * N)) (res : list (P * N)) : Prop :=
  NoDup (map (fun r => pos (fst r)) res) /\
  forall i c, (exists p, pos p = i /\ In (p, c) res) <->
    exists x cnt, nth_error codes i = Some x /\ In (x, cnt) items /\ c = val cnt.

(** Arrival of the corrections as seen by the encoding loop: never decreasing,
    never more than there are, complete after some time. *)
Definition arrivals (num_bins : N) (arr : nat -> N) : Prop :=
  (forall a b, (a <= b)%nat -> (arr a <= arr b)%N) /\ (forall a, (arr a <= num_bins)%N) /\
  exists T, arr T = num_bins.
