(** What a two-party PSI on one bucket has to deliver to the receiver. *)
From Coq Require Import List NArith Permutation.
From Verif Require Import Base Text StoreModel.
Import ListNotations.

(** [r] lists, in some order and each once, the positions in [rb] of the items
    that [sb] also has, with the sender's extra duplicate count. *)
Definition exact_on (rb sb : list bitem) (r : list (nat * N)) : Prop :=
  NoDup (map fst r) /\
  forall i c, In (i, c) r <->
    exists x y, nth_error rb i = Some x /\ In y sb /\ b_data y = b_data x /\ b_dup y = c.

(** [w] lists each own index once, and exactly those of own items the other
    party also has, with the other party's extra duplicate count. *)
Definition own_matches (own other : list bitem) (w : list (N * N)) : Prop :=
  NoDup (map fst w) /\
  forall i c, In (i, c) w <->
    exists x y, In x own /\ In y other /\ b_data y = b_data x /\ b_index x = i /\ b_dup y = c.
