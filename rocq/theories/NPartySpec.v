(** What N-party PSI must deliver. *)
From Coq Require Import List Sorting.Permutation.
Import ListNotations.

(** Exact two-party PSI: the common elements, each once. *)
Definition exact_two_party {X : Type} (psi : list X -> list X -> list X) : Prop :=
  forall a b, NoDup a -> NoDup b -> NoDup (psi a b) /\ forall x, In x (psi a b) <-> In x a /\ In x b.

(** The elements held by all of n parties. *)
Definition common {X : Type} (n : nat) (inputs : nat -> list X) (x : X) : Prop :=
  forall r, r < n -> In x (inputs r).
