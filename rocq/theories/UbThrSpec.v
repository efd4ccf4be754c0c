(** Specification of threshold unbalanced PSI, for tables given as lists of (key, extra copies). *)
From Coq Require Import List NArith Bool Permutation.
From Verif Require Import Base.
Import ListNotations.

Section Spec.
Variable Item : Type.
Variable eqb : Item -> Item -> bool.
(** The rows of [t] whose key is in [keys]. *)
Definition rows_with (keys : list Item) (t : list (Item * N)) : list (Item * N) :=
  filter (fun e => existsb (eqb (fst e)) keys) t.
(** Key [x] stands at place [i] of table [t]. *)
Definition stands_at (t : list (Item * N)) (x : Item) (i : N) : Prop :=
  exists c, nth_error t (N.to_nat i) = Some (x, c).
End Spec.
(** A choice of one arrangement for every length. *)
Definition good_shuf (shuf : nat -> list nat) : Prop := forall n, Permutation (shuf n) (seq 0 n).
