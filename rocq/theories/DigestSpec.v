(** Independent notions for C47 and C48. *)
From Coq Require Import List NArith Bool.
From Verif Require Import Text.
Import ListNotations.

(** Positions of the own keys that every other party holds too. *)
Definition common_positions (own : list bytes) (others : list (list bytes)) : list N :=
  map N.of_nat (filter (fun i => forallb (fun ks => existsb (beqb (nth i own [])) ks) others)
                       (seq 0 (length own))).

(** A set of keys none of which is empty or a proper prefix of another one, such as keys of one
    fixed length or keys ending in a character that occurs nowhere else. *)
Definition prefix_free (P : bytes -> Prop) : Prop :=
  ~ P [] /\ forall a b r, P a -> P b -> b = a ++ r -> r = [].

Definition of_length (n : nat) (k : bytes) : Prop := length k = n.
