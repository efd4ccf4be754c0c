(** What a pass over a shuffled provider must return. *)
From Coq Require Import List NArith Permutation.
From Verif Require Import ShufModel.
Import ListNotations.

(** Entries numbered 0,1,2,...; their shuffled indices are all positions of [all], each once; and
    every entry is the item at its shuffled index. *)
Definition shuffled_pass {Item : Type} (all : list (Item * N)) (es : list (sentry Item)) : Prop :=
  map (fun e => snd (fst e)) es = seq 0 (length all) /\
  Permutation (map snd es) (seq 0 (length all)) /\
  Forall (fun e => nth_error all (snd e) = Some (fst (fst e))) es.
