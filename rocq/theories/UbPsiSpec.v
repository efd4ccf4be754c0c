(** What unbalanced PSI must deliver, for tables given as lists of (key, extra copies). *)
From Coq Require Import List NArith.
From Verif Require Import Base.
Import ListNotations.

Section Spec.
Variable Item : Type.
Variable eqb : Item -> Item -> bool.
(** Every position of [self] whose key occurs in [peer], with the peer's extra copies of it. *)
Definition joined (self peer : list (Item * N)) : list (N * N) :=
  flat_map (fun p => match find (fun q => eqb (fst q) (fst (snd p))) peer with
                     | Some q => [(N.of_nat (fst p), snd q)]
                     | None => []
                     end) (number 0 self).
(** Number of rows, as a uint32_t. *)
Definition total_rows (t : list (Item * N)) : N := u32 (fold_right (fun e a => snd e + 1 + a)%N 0%N t).
End Spec.
