(** Specification of matching two lists of (point, duplicate count). *)
From Coq Require Import List NArith Bool.
From Verif Require Import Base Text.
Import ListNotations.

(** Points are byte strings, counts fit in uint32_t. *)
Definition good_input (it : bytes * N) : Prop := Forall is_byte (fst it) /\ (snd it < max32)%N.

(** The positions of [self]'s items that occur in [peer], in order, each with the
    count of the first equal item of [peer]. *)
Definition match1 (peer : list (bytes * N)) (p : nat * (bytes * N)) : list (N * N) :=
  match find (fun q => beqb (fst q) (fst (snd p))) peer with
  | Some q => [(N.of_nat (fst p), snd q)]
  | None => []
  end.
Definition matches (self peer : list (bytes * N)) : list (N * N) :=
  flat_map (match1 peer) (number 0 self).

(** Number of rows the items stand for: count + 1 each, as a uint32_t. *)
Definition rows_of (counts : list N) : N := u32 (fold_right (fun c a => c + 1 + a)%N 0%N counts).

(** Position of the last item of [saved] equal to [ct], and its count. *)
Definition last_match (saved : list (bytes * N)) (ct : bytes) : option (N * N) :=
  fold_left (fun r p => if beqb (fst (snd p)) ct then Some (N.of_nat (fst p), snd (snd p)) else r)
            (number 0 saved) None.

(** (self position, peer position, self count, peer count) for all peer items
    that were saved, in peer order. *)
Definition all_pairs (saved peer : list (bytes * N)) : list (N * N * N * N) :=
  flat_map (fun p => match last_match saved (fst (snd p)) with
                     | Some (i, d) => [(i, N.of_nat (fst p), d, snd (snd p))]
                     | None => []
                     end) (number 0 peer).

(** Positions of the members of [items] in [l]. *)
Definition positions (items l : list bytes) : list N :=
  flat_map (fun p => if existsb (beqb (snd p)) items then [N.of_nat (fst p)] else []) (number 0 l).
