(** Specification of threshold PSI. *)
From Coq Require Import List NArith Bool Permutation.
From Verif Require Import Base Text EcdhModel.
Import ListNotations.

(** The rows of [R] whose key [S] also has. *)
Definition common_rows (R S : list (bytes * N)) : list (bytes * N) :=
  filter (fun e => existsb (beqb (fst e)) (map fst S)) R.

(** [i] is the position of key [x] in [l]. *)
Definition is_at (l : list (bytes * N)) (x : bytes) (i : N) : Prop :=
  exists c, nth_error l (N.to_nat i) = Some (x, c).

(** What a provider may return: no empty batch before the end, duplicate counts for
    items of the batch only, as uint32_t. *)
Definition good_provider (bs : list (list bytes * dupmap)) : Prop :=
  Forall (fun b => fst b <> [] /\ Forall (fun e => fst e < length (fst b) /\ (snd e < max32)%N) (snd b)) bs.

(** One arrangement of the positions of each batch. *)
Definition good_shuffles (bs : list (list bytes * dupmap)) (shufs : list (list nat)) : Prop :=
  Forall2 (fun b s => Permutation s (seq 0 (length (fst b)))) bs shufs.

(** [P] lists every arrangement of 0 .. n-1 once. *)
Definition all_arrangements (n : nat) (P : list (list nat)) : Prop :=
  NoDup P /\ forall s, In s P <-> Permutation s (seq 0 n).

(** All ways to choose one element from each list. *)
Fixpoint choices {A : Type} (Ps : list (list A)) : list (list A) :=
  match Ps with
  | [] => [[]]
  | P :: r => flat_map (fun s => map (cons s) (choices r)) P
  end.
