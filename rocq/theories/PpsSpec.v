(** Words for the statements about PpsModel. *)
From Coq Require Import List NArith Arith.
Import ListNotations.

(** The node of the tree over [k] reached by [path] ([true] is right). *)
Fixpoint tree_node (prg : N -> N * N) (path : list bool) (k : N) : N :=
  match path with
  | [] => k
  | b :: p => tree_node prg p (if b then snd (prg k) else fst (prg k))
  end.
(** No node above the leaves is 0. *)
Definition no_zero_node (prg : N -> N * N) (height : nat) (k : N) : Prop :=
  forall path, length path < height -> tree_node prg path k <> 0%N.

(** Shifting by [d] modulo [n] takes some element of [set] to [i]. *)
Definition shifts_to (n : N) (set : list N) (d i : N) : Prop := exists v, In v set /\ ((v + d) mod n = i)%N.

(** How often [x] occurs in the sets of a list. *)
Definition occurrences (x : N) (sets : list (list N)) : nat := length (filter (fun l => existsb (N.eqb x) l) sets).
