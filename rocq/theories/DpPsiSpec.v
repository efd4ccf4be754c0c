(** What differentially private PSI should do, stated without the code's loops and messages. *)
From Coq Require Import List NArith Bool Arith Reals.
From Verif Require Import Base Text.
Import ListNotations.

(** The elements whose coin came up: coin [k] belongs to the [k]-th element. *)
Definition kept {A : Type} (coin : nat -> bool) (l : list A) : list A :=
  map snd (filter (fun p => coin (fst p)) (number 0 l)).

(** Is the item one of the set's? *)
Definition held (set : list bytes) (x : bytes) : bool := existsb (beqb x) set.

(** All outcomes of [n] coins, the probability of one when each shows [true] with probability
    [p], and the probability of an event about two independent batches of coins. *)
Fixpoint coin_lists (n : nat) : list (list bool) :=
  match n with
  | O => [[]]
  | S m => map (cons true) (coin_lists m) ++ map (cons false) (coin_lists m)
  end.
Definition coin_of (l : list bool) (k : nat) : bool := nth k l false.
Fixpoint coins_weight (p : R) (l : list bool) : R :=
  match l with
  | [] => 1%R
  | b :: r => ((if b then p else 1 - p) * coins_weight p r)%R
  end.
Fixpoint sumR {A : Type} (f : A -> R) (l : list A) : R :=
  match l with [] => 0%R | x :: r => (f x + sumR f r)%R end.
Definition probability (n1 : nat) (p1 : R) (n2 : nat) (p2 : R) (event : (nat -> bool) -> (nat -> bool) -> bool) : R :=
  sumR (fun x => sumR (fun y =>
     (coins_weight p1 x * coins_weight p2 y * (if event (coin_of x) (coin_of y) then 1 else 0))%R)
     (coin_lists n2)) (coin_lists n1).

(** DpPsiOptions (dp_psi.h 32-40): the probabilities chosen for a privacy budget [eps]. *)
Definition keep_prob (eps : R) : R := (exp eps / (1 + exp eps))%R.
Definition fake_prob (eps : R) : R := (1 - keep_prob eps)%R.

(** An answer as one bit per row: the positions of its [true]s counted from [i], and its
    probability when each row is reported on its own, with probability [p] if it is common and
    [q] if it is not. *)
Definition picked (i : nat) (b : list bool) : list nat := map fst (filter snd (number i b)).
Fixpoint report_weight (p q : R) (common b : list bool) : R :=
  match common, b with
  | m :: r, c :: s => ((let t := if m then p else q in if c then t else 1 - t) * report_weight p q r s)%R
  | _, _ => 1%R
  end.

(** How often an item occurs in a list of rows. *)
Definition occurrences (z : bytes) (l : list bytes) : nat := length (filter (beqb z) l).
