(** Specification of PIANO: entries of a database, and random tables in place of the pseudorandom
    function and the generators. *)
From Coq Require Import List NArith Bool Arith.
From Verif Require Import Base PianoModel.
Import ListNotations.

(** Entry [i] of a database of entries of [size] bytes. *)
Definition db_entry (size : nat) (db : list N) (i : nat) : list N := firstn size (skipn (i * size) db).

(** One index in each of [sets] chunks of [chunk] entries, chunk after chunk. *)
Definition one_per_chunk (chunk sets : nat) (q : list nat) : Prop :=
  length q = sets /\ forall i, i < sets -> nth i q 0 / chunk = i.

(** How many of the first [m] sets contain entry [idx]: set [i] has in every chunk the offset given by
    the function's value for [i] and the chunk. *)
Definition hits_at (prf : N -> N -> N) (chunk m idx : nat) : nat :=
  length (filter (fun i => Nat.eqb (N.to_nat (prf (N.of_nat i mod 2 ^ 32)%N (N.of_nat (idx / chunk)) mod N.of_nat chunk)) (idx mod chunk)) (seq 0 m)).

(** All lists of length [n] over [l]; one list of each of the lengths [ns]. *)
Fixpoint tuples {A : Type} (l : list A) (n : nat) : list (list A) :=
  match n with O => [[]] | S k => flat_map (fun a => map (cons a) (tuples l k)) l end.
Fixpoint pspace {A : Type} (l : list A) (ns : list nat) : list (list (list A)) :=
  match ns with [] => [[]] | n :: r => flat_map (fun p => map (cons p) (pspace l r)) (tuples l n) end.

(** The random choices of a run: the offsets of the primary sets; for every chunk its backup sets'
    offsets, each with the offset of the replacement of the same number; the offsets of the mask
    query of every round. *)
Definition pn_coins : Type := (list (list nat) * list (list (list nat * nat)) * list (list nat))%type.
Definition all_coins (chunk sets m1 m2 rounds : nat) : list pn_coins :=
  let rows := tuples (seq 0 chunk) sets in
  list_prod (list_prod (tuples rows m1) (pspace (list_prod rows (seq 0 chunk)) (repeat m2 sets))) (tuples rows rounds).
(** The function with these values: tags are numbered through the primary sets, then the backup
    sets of chunk after chunk. *)
Definition coin_prf (w : pn_coins) (tag x : N) : N :=
  let '(prims, pools, _) := w in
  N.of_nat (nth (N.to_nat x) (nth (N.to_nat tag) (prims ++ concat (map (map fst) pools)) []) 0).
Definition coin_repl (w : pn_coins) (ci k : nat) : N :=
  let '(_, pools, _) := w in N.of_nat (snd (nth k (nth ci pools []) ([], 0))).
Definition coin_queries (w : pn_coins) (qs : list nat) : list (nat * (nat -> N)) :=
  let '(_, _, masks) := w in combine qs (map (fun m i => N.of_nat (nth i m 0)) masks).

(** Whether the server sees [view]. *)
Definition sees (r : outcome (list (pn_entry * list nat * bool))) (view : list (list nat)) : bool :=
  match r with
  | Ok es => if list_eq_dec (list_eq_dec Nat.eq_dec) (map (fun e => snd (fst e)) es) view then true else false
  | _ => false
  end.
