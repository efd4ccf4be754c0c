(** Independent notions for C44. *)
From Coq Require Import List NArith Bool.
From Verif Require Import Text.
Import ListNotations.

(** The label stored with key [q], and the answer a receiver expects to a list of queries. *)
Fixpoint label_of (table : list (bytes * bytes)) (q : bytes) : option bytes :=
  match table with
  | [] => None
  | (k, v) :: t => if beqb k q then Some v else label_of t q
  end.
Definition expected (table : list (bytes * bytes)) (qs : list bytes) : list (bytes * bytes) :=
  flat_map (fun q => match label_of table q with Some v => [(q, v)] | None => [] end) qs.
