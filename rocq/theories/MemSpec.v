(** What in-memory PSI promises. *)
From Coq Require Import List NArith Bool Arith.
From Verif Require Import Base Text.
Import ListNotations.

(** The items all parties have. *)
Definition in_all (inputs : list (list bytes)) (x : bytes) : Prop := forall l, In l inputs -> In x l.

(** [out] is what the parties get when [r] goes to the receiver, or to everybody. *)
Definition handed (everybody : bool) (receiver : nat) (r : list bytes) (out : list (list bytes)) (n : nat) : Prop :=
  length out = n /\
  forall rank l, nth_error out rank = Some l -> l = if everybody || Nat.eqb rank receiver then r else [].

(** The common items, each once. *)
Definition exact (inputs : list (list bytes)) (r : list bytes) : Prop :=
  NoDup r /\ forall x, In x r <-> in_all inputs x.
