(** What parties started by Kuscia rely on. *)
From Coq Require Import List NArith ZArith Permutation.
From Verif Require Import Base Text KusModel.
Import ListNotations.

(** A task file of the party [me] in a cluster of parties [names], as Kuscia gives it:
    the parties may come in any order, every one has an address and this one a port. *)
Definition task_of (names : list bytes) (me : bytes) (t : ktask) : Prop :=
  Permutation (map kp_name (k_parties t)) names /\
  (exists p, at_z (k_parties t) (k_self t) = Ok p /\ kp_name p = me) /\
  Forall (fun p => exists e es r, kp_services p = (e :: es) :: r) (k_parties t) /\
  k_ports t <> [] /\
  (exists c, config_at (k_configs t) me = Ok c /\ l_parties c = []).

(** One name comes before another: the first byte that differs is smaller, or the name is a
    proper beginning of the other. *)
Inductive before : bytes -> bytes -> Prop :=
| before_prefix : forall y b, before [] (y :: b)
| before_byte : forall x y a b, (x < y)%N -> before (x :: a) (y :: b)
| before_next : forall x a b, before a b -> before (x :: a) (x :: b).
