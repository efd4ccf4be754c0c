(** Specification for KMPRT17 multi-party PSI. *)
From Coq Require Import List NArith.
From Verif Require Import Base.
Import ListNotations.

(** Everybody has [x]. *)
Definition everybodys {A : Type} (inputs : list (list A)) (x : A) : Prop := Forall (fun i => In x i) inputs.
(** [a] is [b] with elements left out. *)
Inductive subseq {A : Type} : list A -> list A -> Prop :=
| sub_nil : subseq [] []
| sub_keep : forall x a b, subseq a b -> subseq (x :: a) (x :: b)
| sub_skip : forall x a b, subseq a b -> subseq a (x :: b).
(** [x] first stands at place [p] of [l]. *)
Definition first_at {A : Type} (x : A) (p : nat) (l : list A) : Prop := nth_error l p = Some x /\ ~ In x (firstn p l).
