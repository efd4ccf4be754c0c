(** What the OPRF relies on and what it must deliver. *)
From Coq Require Import List NArith Bool.
From Verif Require Import GfSpec.
Import ListNotations.
Local Open Scope N_scope.

(** VOLE correlation between the arrays of the two sides: b_i = c_i + delta a_i in
    GF(2^128), all arrays of one length. *)
Definition vole (delta : N) (a b c : list N) : Prop :=
  length a = length b /\ length c = length b /\
  forall i ai bi ci, nth_error a i = Some ai -> nth_error b i = Some bi -> nth_error c i = Some ci ->
    ai < 2 ^ 128 /\ ci < 2 ^ 128 /\ field_product delta ai (N.lxor bi ci).
