(** What the types of curves stand for, schedules of a parallel loop, and the keys of X25519. *)
From Coq Require Import List NArith Permutation.
From Verif Require Import Base Text CrypModel.
Import ListNotations.
Local Open Scope N_scope.

(** The comments in psi/proto/psi.proto 104-125: the curve of a type. *)
Definition documented_group (type : N) : option group :=
  match type with 1 | 5 => Some GCurve25519 | 2 => Some GFourQ | 3 => Some GSm2 | 4 => Some GSecp256k1 | _ => None end.

(** All elements through [f], or nothing if one has no image. *)
Fixpoint image {A B : Type} (f : A -> option B) (l : list A) : option (list B) :=
  match l with
  | [] => Some []
  | x :: l' => match f x, image f l' with Some y, Some ys => Some (y :: ys) | _, _ => None end
  end.
Definition all_or_throw {A : Type} (o : option (list A)) : outcome (list A) :=
  match o with Some l => Ok l | None => Throw end.

(** A run over [n] elements: every index once, and the batches of some way to cut [0 .. n). *)
Definition run_of (n : nat) (r : run) : Prop :=
  Permutation (seq 0 n) (r_indices r) /\
  exists sizes, list_sum sizes = n /\ Permutation (all_batches 0 sizes) (r_batches r).

(** The two libraries compute one function, and multiplications commute. *)
Definition libraries_agree (mul : group -> N -> bytes -> option bytes) (lane : bytes -> bytes -> bytes * bool) : Prop :=
  forall k p, mul GCurve25519 (scalar k) p = if snd (lane k p) then Some (fst (lane k p)) else None.
Definition mul2 (mul : group -> N -> bytes -> option bytes) (g : group) (a b : N) (p : bytes) : option bytes :=
  match mul g a p with Some q => mul g b q | None => None end.
Definition commuting (mul : group -> N -> bytes -> option bytes) : Prop := forall g a b p, mul2 mul g a b p = mul2 mul g b a p.

(** The keys of X25519, as in the comment of sodium_curve25519_cryptor.h 43-44. *)
Definition x25519_key (k : N) : Prop := exists j, j < 2 ^ 251 /\ k = 2 ^ 254 + 8 * j.
