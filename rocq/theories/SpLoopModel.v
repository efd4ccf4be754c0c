(** Loops and array writes used by the Spiral matrix models. *)
From Coq Require Import List Arith.
From Verif Require Import Base StoreModel.
Import ListNotations.

(** for (i = s; i < s + n; ++i) st = f(i, st). *)
Fixpoint loop {S : Type} (n s : nat) (f : nat -> S -> outcome S) (st : S) : outcome S :=
  match n with
  | O => Ok st
  | Datatypes.S n' => do st' <- f s st; loop n' (Datatypes.S s) f st'
  end.

(** data[p] = v and the value of data[p]; out of range is undefined behaviour. *)
Definition put {A : Type} (p : nat) (v : A) (l : list A) : outcome (list A) :=
  if p <? length l then Ok (upd p (fun _ => v) l) else UB.

Definition get {A : Type} (p : nat) (l : list A) : outcome A :=
  match nth_error l p with Some v => Ok v | None => UB end.
