(** Common vocabulary of the model: outcomes and machine integers. *)
From Coq Require Import List NArith ZArith Lia Bool.
Import ListNotations.

(** Result of a C++ call.  [Throw] is any C++ exception (YACL_ENFORCE,
    YACL_THROW); [UB] is undefined behaviour; [Diverge] is "fuel exhausted",
    used by loops whose termination is not structural. *)
Inductive outcome (A : Type) : Type :=
| Ok (a : A)
| Throw
| UB
| Diverge.
Arguments Ok {A} _.
Arguments Throw {A}.
Arguments UB {A}.
Arguments Diverge {A}.

Definition bind {A B : Type} (m : outcome A) (f : A -> outcome B) : outcome B :=
  match m with
  | Ok a => f a
  | Throw => Throw
  | UB => UB
  | Diverge => Diverge
  end.

Definition omap {A B : Type} (f : A -> B) (m : outcome A) : outcome B :=
  bind m (fun a => Ok (f a)).

Declare Scope outcome_scope.
Notation "'do' x <- m ; f" := (bind m (fun x => f))
  (at level 200, x pattern, m at level 100, f at level 200) : outcome_scope.
Open Scope outcome_scope.

(** YACL_ENFORCE(b). *)
Definition enforce {A : Type} (b : bool) (k : outcome A) : outcome A :=
  if b then k else Throw.

(** Wraparound of uint32_t and uint64_t. *)
Definition u32 (x : N) : N := (x mod 4294967296)%N.
Definition u64 (x : N) : N := (x mod 18446744073709551616)%N.
Definition max32 : N := 4294967296%N.
Definition max64 : N := 18446744073709551616%N.

(** First [n] elements and the rest. *)
Fixpoint split_at {A : Type} (n : nat) (l : list A) : list A * list A :=
  match n, l with
  | O, _ => ([], l)
  | _, [] => ([], [])
  | S k, x :: r => let '(a, b) := split_at k r in (x :: a, b)
  end.

(** [chunks n l]: [l] cut into pieces of [n] elements (last may be shorter);
    fuel is the list length, enough when n > 0. *)
Fixpoint chunks_aux {A : Type} (fuel : nat) (n : nat) (l : list A) : list (list A) :=
  match fuel with
  | O => []
  | S f =>
    match l with
    | [] => []
    | _ => firstn n l :: chunks_aux f n (skipn n l)
    end
  end.
Definition chunks {A : Type} (n : nat) (l : list A) : list (list A) :=
  chunks_aux (length l) n l.

(** Position-tagged list. *)
Fixpoint number {A : Type} (i : nat) (l : list A) : list (nat * A) :=
  match l with
  | [] => []
  | x :: r => (i, x) :: number (S i) r
  end.
