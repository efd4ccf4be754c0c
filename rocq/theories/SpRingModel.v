(** Polynomials modulo X^n + 1 with integer coefficients taken modulo q: the values Spiral computes
    with (psi/algorithm/spiral/poly_matrix.h, poly_matrix_utils.cc).

    A polynomial is its coefficient function; only indices below n matter.  A PolyMatrixNtt is
    represented by the polynomials it is the transform of: ToNtt and FromNtt change the
    representation, AddPoly, MultiplyPoly and MultiplyAddPoly (poly_matrix_utils.cc 38-122) are sum
    and product.  Coefficients are compared modulo q ([peq], SpRingSpec); the reductions the code performs
    are those of SpArithModel. *)
From Coq Require Import List Arith NArith ZArith.
From Verif Require Import SpDecodeSpec.
Import ListNotations.
Local Open Scope Z_scope.

Definition poly : Type := nat -> Z.

Section Ring.
Variable n : nat.
Variable q : Z.

Definition pzero : poly := fun _ => 0.
(** A constant, PolyMatrixRaw::SingleValue (poly_matrix.h). *)
Definition pconst (c : Z) : poly := fun z => match z with O => c | _ => 0 end.
Definition padd (a b : poly) : poly := fun z => a z + b z.
(** InvertPoly (poly_matrix_utils.cc 124-129). *)
Definition popp (a : poly) : poly := fun z => - a z.
Definition psub (a b : poly) : poly := padd a (popp b).
Definition pmul (a b : poly) : poly := negacyclic n a b.
(** X^k for k below n. *)
Definition pmono (k : nat) : poly := fun z => if Nat.eqb z k then 1 else 0.

(** AutomotphPoly (poly_matrix_utils.cc 131-143). *)
Definition paut (t : nat) (a : poly) : poly :=
  fold_left (fun res i =>
    let num := ((i * t) / n)%nat in
    let rem := ((i * t) mod n)%nat in
    let v := if Nat.even num then a i else - a i in
    fun z => if Nat.eqb z rem then v else res z) (seq 0 n) pzero.

(** The words AutomotphPoly writes when the words it reads are reduced: the negative of 0 is q. *)
Definition praut (t : nat) (a : poly) : poly :=
  fold_left (fun res i =>
    let num := ((i * t) / n)%nat in
    let rem := ((i * t) mod n)%nat in
    let v := if Nat.even num then a i mod q else q - a i mod q in
    fun z => if Nat.eqb z rem then v else res z) (seq 0 n) pzero.

(** Digit k of base 2^bits of every coefficient, as it is and reduced first (GadgetInvertRdim, gadget.cc 55-84; SpGadgetModel
    has the loops). *)
Definition rdigit (bits k : nat) (a : poly) : poly :=
  fun z => a z / 2 ^ Z.of_nat (bits * k) mod 2 ^ Z.of_nat bits.
Definition pdigit (bits k : nat) (a : poly) : poly :=
  fun z => (a z mod q) / 2 ^ Z.of_nat (bits * k) mod 2 ^ Z.of_nat bits.
End Ring.
