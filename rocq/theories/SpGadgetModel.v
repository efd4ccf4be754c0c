(** Model of psi/algorithm/spiral/gadget.cc.

    A PolyMatrixRaw (poly_matrix.h 30-180) is its row and column count and the flat vector
    data_; poly_len is a parameter.  WEAK_ENFORCE is taken to throw; in builds where it is
    compiled out the shapes it checks are the callers' duty.  Index computations do not
    overflow size_t. *)
From Coq Require Import List Arith NArith.
From Verif Require Import Base StoreModel SpLoopModel.
Import ListNotations.

Record raw_mat := RawMat { rm_rows : nat; rm_cols : nat; rm_data : list N }.

Section Gadget.
Variable poly_len : nat.
(** params.ModulusLog2() (params.h 358). *)
Variable modulus_log2 : nat.

(** PolyMatrixRaw::PolyStartIndex (poly_matrix.h 115-117). *)
Definition poly_start (m : raw_mat) (row col : nat) : nat := (row * rm_cols m + col) * poly_len.

(** PolyMatrixRaw::Zero (poly_matrix.h 161-163). *)
Definition raw_zero (rows cols : nat) : raw_mat := RawMat rows cols (repeat 0%N (poly_len * rows * cols)).

(** GetBitsPer (gadget.cc 26-32). *)
Definition get_bits_per (dim : nat) : outcome nat :=
  if dim =? modulus_log2 then Ok 1
  else if dim =? 0 then UB
  else Ok (modulus_log2 / dim + 1).

(** BuildGadget (gadget.cc 34-53). *)
Definition build_gadget (rows cols : nat) : outcome raw_mat :=
  let g := raw_zero rows cols in
  if rows =? 0 then UB
  else
    enforce (cols mod rows =? 0)
      (let num := cols / rows in
       do bits <- get_bits_per num;
       do d <- loop rows 0 (fun i d =>
                 loop num 0 (fun j d =>
                   if 64 <=? bits * j then Ok d
                   else put (poly_start g i (i + j * rows)) (2 ^ N.of_nat (bits * j))%N d) d)
               (rm_data g);
       Ok (RawMat rows cols d)).

(** GadgetInvertRdim (gadget.cc 55-84); [inp.Poly(i, j)] is called with the column first. *)
Definition gadget_invert_rdim (out inp : raw_mat) (rdim : nat) : outcome raw_mat :=
  enforce (rm_cols out =? rm_cols inp)
    (if rdim =? 0 then UB
     else
       let num := rm_rows out / rdim in
       do bits <- get_bits_per num;
       if 64 <=? bits then UB
       else
         let mask := (2 ^ N.of_nat bits - 1)%N in
         do d <- loop (rm_cols inp) 0 (fun i d =>
                   loop rdim 0 (fun j d =>
                     loop poly_len 0 (fun z d =>
                       do val <- get (poly_start inp i j + z) (rm_data inp);
                       loop num 0 (fun k d =>
                         let bit_offs := Nat.min (k * bits) 64 in
                         let piece := if 64 <=? bit_offs then 0%N
                                      else N.land (N.shiftr val (N.of_nat bit_offs)) mask in
                         put (poly_start out (j + k * rdim) i + z) piece d) d) d) d)
                 (rm_data out);
         Ok (RawMat (rm_rows out) (rm_cols out) d)).

(** GadgetInvert (gadget.h 32-35). *)
Definition gadget_invert (out inp : raw_mat) : outcome raw_mat :=
  gadget_invert_rdim out inp (rm_rows inp).
End Gadget.
