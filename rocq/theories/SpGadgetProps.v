(** C42: gadget decomposition recomposes. *)
From Coq Require Import List NArith Arith Bool Lia.
From Verif Require Import Base StoreModel SpLoopModel SpGadgetModel SpGadgetSpec SpGadgetProofs.
Import ListNotations.

(** For a one column matrix: BuildGadget(rdim, num * rdim) is constant in every entry, the
    digits are small, and the gadget times the digits is the first [rdim] rows of the input. *)
Theorem C42_gadget_recomposes : forall poly_len ml rdim num bits inp out,
  1 <= poly_len -> 1 <= rdim -> 1 <= num -> ml <= 64 ->
  get_bits_per ml num = Ok bits -> bits < 64 ->
  rm_cols inp = 1 -> rdim <= rm_rows inp -> length (rm_data inp) = rm_rows inp * poly_len ->
  Forall (fun v => (v < 2 ^ N.of_nat ml)%N) (rm_data inp) ->
  rm_rows out = num * rdim -> rm_cols out = 1 -> length (rm_data out) = num * rdim * poly_len ->
  exists g o, build_gadget poly_len ml rdim (num * rdim) = Ok (RawMat rdim (num * rdim) g)
    /\ gadget_invert_rdim poly_len ml out inp rdim = Ok (RawMat (num * rdim) 1 o)
    /\ (forall r t z, r < rdim -> t < num * rdim -> 0 < z < poly_len ->
          coeff poly_len (num * rdim) g r t z = 0%N)
    /\ (forall t z, t < num * rdim -> z < poly_len -> (coeff poly_len 1 o t 0 z < 2 ^ N.of_nat bits)%N)
    /\ forall r z, r < rdim -> z < poly_len ->
         nsum (num * rdim) (fun t => coeff poly_len (num * rdim) g r t 0 * coeff poly_len 1 o t 0 z)%N
         = coeff poly_len 1 (rm_data inp) r 0 z.
Proof.
  intros poly_len ml rdim num bits inp out H1 H2 H3 H4 H5 H6 H7 H8 H9 H10 H11 H12 H13.
  destruct (recompose poly_len ml H1 rdim num bits inp out) as (g & o & Eg & Eo & Hz & Hd & Hs); auto;
    try (rewrite H7; lia).
  rewrite H7 in *. exists g, o. split; [exact Eg|]. split; [exact Eo|]. split; [exact Hz|].
  split; [intros; apply Hd; auto|].
  intros r z Hr Hzz. rewrite (Hs r 0 z) by lia. unfold coeff. f_equal. lia.
Qed.

(** With several columns the input is read with row and column exchanged, so the identity
    fails even for square inputs; no caller in the repository passes more than one column. *)
Theorem C42_columns_refuted : exists poly_len ml num bits inp out g o,
  1 <= poly_len /\ 1 <= num /\ ml <= 64 /\ get_bits_per ml num = Ok bits /\ bits < 64
  /\ length (rm_data inp) = rm_rows inp * rm_cols inp * poly_len
  /\ Forall (fun v => (v < 2 ^ N.of_nat ml)%N) (rm_data inp)
  /\ rm_rows out = num * rm_rows inp /\ rm_cols out = rm_cols inp
  /\ length (rm_data out) = rm_rows out * rm_cols out * poly_len
  /\ build_gadget poly_len ml (rm_rows inp) (num * rm_rows inp) = Ok g
  /\ gadget_invert poly_len ml out inp = Ok o
  /\ exists r c z, r < rm_rows inp /\ c < rm_cols inp /\ z < poly_len
     /\ nsum (num * rm_rows inp)
          (fun t => coeff poly_len (num * rm_rows inp) (rm_data g) r t 0
                    * coeff poly_len (rm_cols inp) (rm_data o) t c z)%N
        <> coeff poly_len (rm_cols inp) (rm_data inp) r c z.
Proof.
  exists 1, 4, 2, 3, (RawMat 2 2 [1; 2; 3; 15]%N), (RawMat 4 2 (repeat 0%N 8)).
  eexists _, _. split; [lia|]. split; [lia|]. split; [lia|]. split; [reflexivity|]. split; [lia|].
  split; [reflexivity|]. split; [repeat constructor|]. split; [reflexivity|]. split; [reflexivity|].
  split; [reflexivity|]. split; [reflexivity|]. split; [reflexivity|].
  exists 0, 1, 0. split; [cbn; lia|]. split; [cbn; lia|]. split; [lia|]. vm_compute. discriminate.
Qed.

(** Two polynomials of two coefficients, a 7 bit modulus in three digits of three bits. *)
Example C42_example :
  get_bits_per 7 3 = Ok 3
  /\ build_gadget 2 7 2 6
     = Ok (RawMat 2 6 [1; 0; 0; 0; 8; 0; 0; 0; 64; 0; 0; 0; 0; 0; 1; 0; 0; 0; 8; 0; 0; 0; 64; 0]%N)
  /\ gadget_invert 2 7 (RawMat 6 1 (repeat 9%N 12)) (RawMat 2 1 [100; 7; 127; 64]%N)
     = Ok (RawMat 6 1 [4; 7; 7; 0; 4; 0; 7; 0; 1; 0; 1; 1]%N).
Proof. repeat split. Qed.

Print Assumptions C42_gadget_recomposes.
Print Assumptions C42_columns_refuted.
