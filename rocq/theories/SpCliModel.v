(** Model of SpiralClient's keys and query on words: psi/algorithm/spiral/spiral_client.cc 105-353,
    discrete_gaussian.cc 52-83, GenTernaryMatrix, Noise and Stack (poly_matrix_utils.cc 164-192, 213-219) and
    RandomPrg, SingleValue and PadTop (poly_matrix.cc 141-145, 220-239, 283-288).

    yacl::crypto::Prg<uint64_t> is the stream of the words it has still to give; Fill takes as many words
    as there are entries.  The cumulative table of the discrete Gaussian (floating point) is any
    table; std::shuffle is any function.  sk_inited_ is set: Init generates the keys. *)
From Coq Require Import List Arith NArith ZArith Bool.
From Verif Require Import Base StoreModel PirPackModel SpArithModel SpLoopModel SpGadgetModel SpDecodeModel
  SpSelModel NttModel SpSrvModel.
Import ListNotations.
Local Open Scope N_scope.

Definition prg : Type := nat -> N.
Definition prg_fill (k : nat) (s : prg) : list N * prg := (map s (seq 0 k), fun i => s (k + i)%nat).

(** DiscreteGaussian (discrete_gaussian.h 31-42); max_val_ is not negative. *)
Record gaussian := Gaussian { dg_cdf : list N; dg_max : nat }.

(** DiscreteGaussian::Sample (discrete_gaussian.cc 52-70) of a drawn word; the modulus is below 2^63. *)
Definition sample (dg : gaussian) (modulus w : N) : outcome N :=
  let len := (2 * dg_max dg + 1)%nat in
  loop len 0 (fun k output =>
    let i := (len - 1 - k)%nat in
    let out_val := (Z.of_nat i - Z.of_nat (dg_max dg))%Z in
    let out_val := if (out_val <? 0)%Z then (out_val + Z.of_N modulus)%Z else out_val in
    do point <- get i (dg_cdf dg);
    Ok (if w <=? point then Z.to_N (out_val mod 2 ^ 64) else output)) 0.

Section Client.
Variable avx : bool.
Variable NP : ntt_params.
(** InvertUintMod. *)
Variable inv : N -> N -> N.
Variable P : sel_params.
Variable dg : gaussian.
Let n : nat := np_len NP.
Let W : nat := (length (np_moduli NP) * np_len NP)%nat.
Let q : N := w_modulus P.

(** * Secret keys *)

(** GenTernaryMatrix (poly_matrix_utils.cc 172-192) of a matrix of zeros; [shuffle i] is the call of
    std::shuffle for polynomial i.  The span is indexed without a check. *)
Definition ternary_poly (hamming : nat) : outcome (list N) :=
  loop hamming 0 (fun k p =>
    do p <- put k 1 p;
    put (k + hamming) (sub_u64 q 1) p) (repeat 0 n).
Definition gen_ternary (shuffle : nat -> list N -> list N) (rows hamming : nat) : outcome raw_mat :=
  fill_mat rows 1 (fun i _ => do p <- ternary_poly hamming; Ok (shuffle i p)).

(** * Samples *)

(** The two generators of a call: rng and rng_pub. *)
Definition prgs : Type := (prg * prg)%type.

(** Noise and SampleMatrix (poly_matrix_utils.cc 164-170, discrete_gaussian.cc 71-83). *)
Definition noise (rows cols : nat) (rng : prg) : outcome (raw_mat * prg) :=
  let (ws, rng) := prg_fill (rows * cols * n) rng in
  do d <- map_out (sample dg q) ws;
  Ok (RawMat rows cols d, rng).

(** PolyMatrixRaw::RandomPrg and ReduceMod (poly_matrix.cc 159-169, 232-239). *)
Definition random_prg (rows cols : nat) (rng_pub : prg) : outcome (raw_mat * prg) :=
  let (ws, rng_pub) := prg_fill (rows * cols * n) rng_pub in
  do (_, cr1) <- get_barrett_crs q;
  Ok (RawMat rows cols (map (fun x => barrett_raw_u64 x cr1 q) ws), rng_pub).

Definition pad_top (m : raw_mat) : outcome raw_mat :=
  copy_into W (ntt_zero NP (rm_rows m + 1) (rm_cols m)) m 1 0.
Definition stack (a b : raw_mat) : outcome raw_mat :=
  enforce (rm_cols a =? rm_cols b)%nat (
  do c <- copy_into n (raw_zero n (rm_rows a + rm_rows b) (rm_cols a)) a 0 0;
  copy_into n c b (rm_rows a) 0).

Variable sk_gsw sk_reg : raw_mat.

(** GetRegevSample (spiral_client.cc 140-157). *)
Definition get_regev_sample (st : prgs) : outcome (raw_mat * prgs) :=
  let (rng, rng_pub) := st in
  do (a, rng_pub) <- random_prg 1 1 rng_pub;
  do a_ntt <- to_ntt avx NP a;
  do ai <- invert_raw NP P a;
  do a_inv <- to_ntt avx NP ai;
  do (e, rng) <- noise 1 1 rng;
  do e_ntt <- to_ntt avx NP e;
  do sk_reg_ntt <- to_ntt avx NP sk_reg;
  do b_p <- multiply_ntt avx NP sk_reg_ntt a_ntt;
  do b <- add_ntt NP e_ntt b_p;
  do p <- copy_into W (ntt_zero NP 2 1) a_inv 0 0;
  do p <- copy_into W p b 1 0;
  Ok (p, (rng, rng_pub)).

(** GetFreshRegevPublicKey (spiral_client.cc 159-167). *)
Definition get_fresh_regev (m : nat) (st : prgs) : outcome (raw_mat * prgs) :=
  loop m 0 (fun i '(p, st) =>
    do (c, st) <- get_regev_sample st;
    do p <- copy_into W p c 0 i;
    Ok (p, st)) (ntt_zero NP 2 m, st).

(** GetFreshGswPublicKey (spiral_client.cc 122-138). *)
Definition get_fresh_gsw (m : nat) (st : prgs) : outcome (raw_mat * prgs) :=
  let (rng, rng_pub) := st in
  do (a, rng_pub) <- random_prg 1 m rng_pub;
  do a_ntt <- to_ntt avx NP a;
  do (e, rng) <- noise (sp_n P) m rng;
  do e_ntt <- to_ntt avx NP e;
  do a_inv <- invert_raw NP P a;
  do sk_gsw_ntt <- to_ntt avx NP sk_gsw;
  do b_p <- multiply_ntt avx NP sk_gsw_ntt a_ntt;
  do b <- add_ntt NP e_ntt b_p;
  do b_raw <- from_ntt avx NP inv b;
  do p <- stack a_inv b_raw;
  Ok (p, (rng, rng_pub)).

(** EncryptMatrixGsw and EncryptMatrixRegev (spiral_client.cc 169-188). *)
Definition encrypt_gsw (ag : raw_mat) (st : prgs) : outcome (raw_mat * prgs) :=
  do (p, st) <- get_fresh_gsw (rm_cols ag) st;
  do p_ntt <- to_ntt avx NP p;
  do padded <- pad_top ag;
  do r <- add_ntt NP p_ntt padded;
  Ok (r, st).
Definition encrypt_regev (a : raw_mat) (st : prgs) : outcome (raw_mat * prgs) :=
  do (p, st) <- get_fresh_regev (rm_cols a) st;
  do padded <- pad_top a;
  do r <- add_ntt NP p padded;
  Ok (r, st).

(** * Public keys *)

(** GenExpansionParams (spiral_client.cc 198-214). *)
Definition gen_expansion (num_exp m_exp : nat) (st : prgs) : outcome (list raw_mat * prgs) :=
  do g_exp <- build_gadget n (sp_ml P) 1 m_exp;
  do g_exp_ntt <- to_ntt avx NP g_exp;
  loop num_exp 0 (fun i '(res, st) =>
    let t := (n / 2 ^ i + 1)%nat in
    do tau_sk_reg <- automorphism NP P t sk_reg;
    do tau_sk_reg_ntt <- to_ntt avx NP tau_sk_reg;
    do prod <- multiply_ntt avx NP tau_sk_reg_ntt g_exp_ntt;
    do (w, st) <- encrypt_regev prod st;
    Ok (res ++ [w], st)) ([], st).

(** PolyMatrixRaw::SingleValue (poly_matrix.cc 220-224). *)
Definition single_value (v : N) : outcome raw_mat :=
  do d <- put 0 v (repeat 0 n);
  Ok (RawMat 1 1 d).

(** v_packing_ (spiral_client.cc 231-247). *)
Definition gen_packing (st : prgs) : outcome (list raw_mat * prgs) :=
  do sk_reg_ntt <- to_ntt avx NP sk_reg;
  do gadget_conv <- build_gadget n (sp_ml P) 1 (sp_conv P);
  do gadget_conv_ntt <- to_ntt avx NP gadget_conv;
  do scaled <- scalar_multiply NP sk_reg_ntt gadget_conv_ntt;
  loop (sp_n P) 0 (fun i '(res, st) =>
    do ag <- copy_into W (ntt_zero NP (sp_n P) (sp_conv P)) scaled i 0;
    do (w, st) <- encrypt_gsw ag st;
    Ok (res ++ [w], st)) ([], st).

(** v_conversion_[0] (spiral_client.cc 255-278). *)
Definition gen_conversion (st : prgs) : outcome (raw_mat * prgs) :=
  do sk_reg_ntt <- to_ntt avx NP sk_reg;
  do g_conv <- build_gadget n (sp_ml P) 2 (2 * sp_conv P);
  do sk_reg_square_ntt <- multiply_ntt avx NP sk_reg_ntt sk_reg_ntt;
  loop (2 * sp_conv P) 0 (fun i '(v, st) =>
    let row := (i mod 2)%nat in
    do val <- get ((row * rm_cols g_conv + i) * n) (rm_data g_conv);
    do sv <- single_value val;
    do val_ntt <- to_ntt avx NP sv;
    do sigma <- multiply_ntt avx NP (if (row =? 0)%nat then sk_reg_square_ntt else sk_reg_ntt) val_ntt;
    do (ct, st) <- encrypt_regev sigma st;
    do v <- copy_into W v ct 0 i;
    Ok (v, st)) (ntt_zero NP 2 (2 * sp_conv P), st).

(** GenPublicKeys (spiral_client.cc 216-280). *)
Definition gen_public_keys (st : prgs) : outcome public_keys :=
  do (packing, st) <- gen_packing st;
  do (kleft, st) <- gen_expansion (sp_g P) (sp_left P) st;
  do (kright, st) <- gen_expansion (sp_stop P + 1) (sp_right P) st;
  do (conv, _) <- gen_conversion st;
  Ok (PublicKeys packing kleft kright [conv]).

(** * The query *)

(** sigma of GenQueryInternal (spiral_client.cc 282-347).  Shifting 1ULL by 64 or more is undefined. *)
Definition gen_sigma (idx : nat) : outcome (list N) :=
  let further_dims := sp_v2 P in
  let idx_dim0 := (idx / 2 ^ further_dims)%nat in
  let idx_further := (idx mod 2 ^ further_dims)%nat in
  let scale_k := q / Z.to_N (sp_p P) in
  do bits <- get_bits_per (sp_ml P) (sp_gsw P);
  do (cr0, cr1) <- get_barrett_crs q;
  let inv_first := inv (2 ^ N.of_nat (sp_g P)) q in
  let inv_rest := inv (2 ^ N.of_nat (sp_stop P + 1)) q in
  let s := repeat 0 n in
  if (further_dims =? 0)%nat then
    do s <- loop (2 ^ sp_v1 P) 0 (fun i s => if (i =? idx_dim0)%nat then put i scale_k s else Ok s) s;
    loop n 0 (fun i s =>
      do x <- get i s;
      put i (multiply_uint_mod x inv_first q cr0 cr1) s) s
  else
    do s <- loop (2 ^ sp_v1 P) 0 (fun i s => if (i =? idx_dim0)%nat then put (2 * i) scale_k s else Ok s) s;
    do s <- loop further_dims 0 (fun l s =>
        let bit := Nat.testbit idx_further l in
        loop (sp_gsw P) 0 (fun k s =>
          do val <- (if bit then if (64 <=? bits * k)%nat then UB else Ok (2 ^ N.of_nat (bits * k)) else Ok 0);
          put (2 * (l * sp_gsw P + k) + 1) val s) s) s;
    loop (n / 2) 0 (fun i s =>
      do x <- get (2 * i) s;
      do s <- put (2 * i) (multiply_uint_mod x inv_first q cr0 cr1) s;
      do y <- get (2 * i + 1) s;
      put (2 * i + 1) (multiply_uint_mod y inv_rest q cr0 cr1) s) s.

(** The ciphertext of the query (spiral_client.cc 348-352). *)
Definition gen_query (idx : nat) (st : prgs) : outcome raw_mat :=
  do sigma <- gen_sigma idx;
  do sigma_ntt <- to_ntt avx NP (RawMat 1 1 sigma);
  do (ct, _) <- encrypt_regev sigma_ntt st;
  from_ntt avx NP inv ct.
End Client.
