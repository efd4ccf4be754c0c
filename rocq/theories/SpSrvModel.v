(** Model of SpiralServer's answer to a query on the words the code computes with:
    psi/algorithm/spiral/spiral_server.cc 464-956 and 958-1065, ReorientRegCiphertexts
    (spiral_client.cc 540-577), and the matrix operations of poly_matrix_utils.cc and
    poly_matrix.cc they use.

    Matrices are row count, column count and the flat vector (SpGadgetModel, NttModel).  WEAK_ENFORCE is
    taken to throw.  A subspan or memcpy that reads or writes past the end of the vector is undefined
    behaviour.  yacl::parallel_for is a plain loop: its iterations write different entries.  A
    matrix all of whose words are overwritten by a call is the result of that call.  Index
    computations do not overflow size_t. *)
From Coq Require Import List Arith NArith ZArith Bool.
From Verif Require Import Base StoreModel PirPackModel SpArithModel SpLoopModel SpGadgetModel SpDecodeModel
  SpSelModel NttModel.
Import ListNotations.
Local Open Scope N_scope.

Definition u128 (x : N) : N := x mod 2 ^ 128.

(** pks: v_packing_, v_expansion_left_, v_expansion_right_, v_conversion_ (public_keys.h 30-60). *)
Record public_keys := PublicKeys {
  pk_packing : list raw_mat; pk_left : list raw_mat; pk_right : list raw_mat; pk_conv : list raw_mat }.

Section Words.
Variable avx : bool.
Variable NP : ntt_params.
(** InvertUintMod. *)
Variable inv : N -> N -> N.
Variable P : sel_params.
Let n : nat := np_len NP.
Let crt : nat := length (np_moduli NP).
Let W : nat := (length (np_moduli NP) * np_len NP)%nat.

(** Params::Modulus(). *)
Definition w_modulus : N := Z.to_N (sp_q P).

(** * Matrix operations *)

(** WEAK_ENFORCE(res.Rows() == m.Rows()), WEAK_ENFORCE(res.Cols() == m.Cols()). *)
Definition has_shape (rows cols : nat) (m : raw_mat) : bool := (rm_rows m =? rows)%nat && (rm_cols m =? cols)%nat.

(** PolyMatrixNtt::Zero (poly_matrix.h 289-292). *)
Definition ntt_zero (rows cols : nat) : raw_mat := RawMat rows cols (repeat 0 (rows * cols * W)).

(** [words] words at (r, c), as memcpy reads them. *)
Definition read_poly (words : nat) (m : raw_mat) (r c : nat) : outcome (list N) :=
  if ((r * rm_cols m + c) * words + words <=? length (rm_data m))%nat then Ok (poly_at words m r c) else UB.

(** CopyInto (poly_matrix.cc 102-119, 243-261). *)
Definition copy_into (words : nat) (dst src : raw_mat) (row col : nat) : outcome raw_mat :=
  enforce ((row <? rm_rows dst) && (col <? rm_cols dst)
           && (row + rm_rows src <=? rm_rows dst) && (col + rm_cols src <=? rm_cols dst))%nat (
  do d <- loop (rm_rows src) 0 (fun r d =>
            loop (rm_cols src) 0 (fun c d =>
              do p <- read_poly words src r c;
              store (((row + r) * rm_cols dst + (col + c)) * words) p d) d) (rm_data dst);
  Ok (RawMat (rm_rows dst) (rm_cols dst) d)).

(** AutomotphPoly and Automorphism (poly_matrix_utils.cc 131-143, 243-263); res starts as zeros. *)
Definition automorph_poly (t : nat) (a : list N) : outcome (list N) :=
  loop n 0 (fun i res =>
    do v <- get i a;
    put ((i * t) mod n)%nat (if Nat.even ((i * t) / n) then v else sub_u64 w_modulus v) res) (repeat 0 n).
Definition automorphism (t : nat) (m : raw_mat) : outcome raw_mat :=
  fill_mat (rm_rows m) (rm_cols m) (fun r c => automorph_poly t (poly_at n m r c)).

(** InvertPoly and Invert (poly_matrix_utils.cc 124-129, 323-346). *)
Definition invert_raw (m : raw_mat) : outcome raw_mat :=
  fill_mat (rm_rows m) (rm_cols m) (fun r c =>
    map_out (fun i => do v <- get i (poly_at n m r c); Ok (sub_u64 w_modulus v)) (seq 0 n)).

(** ScalarMultiply (poly_matrix_utils.cc 221-233). *)
Definition scalar_multiply (a b : raw_mat) : outcome raw_mat :=
  enforce (has_shape 1 1 a) (
  fill_mat (rm_rows b) (rm_cols b) (fun i j => multiply_poly NP (poly_at W a 0 0) (poly_at W b i j))).

(** AddInto (poly_matrix_utils.cc 300-310). *)
Definition add_into (res a : raw_mat) : outcome raw_mat :=
  enforce ((rm_rows res =? rm_rows a) && (rm_cols res =? rm_cols a))%nat (
  fill_mat (rm_rows a) (rm_cols a) (fun i j => add_poly NP (poly_at W a i j) (poly_at W res i j))).

(** AddIntoAt (poly_matrix_utils.cc 312-321). *)
Definition add_into_at (res a : raw_mat) (t_row t_col : nat) : outcome raw_mat :=
  do d <- loop (rm_rows a) 0 (fun i d =>
            loop (rm_cols a) 0 (fun j d =>
              do x <- add_poly NP (poly_at W a i j) (poly_at W (RawMat (rm_rows res) (rm_cols res) d) (t_row + i) (t_col + j));
              store (((t_row + i) * rm_cols res + (t_col + j)) * W) x d) d) (rm_data res);
  Ok (RawMat (rm_rows res) (rm_cols res) d).

(** Multiply and FromNtt into a matrix of the given shape. *)
Definition multiply_into (rows cols : nat) (a b : raw_mat) : outcome raw_mat :=
  enforce ((rm_rows a =? rows) && (rm_cols b =? cols))%nat (multiply_ntt avx NP a b).
Definition from_ntt_into (rows cols : nat) (m : raw_mat) : outcome raw_mat :=
  enforce (has_shape rows cols m) (from_ntt avx NP inv m).

(** * Expanding the query *)

(** action_expand (spiral_server.cc 482-555). *)
Definition w_action (stop maxr : nat) (left right : list raw_mat) (i j : nat) (fj : raw_mat) : outcome raw_mat :=
  let cond1 := ((0 <? stop) && (stop <? i) && (j mod 2 =? 1))%nat%bool in
  let cond2 := ((0 <? stop) && (i =? stop) && (j mod 2 =? 1) && (maxr <=? j / 2))%nat%bool in
  if (cond1 || cond2)%bool then Ok fj
  else
    let t := (n / 2 ^ i + 1)%nat in
    let use_left := (negb (i =? 0) && (j mod 2 =? 0))%nat%bool in
    let keys := if use_left then left else right in
    let digits := if use_left then sp_left P else sp_right P in
    do w <- enforce (i <? length keys)%nat (get i keys);
    do ct <- from_ntt_into 2 1 fj;
    do ct_auto <- automorphism t ct;
    do gi_ct <- gadget_invert_rdim n (sp_ml P) (raw_zero n digits 1) ct_auto 1;
    do gi_ct_ntt <- to_ntt_no_reduce avx NP gi_ct;
    do ct_auto1 <- read_poly n ct_auto 1 0;
    do ct_auto1_ntt <- to_ntt avx NP (RawMat 1 1 ct_auto1);
    do wg <- multiply_into 2 1 w gi_ct_ntt;
    do d <- map_out (fun idx =>
              let row_idx := N.of_nat (idx / W) in
              let c := ((idx mod W) / n)%nat in
              let z := (idx mod n)%nat in
              do x <- get idx (rm_data fj);
              do y <- get idx (rm_data wg);
              do u <- get (c * n + z) (rm_data ct_auto1_ntt);
              let sum := u64 (u64 (x + y) + u64 (row_idx * u)) in
              do cr1 <- cr1_at NP c;
              do m <- modulus_at NP c;
              Ok (barrett_raw_u64 sum cr1 m)) (seq 0 (2 * W));
    Ok (RawMat 2 1 d).

(** CoefficientExpansion (spiral_server.cc 464-566). *)
Definition w_round (stop maxr : nat) (left right v_neg1 : list raw_mat) (i : nat) (v : list raw_mat)
  : outcome (list raw_mat) :=
  let num_in := (2 ^ i)%nat in
  do neg1 <- get i v_neg1;
  loop num_in 0 (fun j v =>
    do vj <- get j v;
    do x <- scalar_multiply neg1 vj;
    do v <- put (j + num_in) x v;
    do y <- w_action stop maxr left right i j vj;
    do v <- put j y v;
    do x <- w_action stop maxr left right i j x;
    put (j + num_in) x v) v.
Definition w_expansion (g stop maxr : nat) (left right v_neg1 : list raw_mat) (v : list raw_mat)
  : outcome (list raw_mat) :=
  loop g 0 (fun i v => w_round stop maxr left right v_neg1 i v) v.

(** GetVneg1 (spiral_server.cc 959-969); PolyLenLog2() is Log2 of the length. *)
Definition get_vneg1 : outcome (list raw_mat) :=
  map_out (fun j =>
    do d <- put (n - 2 ^ j) 1 (repeat 0 n);
    do m <- invert_raw (RawMat 1 1 d);
    to_ntt avx NP m) (seq 0 (Nat.log2 n)).

(** RegevToGsw (spiral_server.cc 762-801), idx_factor 1 and idx_offset 0, for [count] ciphertexts. *)
Definition w_regev_to_gsw (count : nat) (v_inp : list raw_mat) (v : raw_mat) : outcome (list raw_mat) :=
  enforce (has_shape 2 (2 * sp_conv P) v) (
  map_out (fun i =>
    loop (sp_gsw P) 0 (fun j ct =>
      let idx := (i * sp_gsw P + j)%nat in
      do inp <- enforce (idx <? length v_inp)%nat (get idx v_inp);
      do ct <- copy_into W ct inp 0 (2 * j + 1);
      do raw <- from_ntt_into 2 1 inp;
      do g <- gadget_invert n (sp_ml P) (raw_zero n (2 * sp_conv P) 1) raw;
      do g_ntt <- to_ntt avx NP g;
      do tmp <- multiply_into 2 1 v g_ntt;
      copy_into W ct tmp 0 (2 * j)) (ntt_zero 2 (2 * sp_gsw P))) (seq 0 count)).

(** ReorientRegCiphertexts (spiral_client.cc 540-577). *)
Definition reorient_reg (v_reg : list raw_mat) : outcome (list N) :=
  let dim0 := (2 ^ sp_v1 P)%nat in
  enforce (crt =? 2)%nat (
  do m0 <- modulus_at NP 0;
  enforce (N.log2 m0 <=? 32) (
  do first <- get 0 v_reg;
  enforce (has_shape 2 1 first) (
  do m1 <- modulus_at NP 1;
  loop dim0 0 (fun j out =>
    loop 2 0 (fun r out =>
      loop n 0 (fun z out =>
        do f <- get j v_reg;
        do a <- get (r * (crt * n) + z) (rm_data f);
        do b <- get (r * (crt * n) + n + z) (rm_data f);
        put (z * (dim0 * 2) + j * 2 + r) (N.lor (a mod m0) (u64 (b mod m1 * 2 ^ 32))) out) out) out)
    (repeat 0 (dim0 * 2 * n))))).

(** ExpandQuery (spiral_server.cc 804-880). *)
Definition w_expand_query (pks : public_keys) (query : raw_mat) : outcome (list N * list raw_mat) :=
  let dim0 := (2 ^ sp_v1 P)%nat in
  let further_dims := sp_v2 P in
  let right_expanded := (sp_gsw P * further_dims)%nat in
  let g := Nat.log2_up (right_expanded + dim0) in
  let stop_round := Nat.log2_up right_expanded in
  let v := repeat (ntt_zero 2 1) (2 ^ g) in
  enforce (dim0 <=? length v / 2)%nat (
  enforce (right_expanded <=? length v / 2)%nat (
  do query_ntt <- to_ntt avx NP query;
  do v0 <- get 0 v;
  do v0 <- copy_into W v0 query_ntt 0 0;
  do v <- put 0 v0 v;
  do conv <- get 0 (pk_conv pks);
  do v_neg1 <- get_vneg1;
  do (v_reg, v_gsw) <-
    (if (0 <? further_dims)%nat then
       do v <- w_expansion g stop_round right_expanded (pk_left pks) (pk_right pks) v_neg1 v;
       do v_reg <- map_out (fun i => get (2 * i) v) (seq 0 dim0);
       do v_gsw <- map_out (fun i => enforce (2 * i + 1 <? length v)%nat (get (2 * i + 1) v)) (seq 0 right_expanded);
       Ok (v_reg, v_gsw)
     else
       do v <- w_expansion g 0 0 (pk_left pks) (pk_right pks) v_neg1 v;
       do v_reg <- map_out (fun i => get i v) (seq 0 dim0);
       Ok (v_reg, []));
  do reoriented <- reorient_reg v_reg;
  do folding <- w_regev_to_gsw further_dims v_gsw conv;
  Ok (reoriented, folding))).

(** * The database *)

(** ReorientDatabase (spiral_server.cc 1020-1065), one instance; CalcIndex (util.cc 84-96) of
    {0, trial, z, ii, j}. *)
Definition reorient_database (database : list (list N)) : outcome (list N) :=
  let trials := (sp_n P * sp_n P)%nat in
  let dim0 := (2 ^ sp_v1 P)%nat in
  let num_per := (2 ^ sp_v2 P)%nat in
  let num_items := (dim0 * num_per)%nat in
  loop trials 0 (fun trial v =>
    loop num_items 0 (fun i v =>
      let ii := (i mod num_per)%nat in
      let j := (i / num_per)%nat in
      do item <- get i database;
      do coeffs <- (if (trial * n + n <=? length item)%nat then Ok (firstn n (skipn (trial * n) item)) else UB);
      do coeffs <- map_out (fun c => recenter_mod c (Z.to_N (sp_p P)) w_modulus) coeffs;
      do item_ntt <- to_ntt avx NP (RawMat 1 1 coeffs);
      loop n 0 (fun z v =>
        do lo <- get z (rm_data item_ntt);
        do hi <- get (n + z) (rm_data item_ntt);
        put (((trial * n + z) * num_per + ii) * dim0 + j) (N.lor lo (u64 (hi * 2 ^ 32))) v) v) v)
    (repeat 0 (trials * num_items * n)).

(** GenerateFromRawDataAndReorient (spiral_server.cc 430-462) from the plaintexts of every partition; [old] is
    reoriented_dbs_ before the call: the words and single_db_size_. *)
Definition set_database (old : list N) (parts : list (list (list N))) : outcome (list N * nat) :=
  match parts with
  | [part] => do db <- reorient_database part; Ok (db, length db)
  | _ =>
    loop (length parts) 0 (fun j '(dbs, single) =>
      do part <- get j parts;
      do tmp <- reorient_database part;
      let single := if (j =? 0)%nat then length tmp else single in
      enforce (single =? length tmp)%nat (Ok (dbs ++ tmp, single))) (old, 0%nat)
  end.

(** MultiplyRegByDatabase (spiral_server.cc 882-956): word (row, c, z) of out[i]; [start] is
    partition_idx * single_db_size_ + cur_db_idx. *)
Definition half (c : nat) (x : N) : N := if (c =? 0)%nat then u32 x else x / 2 ^ 32.
Definition db_word (db v_first_dim : list N) (start : nat) (i row c z : nat) : outcome N :=
  let dim0 := (2 ^ sp_v1 P)%nat in
  let num_per := (2 ^ sp_v2 P)%nat in
  do sum <- loop dim0 0 (fun jm sum =>
      do b <- get (start + z * (num_per * dim0) + i * dim0 + jm) db;
      do a <- get (z * (dim0 * 2) + jm * 2 + row) v_first_dim;
      Ok (u128 (sum + u64 (half c a * half c b)))) 0;
  do m <- modulus_at NP c;
  do (cr0, cr1) <- get_barrett_crs m;
  Ok (barrett_u128 sum cr0 cr1 m).
Definition multiply_reg_by_database (db v_first_dim : list N) (start : nat) : outcome (list raw_mat) :=
  map_out (fun i =>
    do d <- map_out (fun p => db_word db v_first_dim start i (p / (2 * n)) ((p / n) mod 2) (p mod n)) (seq 0 (2 * (2 * n)));
    Ok (RawMat 2 1 d)) (seq 0 (2 ^ sp_v2 P)).

(** * Folding and packing *)

(** GetVFoldingNeg (spiral_server.cc 609-629). *)
Definition get_vfolding_neg (folding : list raw_mat) : outcome (list raw_mat) :=
  do gadget <- build_gadget n (sp_ml P) 2 (2 * sp_gsw P);
  do gadget_ntt <- to_ntt avx NP gadget;
  map_out (fun i =>
    do f <- get i folding;
    do raw <- from_ntt avx NP inv f;
    do ninv <- enforce (has_shape 2 (2 * sp_gsw P) raw) (invert_raw raw);
    do ninv <- to_ntt avx NP ninv;
    add_ntt NP gadget_ntt ninv) (seq 0 (sp_v2 P)).

(** FoldCiphertexts (spiral_server.cc 568-607). *)
Definition w_fold_one (ell : nat) (f fneg : raw_mat) (a b : raw_mat) : outcome raw_mat :=
  do g <- gadget_invert n (sp_ml P) (raw_zero n (2 * ell) 1) a;
  do g_ntt <- to_ntt avx NP g;
  do prod <- multiply_into 2 1 fneg g_ntt;
  do g <- gadget_invert n (sp_ml P) g b;
  do g_ntt <- to_ntt avx NP g;
  do sum <- multiply_into 2 1 f g_ntt;
  do sum <- add_into sum prod;
  from_ntt_into 2 1 sum.
Definition w_fold (v_cts folding folding_neg : list raw_mat) : outcome (list raw_mat) :=
  if (length v_cts =? 1)%nat then Ok v_cts
  else
    let further_dims := Nat.log2 (length v_cts) in
    do f0 <- get 0 folding;
    let ell := (rm_cols f0 / 2)%nat in
    do (v, _) <- loop further_dims 0 (fun cur_dim '(v, num_per) =>
        let num_per := (num_per / 2)%nat in
        do v <- loop num_per 0 (fun i v =>
            do a <- get i v;
            do fneg <- get (further_dims - 1 - cur_dim) folding_neg;
            do b <- get (num_per + i) v;
            do f <- get (further_dims - 1 - cur_dim) folding;
            do r <- w_fold_one ell f fneg a b;
            put i r v) v;
        Ok (v, num_per)) (v_cts, length v_cts);
    Ok v.

(** Pack (spiral_server.cc 631-680). *)
Definition w_pack (v_ct v_w : list raw_mat) : outcome raw_mat :=
  let np := sp_n P in
  enforce (np * np <=? length v_ct)%nat (
  enforce (length v_w =? np)%nat (
  do c0 <- get 0 v_ct;
  enforce (has_shape 2 1 c0) (
  do w0 <- get 0 v_w;
  enforce (has_shape (np + 1) (sp_conv P) w0) (
  loop np 0 (fun j result =>
    do v_int <- loop np 0 (fun i v_int =>
        do w <- get i v_w;
        do ct <- get (i * np + j) v_ct;
        do ct1 <- read_poly n ct 0 0;
        do ct2 <- read_poly n ct 1 0;
        do ct2_ntt <- to_ntt avx NP (RawMat 1 1 ct2);
        do g_inv <- gadget_invert n (sp_ml P) (raw_zero n (sp_conv P) 1) (RawMat 1 1 ct1);
        do g_inv_ntt <- to_ntt avx NP g_inv;
        do prod <- multiply_into (np + 1) 1 w g_inv_ntt;
        do v_int <- add_into_at v_int ct2_ntt (i + 1) 0;
        add_into v_int prod) (ntt_zero (np + 1) 1);
    copy_into W result v_int 0 j) (ntt_zero (np + 1) np))))).

(** The answer for one partition (spiral_server.cc 726-743). *)
Definition answer_partition (db : list N) (single pidx : nat) (first : list N) (folding fneg v_packing : list raw_mat)
  : outcome raw_mat :=
  let slice := (2 ^ sp_v1 P * 2 ^ sp_v2 P * n)%nat in
  do v_ct <- map_out (fun trial =>
      do inter <- multiply_reg_by_database db first (pidx * single + trial * slice);
      do raws <- map_out (fun m => from_ntt_into 2 1 m) inter;
      do folded <- w_fold raws folding fneg;
      get 0 folded) (seq 0 (sp_n P * sp_n P));
  do packed <- w_pack v_ct v_packing;
  from_ntt avx NP inv packed.

(** ProcessQuery (spiral_server.cc 682-760); [single] is single_db_size_, [parts] partition_num_ and
    [q2] kQ2Values[Q2Bits()]. *)
Definition w_process_query (q2 : N) (db : list N) (single parts : nat) (pks : public_keys) (query : raw_mat)
  : outcome (list raw_mat) :=
  do (first, folding) <- w_expand_query pks query;
  do fneg <- get_vfolding_neg folding;
  do packed <- map_out (fun pidx => answer_partition db single pidx first folding fneg (pk_packing pks)) (seq 0 parts);
  map_out (fun ct => mod_switch n ct w_modulus (Z.to_N (sp_p P)) q2) packed.
End Words.
