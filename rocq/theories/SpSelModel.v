(** How a Spiral query selects one plaintext: SpiralClient's key and query generation
    (psi/algorithm/spiral/spiral_client.cc 122-353) and SpiralServer::ProcessQuery up to the modulus
    switch (spiral_server.cc 464-744, 762-880), on polynomials (SpRingModel).

    The random masks and the noise are parameters.  The recipient's view of the keys is what
    GenPublicKeys returns; serialisation is not part of this file.  yacl::parallel_for is a
    plain loop: its iterations touch different entries.  Vectors of ciphertexts and the columns
    of a matrix are functions on indices; lists are used where the number of keys matters. *)
From Coq Require Import List Arith NArith ZArith Bool.
From Verif Require Import Base SpArithModel SpGadgetModel SpDecodeSpec SpRingModel SpRingSpec.
Import ListNotations.
Local Open Scope Z_scope.

(** What of Params matters here (params.h 78-140): poly_len_, modulus_, modulus_log2_, pt_modulus_,
    n_, the numbers of digits, db_dim1_ and db_dim2_. *)
Record sel_params := SelParams {
  sp_len : nat; sp_q : Z; sp_ml : nat; sp_p : Z; sp_n : nat;
  sp_conv : nat; sp_left : nat; sp_right : nat; sp_gsw : nat;
  sp_v1 : nat; sp_v2 : nat }.

(** A 2 by 1 matrix of polynomials. *)
Definition ct : Type := (poly * poly)%type.

Section Sel.
Variable P : sel_params.
Local Notation n := (sp_len P).
Local Notation q := (sp_q P).

(** GetBitsPer (gadget.cc 26-32); the numbers of digits are not zero. *)
Definition bits_for (dim : nat) : nat :=
  match get_bits_per (sp_ml P) dim with Ok b => b | _ => 0%nat end.

(** Entry j of row 0 of BuildGadget(1, _) (gadget.cc 34-53). *)
Definition gad (bits j : nat) : Z := if (64 <=? bits * j)%nat then 0 else 2 ^ Z.of_nat (bits * j).

(** GadgetInvert of a polynomial, and of a 2 by 1 matrix: the digits of the two rows alternate
    (gadget.cc 55-84, rows j + k * rdim). *)
Definition ginv1 (bits : nat) (a : poly) (k : nat) : poly := pdigit q bits k a.
Definition ginv2 (bits : nat) (c : ct) (x : nat) : poly :=
  pdigit q bits (x / 2) (if Nat.even x then fst c else snd c).
(** Column x of BuildGadget(2, _). *)
Definition gadget2 (bits x : nat) : ct :=
  if Nat.even x then (pconst (gad bits (x / 2)), pzero) else (pzero, pconst (gad bits (x / 2))).

Definition ct_zero : ct := (pzero, pzero).
Definition ct_add (a b : ct) : ct := (padd (fst a) (fst b), padd (snd a) (snd b)).
Definition ct_opp (a : ct) : ct := (popp (fst a), popp (snd a)).
Definition ct_scale (p : poly) (a : ct) : ct := (pmul n p (fst a), pmul n p (snd a)).

(** Multiply of a 2 by m matrix, given by its columns, and an m by 1 matrix. *)
Definition lincomb (m : nat) (w : nat -> ct) (d : nat -> poly) : ct :=
  (psum m (fun k => pmul n (fst (w k)) (d k)), psum m (fun k => pmul n (snd (w k)) (d k))).

(** * The client *)

(** GetRegevSample plus the message in the lower row: one column of EncryptMatrixRegev
    (spiral_client.cc 140-157, 181-188). *)
Definition regev (s a e m : poly) : ct := (popp a, padd (padd e (pmul n s a)) m).

(** The exponent of round i (spiral_client.cc 207, spiral_server.cc 478). *)
Definition round_t (i : nat) : nat := (n / 2 ^ i + 1)%nat.

(** GenExpansionParams (spiral_client.cc 198-214); a and e are the masks and the noise. *)
Definition expansion_keys (s : poly) (num m_exp : nat) (a e : nat -> nat -> poly) : list (nat -> ct) :=
  map (fun i k => regev s (a i k) (e i k) (pmul n (paut n (round_t i) s) (pconst (gad (bits_for m_exp) k))))
      (seq 0 num).

(** v_conversion_ (spiral_client.cc 256-277). *)
Definition conversion_key (s : poly) (a e : nat -> poly) : nat -> ct :=
  fun i => regev s (a i) (e i)
    (if Nat.even i then pmul n (pmul n s s) (pconst (gad (bits_for (sp_conv P)) (i / 2)))
     else pmul n s (pconst (gad (bits_for (sp_conv P)) (i / 2)))).

(** v_packing_ (spiral_client.cc 231-247, EncryptMatrixGsw 169-179, GetFreshGswPublicKey 122-138):
    for every i the n + 1 rows of every column k.  [S r] is row r of sk_gsw_. *)
Definition packing_keys (s : poly) (S : nat -> poly) (a : nat -> nat -> poly) (e : nat -> nat -> nat -> poly)
  : list (nat -> nat -> poly) :=
  map (fun i k row =>
         match row with
         | O => popp (a i k)
         | Datatypes.S r => padd (padd (e i r k) (pmul n (S r) (a i k)))
                       (if Nat.eqb r i then pmul n s (pconst (gad (bits_for (sp_conv P)) k)) else pzero)
         end) (seq 0 (sp_n P)).

(** params.h 241-252. *)
Definition sp_g : nat := Nat.log2_up (sp_gsw P * sp_v2 P + 2 ^ sp_v1 P).
Definition sp_stop : nat := Nat.log2_up (sp_gsw P * sp_v2 P).

(** The polynomial GenQueryInternal encrypts when db_dim2_ is not zero (spiral_client.cc 282-347);
    [inv_first] and [inv_rest] are the results of InvertUintMod.  Shifting 1ULL by 64 or more
    is undefined. *)
Definition query_sigma (idx : nat) (inv_first inv_rest : Z) : outcome poly :=
  let idx_dim0 := (idx / 2 ^ sp_v2 P)%nat in
  let idx_further := (idx mod 2 ^ sp_v2 P)%nat in
  let bits := bits_for (sp_gsw P) in
  let scale_k := q / sp_p P in
  if existsb (fun l => Nat.testbit idx_further l) (seq 0 (sp_v2 P))
     && existsb (fun k => 64 <=? bits * k)%nat (seq 0 (sp_gsw P))
  then UB
  else Ok (fun z =>
    let i := (z / 2)%nat in
    if Nat.even z then
      ((if (Nat.eqb i idx_dim0 && (i <? 2 ^ sp_v1 P)%nat)%bool then scale_k else 0) * inv_first) mod q
    else
      ((if (i <? sp_v2 P * sp_gsw P)%nat then
          if Nat.testbit idx_further (i / sp_gsw P) then 2 ^ Z.of_nat (bits * (i mod sp_gsw P)) else 0
        else 0) * inv_rest) mod q).

(** * The server *)

(** action_expand (spiral_server.cc 482-555) past the two early returns; the digits are those of the
    unreduced words. *)
Definition expand_one (i digits : nat) (w : nat -> ct) (f : ct) : ct :=
  let t := round_t i in
  let c0 := praut n q t (fst f) in
  let c1 := praut n q t (snd f) in
  ct_add (ct_add f (lincomb digits w (fun k => rdigit (bits_for digits) k c0))) (pzero, c1).

Definition action_expand (stop maxr : nat) (left right : list (nat -> ct)) (i j : nat) (f : ct) : ct :=
  let cond1 := ((0 <? stop) && (stop <? i) && (j mod 2 =? 1))%nat%bool in
  let cond2 := ((0 <? stop) && (i =? stop) && (j mod 2 =? 1) && (maxr <=? j / 2))%nat%bool in
  if (cond1 || cond2)%bool then f
  else if (negb (i =? 0) && (j mod 2 =? 0))%nat%bool
       then expand_one i (sp_left P) (nth i left (fun _ => ct_zero)) f
       else expand_one i (sp_right P) (nth i right (fun _ => ct_zero)) f.

(** GetVneg1 (spiral_server.cc 959-969). *)
Definition neg1 (i : nat) : poly := popp (pmono (n - 2 ^ i)).

(** One round of CoefficientExpansion (spiral_server.cc 558-564). *)
Definition expand_round (stop maxr : nat) (left right : list (nat -> ct)) (i : nat) (v : nat -> ct) : nat -> ct :=
  fun x =>
    if (x <? 2 ^ i)%nat then action_expand stop maxr left right i x (v x)
    else if (x <? 2 ^ (i + 1))%nat
         then let j := (x - 2 ^ i)%nat in action_expand stop maxr left right i j (ct_scale (neg1 i) (v j))
         else v x.

Fixpoint coefficient_expansion (g stop maxr : nat) (left right : list (nat -> ct)) (v : nat -> ct) : nat -> ct :=
  match g with
  | O => v
  | S i => expand_round stop maxr left right i (coefficient_expansion i stop maxr left right v)
  end.

(** RegevToGsw (spiral_server.cc 762-801), one ciphertext: column 2j + 1 is input j and column 2j
    its product with the conversion key. *)
Definition regev_to_gsw (conv : nat -> ct) (inp : nat -> ct) (x : nat) : ct :=
  let c := inp (x / 2)%nat in
  if Nat.even x then lincomb (2 * sp_conv P) conv (ginv2 (bits_for (sp_conv P)) c) else c.

(** ExpandQuery (spiral_server.cc 804-880): the first dimension and the folding ciphertexts.
    The two YACL_ENFORCE are the conditions of the first test; db_dim2_ is not zero. *)
Definition expand_query (left right : list (nat -> ct)) (conv : nat -> ct) (query : ct)
  : outcome ((nat -> ct) * (nat -> nat -> ct)) :=
  let right_expanded := (sp_gsw P * sp_v2 P)%nat in
  let half := (2 ^ sp_g / 2)%nat in
  if ((half <? 2 ^ sp_v1 P) || (half <? right_expanded))%nat%bool then Throw
  else
    let v := coefficient_expansion sp_g sp_stop right_expanded left right
               (fun x => if Nat.eqb x 0 then query else ct_zero) in
    let reg := fun i => v (2 * i)%nat in
    let gsw_inp := fun i => v (2 * i + 1)%nat in
    Ok (reg, fun l => regev_to_gsw conv (fun j => gsw_inp (l * sp_gsw P + j)%nat)).

(** MultiplyRegByDatabase (spiral_server.cc 882-956) for one trial: entry i is the sum over j of
    plaintext j * num_per + i times first-dimension ciphertext j.  The word layout of the database and of
    the reoriented ciphertexts is not modelled. *)
Definition first_dim (db : nat -> poly) (reg : nat -> ct) (i : nat) : ct :=
  let dim0 := (2 ^ sp_v1 P)%nat in
  let num_per := (2 ^ sp_v2 P)%nat in
  lincomb dim0 reg (fun j => db (j * num_per + i)%nat).

(** The polynomial stored for a plaintext, ReorientDatabase (spiral_server.cc 1037-1060);
    [pt trial item z] is database[item][trial * poly_len + z]. *)
Definition db_poly (pt : nat -> nat -> nat -> N) (trial item : nat) : poly :=
  fun z => match recenter_mod (pt trial item z) (Z.to_N (sp_p P)) (Z.to_N q) with Ok v => Z.of_N v | _ => 0 end.

(** GetVFoldingNeg (spiral_server.cc 609-629). *)
Definition folding_neg (c : nat -> ct) (x : nat) : ct :=
  ct_add (gadget2 (bits_for (sp_gsw P)) x) (ct_opp (c x)).

(** FoldCiphertexts (spiral_server.cc 568-607); [left_dims] rounds are left and 2^left_dims entries
    are alive; the folding ciphertext is number left_dims - 1. *)
Fixpoint fold_cts (left_dims : nat) (folding : nat -> nat -> ct) (v : nat -> ct) : nat -> ct :=
  match left_dims with
  | O => v
  | S l =>
    let num_per := (2 ^ l)%nat in
    let bits := bits_for (sp_gsw P) in
    fold_cts l folding (fun i =>
      if (i <? num_per)%nat then
        ct_add (lincomb (2 * sp_gsw P) (folding l) (ginv2 bits (v (num_per + i)%nat)))
               (lincomb (2 * sp_gsw P) (folding_neg (folding l)) (ginv2 bits (v i)))
      else v i)
  end.

(** Pack (spiral_server.cc 631-680): row [row] of column j. *)
Definition pack_cts (v_ct : nat -> ct) (keys : list (nat -> nat -> poly)) (row j : nat) : poly :=
  psum (sp_n P) (fun i =>
    let c := v_ct (i * sp_n P + j)%nat in
    let w := nth i keys (fun _ _ => pzero) in
    padd (if Nat.eqb row (i + 1) then snd c else pzero)
         (psum (sp_conv P) (fun k => pmul n (w k row) (ginv1 (bits_for (sp_conv P)) (fst c) k)))).

(** ProcessQuery (spiral_server.cc 682-744), one partition, before the modulus switch;
    [db trial item] is the polynomial of that trial of plaintext [item]. *)
Definition process_query (left right : list (nat -> ct)) (conv : nat -> ct) (keys : list (nat -> nat -> poly))
           (db : nat -> nat -> poly) (query : ct) : outcome (nat -> nat -> poly) :=
  do rf <- expand_query left right conv query;
  Ok (pack_cts (fun trial => fold_cts (sp_v2 P) (snd rf) (first_dim (db trial) (fst rf)) 0%nat) keys).

(** FromNtt of the packed ciphertext (spiral_server.cc 742-743): canonical residues, row by row. *)
Definition response_mat (out : nat -> nat -> poly) : raw_mat :=
  RawMat (sp_n P + 1) (sp_n P)
    (map (fun p => Z.to_N (out (p / n / sp_n P)%nat ((p / n) mod sp_n P)%nat (p mod n)%nat mod q))
         (seq 0 ((sp_n P + 1) * sp_n P * n))).
End Sel.
