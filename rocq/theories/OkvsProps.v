(** Properties of the OKVS hash rows and of decoding. *)
From Coq Require Import List Arith NArith Bool Lia.
From Verif Require Import Base StoreModel GfModel GfSpec GfProofs GfProofs2 OkvsModel OkvsSpec OkvsProofs OkvsProofs2 OkvsProofs3 OkvsProofs4.
Import ListNotations.
Local Open Scope N_scope.

(** C53.  For every weight and sparse size there is one row per hash value - weight
    distinct columns below the sparse size - and every way of computing it gives it: alone
    or anywhere in a batch of 32, with or without AVX2, with any index type wide enough. *)
Theorem C53_rows : forall q,
  (1 <= ok_weight q)%nat -> N.of_nat (ok_weight q) <= ok_sparse q -> ok_sparse q <= 2 ^ 63 ->
  exists row : N -> list N,
    (forall h, h < 2 ^ 128 -> legal_row (ok_weight q) (ok_sparse q) (row h)) /\
    (forall avx w h, ok_sparse q <= 2 ^ w -> h < 2 ^ 128 -> build_row avx w q h = Ok (row h)) /\
    (forall avx w hs, ok_sparse q <= 2 ^ w -> Forall (fun h => h < 2 ^ 128) hs ->
       build_row32 avx w q hs = Ok (map row hs)).
Proof.
  intros q H1 H2 H3. exists (row_of q).
  assert (P : forall w, ok_sparse q <= 2 ^ w -> param_ok w q) by (intros; repeat split; assumption).
  split; [|split].
  - intros h Hh. apply (build_row_ok true 63 q h (P 63 H3) Hh).
  - intros avx w h Hw Hh. apply (build_row_ok avx w q h (P w Hw) Hh).
  - intros avx w hs Hw Hh. apply build_row32_ok; [apply P|]; assumption.
Qed.
Print Assumptions C53_rows.

(** Weight 3, sparse size 10: the three columns; weight 5 on sparse size 5 must use them all. *)
Example C53_example :
  build_row false 8 (mk_okvs 3 10 4 DBinary) (0x0123456789abcdef0fedcba987654321) = Ok [5; 6; 9] /\
  build_row32 true 16 (mk_okvs 3 10 4 DBinary) [7; 0x0123456789abcdef0fedcba987654321] = Ok [[7; 0; 1]; [5; 6; 9]] /\
  build_row true 8 (mk_okvs 5 5 4 DBinary) (0x0123456789abcdef0fedcba987654321) = Ok [0; 1; 2; 3; 4].
Proof. vm_compute. repeat split; reflexivity. Qed.

(** C54.  Baxos::Decode gives every key the value of its own bin's part of the table at
    its own row and dense coefficients - a function of the key and the table alone: not of
    the number of threads, the CPU, the position of the key or the other keys. *)
Theorem C54_baxos_decode : forall mul q, is_mul mul ->
  (1 <= ok_weight q <= 20)%nat -> N.of_nat (ok_weight q) <= ok_sparse q -> ok_sparse q <= 2 ^ 63 ->
  (ok_dt q = DGF128 -> 1 <= ok_dense q)%nat -> (ok_dt q = DBinary -> ok_dense q <= 64)%nat ->
  exists row : N -> list N,
    (forall h, h < 2 ^ 128 -> legal_row (ok_weight q) (ok_sparse q) (row h)) /\
    forall aes avx nb threads pp inputs,
      (forall x, aes x < 2 ^ 128) -> (1 <= nb)%nat -> Forall (fun x => x < 2 ^ 128) pp ->
      length pp = (nb * (N.to_nat (ok_sparse q) + ok_dense q))%nat ->
      baxos_decode aes avx nb q threads pp inputs =
      Ok (map (fun x =>
            let h := aes x in
            table_value mul (part (N.to_nat (ok_sparse q) + ok_dense q) (bin_number nb h) pp)
              (N.to_nat (ok_sparse q)) (row h)
              (match ok_dt q with DGF128 => powers mul h h (ok_dense q) | DBinary => bits01 h (ok_dense q) end))
          inputs).
Proof.
  intros mul q Hm H1 H2 H3 HG HB. exists (row_of q). split.
  { intros h Hh. apply (build_row_ok true 63 q h); [repeat split; try assumption; lia|assumption]. }
  intros aes avx nb threads pp inputs Ha Hnb Hpp Hl.
  assert (Hs : shape_ok 128 q).
  { unfold shape_ok. destruct (ok_dt q); split; try reflexivity; auto; discriminate. }
  rewrite baxos_decode_ok by assumption. f_equal. apply map_ext. intros x.
  unfold cv. rewrite (key_val_ext (gf_mul avx) mul); [|apply gf_is_mul|assumption|apply slice_below; assumption|apply Ha].
  unfold key_val, bin_slice, part, bno, bin_tail, bin_compress, bin_number, coefs.
  rewrite !N.shiftr_div_pow2. reflexivity.
Qed.
Print Assumptions C54_baxos_decode.

(** The same for a single Paxos table, also with 64-bit values (binary dense part). *)
Theorem C54_paxos_decode : forall mul q w vw, is_mul mul ->
  (1 <= ok_weight q)%nat -> N.of_nat (ok_weight q) <= ok_sparse q -> ok_sparse q <= 2 ^ 63 -> ok_sparse q <= 2 ^ w ->
  vw <= 128 -> (ok_dt q = DGF128 -> vw = 128 /\ (1 <= ok_dense q)%nat) -> (ok_dt q = DBinary -> ok_dense q <= 64)%nat ->
  exists row : N -> list N,
    (forall h, h < 2 ^ 128 -> legal_row (ok_weight q) (ok_sparse q) (row h)) /\
    forall aes avx pp inputs,
      (forall x, aes x < 2 ^ 128) -> Forall (fun x => x < 2 ^ vw) pp ->
      length pp = (N.to_nat (ok_sparse q) + ok_dense q)%nat ->
      paxos_decode aes avx w vw q pp inputs =
      Ok (map (fun x =>
            let h := aes x in
            table_value mul pp (N.to_nat (ok_sparse q)) (row h)
              (match ok_dt q with DGF128 => powers mul h h (ok_dense q) | DBinary => bits01 h (ok_dense q) end))
          inputs).
Proof.
  intros mul q w vw Hm H1 H2 H3 Hw Hv HG HB. exists (row_of q).
  assert (Hq : param_ok w q) by (repeat split; assumption). split.
  { intros h Hh. apply (build_row_ok true w q h); assumption. }
  intros aes avx pp inputs Ha Hpp Hl.
  assert (Hs : shape_ok vw q).
  { unfold shape_ok. destruct (ok_dt q); [split; auto|]. apply HG. reflexivity. }
  unfold paxos_decode. replace (N.of_nat (length pp) =? ok_sparse q + N.of_nat (ok_dense q)) with true
    by (symmetry; apply N.eqb_eq; lia).
  cbn [enforce]. rewrite decode_hashed_ok; try assumption.
  - rewrite map_map. f_equal. apply map_ext. intros x.
    rewrite (key_val_ext (gf_mul avx) mul); [reflexivity|apply gf_is_mul|assumption|apply (below_mono vw); assumption|apply Ha].
  - apply Forall_forall. intros h I. apply in_map_iff in I. destruct I as (x & <- & _). apply Ha.
Qed.
Print Assumptions C54_paxos_decode.

(** 33 keys (a batch of 32 and a single one), two bins of 4 + 2 entries, three threads. *)
Example C54_example :
  let q := mk_okvs 3 4 2 DGF128 in
  let aes x := 0x9e3779b97f4a7c15f39cc0605cedc835 * (x + 1) mod 2 ^ 128 in
  let pp := [11; 22; 33; 44; 55; 66; 7; 8; 9; 10; 11; 2 ^ 127] in
  baxos_decode aes true 2 q 3 pp [5; 6; 7; 8; 9; 10] = baxos_decode aes false 2 q 1 pp [5; 6; 7; 8; 9; 10] /\
  baxos_decode aes true 2 q 1 pp [7] = Ok [191436209515293569723481652839202893205] /\
  baxos_decode aes true 2 q 1 pp [7] = omap (fun l => [nth 7 l 0]) (baxos_decode aes true 2 q 0 pp (map N.of_nat (seq 0 40))).
Proof. vm_compute. repeat split; reflexivity. Qed.
