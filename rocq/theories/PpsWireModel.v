(** Model of the messages of the two-server PIR: experiment/pir/pps/sender.cc, receiver.cc, and the
    runs of pps_pir_test.cc over them.

    Little-endian host, size_t of 64 bits.  Outside the model: the link (a message arrives as sent),
    memory running out, and yacl's dynamic_bitset, whose to_string and constructor are taken to use one
    character per bit, last bit first. *)
From Coq Require Import List NArith Bool Arith.
From Verif Require Import Base StoreModel PpsModel.
Import ListNotations.

(** memcpy of an unsigned number of [w] bytes to and from memory. *)
Fixpoint pw_le (w : nat) (v : N) : list N :=
  match w with
  | O => []
  | S e => (v mod 256)%N :: pw_le e (v / 256)%N
  end.
Fixpoint pw_un (b : list N) : N :=
  match b with
  | [] => 0%N
  | x :: r => (x + 256 * pw_un r)%N
  end.
(** Reading past the end of the buffer is UB. *)
Definition pw_rd (w : nat) (buf : list N) : outcome (N * list N) :=
  if w <=? length buf then Ok (pw_un (firstn w buf), skipn w buf) else UB.

(** SerializeOfflineMessage (sender.cc 24-49): the key high half first, the count, the shifts. *)
Definition pw_offline (k : N) (ds : list N) : list N :=
  pw_le 8 (k / max64) ++ pw_le 8 (k mod max64) ++ pw_le 8 (N.of_nat (length ds)) ++ flat_map (pw_le 8) ds.
(** DeserializeOfflineMessage (receiver.cc 24-49). *)
Fixpoint pw_rd_shifts (c : nat) (buf ds : list N) : outcome (list N) :=
  match c with
  | O => Ok ds
  | S e => do (d, r) <- pw_rd 8 buf; pw_rd_shifts e r (pp_insert d ds)
  end.
Definition pw_rd_offline (buf : list N) : outcome (N * list N) :=
  do (hi, b1) <- pw_rd 8 buf;
  do (lo, b2) <- pw_rd 8 b1;
  do (c, b3) <- pw_rd 8 b2;
  do ds <- pw_rd_shifts (N.to_nat c) b3 [];
  Ok ((hi * max64 + lo)%N, ds).

(** SerializeOnlineMessage (sender.cc 51-65). *)
Definition pw_online (pk : ppk) : list N :=
  pw_le 8 (N.of_nat (length (pk_ks pk))) ++ flat_map (pw_le 16) (pk_ks pk) ++ pw_le 8 (pk_pos pk) ++ pw_le 8 (pk_delta pk).
(** DeserializeOnlineMessage (receiver.cc 51-62); resize throws beyond max_size. *)
Definition pw_max : N := 576460752303423487%N.   (* 2^63 / 16 - 1 *)
Fixpoint pw_rd_keys (c : nat) (buf : list N) : outcome (list N * list N) :=
  match c with
  | O => Ok ([], buf)
  | S e => do (k, r) <- pw_rd 16 buf; do (ks, r') <- pw_rd_keys e r; Ok (k :: ks, r')
  end.
Definition pw_rd_online (buf : list N) : outcome ppk :=
  do (c, b1) <- pw_rd 8 buf;
  if (pw_max <? c)%N then Throw else
  do (ks, b2) <- pw_rd_keys (N.to_nat c) b1;
  do (pos, b3) <- pw_rd 8 b2;
  do (d, _) <- pw_rd 8 b3;
  Ok (mk_ppk ks pos d).

(** SerializeOfflineMessage for many keys (sender.cc 67-82) and its reader (receiver.cc 64-80); an
    element of the vector takes 32 bytes. *)
Definition pw_offline_m (ck : list (N * N)) : list N :=
  pw_le 8 (N.of_nat (length ck)) ++ flat_map (fun c => pw_le 16 (fst c) ++ pw_le 8 (snd c)) ck.
Definition pw_max_m : N := 288230376151711743%N.   (* 2^63 / 32 - 1 *)
Fixpoint pw_rd_pairs (c : nat) (buf : list N) : outcome (list (N * N)) :=
  match c with
  | O => Ok []
  | S e => do (k, r) <- pw_rd 16 buf; do (d, r') <- pw_rd 8 r; do l <- pw_rd_pairs e r'; Ok ((k, d) :: l)
  end.
Definition pw_rd_offline_m (buf : list N) : outcome (list (N * N)) :=
  do (c, b1) <- pw_rd 8 buf;
  if (pw_max_m <? c)%N then Throw else pw_rd_pairs (N.to_nat c) b1.

(** The hints as a string (sender.cc 90-93, receiver.cc 89-94) and one bit (101-105, 102-107). *)
Definition pw_hints (h : list bool) : list N := map (fun b : bool => if b then 49 else 48)%N (rev h).
Definition pw_rd_hints (m : list N) : list bool := rev (map (fun c => c =? 49)%N m).
Definition pw_bit (a : bool) : list N := [if a then 49 else 48]%N.
Definition pw_rd_bit (m : list N) : bool := match m with [c] => (c =? 49)%N | _ => false end.

Section Wire.
Variable prg : N -> N * N.
Variable n : N.
Variable s : nat.
Variable walk : list (N * nat) -> list (N * nat).
Variable keys : nat -> N.
Variable lambda : nat.
Variable lnc : N.

(** SingleBitQueryTest (pps_pir_test.cc 47-123). *)
Definition pw_single (bits : list bool) (words : nat -> N) (i r1 r2 : N) (b : bool) : outcome (option bool) :=
  do _ <- pp_ctor n s;
  do (k, m, ds) <- pp_setup prg n s keys lambda lnc words;
  do (k', ds') <- pw_rd_offline (pw_offline k ds);
  do h <- pp_hint prg n s bits k' ds';
  do (j, pk) <- pp_query prg n s walk i k m ds r1 r2 b pk_new;
  do pk' <- pw_rd_online (pw_online pk);
  do a <- pp_answer prg n s bits pk';
  pp_recon j b (pw_rd_hints (pw_hints h)) (pw_rd_bit (pw_bit a)).

(** MultiBitQueryTest (pps_pir_test.cc 125-226). *)
Definition pw_round (bits : list bool) (st : ppc) (i : N) (coin : N * N * bool) : outcome (option bool * ppc * (ppk * ppk)) :=
  let '(r1, r2, b) := coin in
  do q <- pp_query2 prg n s walk keys lambda i (c_ck st) (c_v st) (c_pos st) r1 r2 b;
  do l <- pw_rd_online (pw_online (q_l q));
  do r <- pw_rd_online (pw_online (q_r q));
  do (al, ar) <- pp_answer2 prg n s bits l r;
  do (x, h) <- pp_recon2 (q_j q) (c_h st) (pw_rd_bit (pw_bit al)) (pw_rd_bit (pw_bit ar));
  Ok (x, mk_ppc (q_ck q) (q_v q) h (q_pos q), (l, r)).
Fixpoint pw_rounds (bits : list bool) (st : ppc) (qs : list (N * (N * N * bool)))
  : outcome (list (option bool) * ppc * list (ppk * ppk)) :=
  match qs with
  | [] => Ok ([], st, [])
  | (i, c) :: r =>
    do (x, st1, w) <- pw_round bits st i c;
    do (xs, st2, ws) <- pw_rounds bits st1 r;
    Ok (x :: xs, st2, w :: ws)
  end.
Definition pw_multi (bits : list bool) (qs : list (N * (N * N * bool))) : outcome (list (option bool) * ppc * list (ppk * ppk)) :=
  do _ <- pp_ctor n s;
  do (ck, v, pos) <- pp_setups prg n s keys (N.to_nat (10 * pp_MM n s lnc)) (N.to_nat (pp_MM n s lnc)) 0;
  do ck' <- pw_rd_offline_m (pw_offline_m ck);
  do h <- pp_hints prg n s bits ck';
  pw_rounds bits (mk_ppc ck v (pw_rd_hints (pw_hints h)) pos) qs.
End Wire.
