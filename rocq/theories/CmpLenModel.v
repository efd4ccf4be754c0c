(** Model of the lengths to which compared values are cut:
    psi/utils/serialize.h GetCompareBytesLength (125-131), psi/utils/communication.h 43
    (kFinalCompareBytes), psi/algorithm/rr22/rr22_psi.cc ComputeTruncateSize (41-52) and
    the use of it in ExchangeTruncateSize (56-70). *)
From Coq Require Import NArith Bool.
From Verif Require Import Base.
Local Open Scope N_scope.

(** std::log2 of a size, a double.  [lg n] is its value in units of 2^-52 (every double in
    [1, 64) is a multiple of that unit); the conversion of the size to double is part of it. *)
Definition log_unit : N := 2 ^ 52.
(** std::ceil of that value; log2(0) = -inf, whose conversion to size_t is undefined. *)
Definition ceil_log2 (lg : N -> N) (n : N) : outcome N :=
  if n =? 0 then UB else Ok ((lg n + (log_unit - 1)) / log_unit).

Definition get_compare_bytes_length (lg : N -> N) (size_a size_b stats : N) : outcome N :=
  do la <- ceil_log2 lg size_a;
  do lb <- ceil_log2 lg size_b;
  let compare_bits := la + lb + stats in
  Ok ((compare_bits + 7) / 8).

Definition final_compare_bytes : N := 12.

(** The product of the sizes is a size_t multiplication. *)
Definition compute_truncate_size (lg : N -> N) (self_size peer_size ssp : N) (malicious : bool) : outcome N :=
  if malicious then Ok 16
  else
    do l <- ceil_log2 lg (u64 (self_size * peer_size));
    Ok (N.min ((ssp + l + 7) / 8) 16).
Definition exchange_truncate_size (lg : N -> N) (self_size peer_size ssp : N) (malicious compress : bool) : outcome N :=
  if compress then compute_truncate_size lg self_size peer_size ssp malicious else Ok 16.
