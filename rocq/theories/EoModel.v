(** Model of the OPRF of the unbalanced PSI over an OpenSSL curve:
    psi/algorithm/ecdh/ub_psi/basic_ecdh_oprf.cc (28-250), ecdh_oprf.h and ecdh_oprf.cc, with the parts of
    psi/cryptor/ecc_utils.h that they call.

    External, all arguments: the curve (its points with the point at infinity, scalar multiplication EC_POINT_mul,
    EC_POINT_set_compressed_coordinates with y bit 0, EC_POINT_point2oct in compressed form, EC_POINT_oct2point, the
    field prime and the group order), BN_mod_inverse (0, the value of a fresh BIGNUM, where there is no inverse), SHA-256 and
    the hash chosen by SetHashType.  Allocation never fails.  A parallel_for is a map from left to right.
    The FourQ classes (252-420) are not modelled. *)
From Coq Require Import List Arith NArith ZArith Bool.
From Verif Require Import Base Text EllModel.
Import ListNotations.
Local Open Scope Z_scope.

(** kEccKeySize (ecc_cryptor.h 35), kEcPointCompressLength (ecc_utils.h 30), kEc256CompareLength (basic_ecdh_oprf.cc 32),
    kHashToCurveCounterGuard (ecc_utils.h 154). *)
Definition eo_key_size : nat := 32.
Definition eo_point_size : nat := 33.
Definition eo_cmp_default : nat := 12.
Definition eo_guard : nat := 100.

Section Oprf.
Variable Pt : Type.
Variable infty : Pt.
Variable smul : Z -> Pt -> Pt.
Variable lift : Z -> option Pt.
Variable oct : Pt -> bytes.
Variable unoct : bytes -> option Pt.
Variables p n : Z.
Variable minv : Z -> Z.
Variables sha hash : bytes -> bytes.

(** BigNumSt::FromBytes with a modulus (ecc_utils.h 104-110): BN_bin2bn is big endian, BN_nnmod the remainder. *)
Definition eo_bn (b : bytes) (m : Z) : Z := be_int b mod m.
(** BigNumSt::ToBytes (76-83), for a number below 256^32. *)
Definition eo_bytes (x : Z) : bytes := be_bytes eo_key_size x.

(** EcPointSt::CreateEcPointByHashToCurve (164-199): the loop; [c] is counter. *)
Fixpoint eo_try (fuel : nat) (c : nat) (x : Z) : outcome Pt :=
  match lift x with
  | Some P => Ok P
  | None =>
    let x := eo_bn (sha (eo_bytes x)) p in
    let c := S c in
    enforce (Nat.ltb c eo_guard) (match fuel with O => Diverge | S fuel => eo_try fuel c x end)
  end.
Definition eo_hash_to_curve (m : bytes) : outcome Pt := eo_try eo_guard 0 (eo_bn (sha m) p).

(** EcPointSt::ToBytes (218-236). *)
Definition eo_to_bytes (P : Pt) : outcome bytes :=
  enforce (Nat.eqb (length (oct P)) eo_point_size) (Ok (oct P)).

(** HashItem (34-58). *)
Definition eo_hash_item (item masked : bytes) (len : nat) : outcome bytes :=
  let h := hash (item ++ masked) in
  enforce (Nat.leb len (length h)) (Ok (firstn len h)).

(** EcPointMul (68-92): what EC_POINT_oct2point returns is not looked at; a new EC_POINT is the point at infinity. *)
Definition eo_point_mul (sk b : bytes) : outcome bytes :=
  enforce (Nat.eqb (length sk) eo_key_size)
    (let P := match unoct b with Some P => P | None => infty end in
     eo_to_bytes (smul (eo_bn sk n) P)).
(** ItemMul (102-122). *)
Definition eo_item_mul (sk item : bytes) : outcome bytes :=
  enforce (Nat.eqb (length sk) eo_key_size)
    (do P <- eo_hash_to_curve item; eo_to_bytes (smul (eo_bn sk n) P)).
(** EccPrivateKeyInv (124-144). *)
Definition eo_key_inv (sk : bytes) : bytes := eo_bytes (minv (eo_bn sk n)).

(** IEcdhOprf (ecdh_oprf.h 62-96): private_key_ and compare_length_; a client has sk_inv_ too (basic_ecdh_oprf.h 118). *)
Record eo_server := { es_key : bytes; es_cmp : nat }.
Record eo_client := { ec_key : bytes; ec_inv : bytes; ec_cmp : nat }.
(** SetCompareLength (ecdh_oprf.h 82-85) and GetCompareLength (182-188, 240-246). *)
Definition eo_server_set_cmp (s : eo_server) (len : nat) : outcome eo_server :=
  enforce (Nat.leb len eo_key_size) (Ok {| es_key := es_key s; es_cmp := len |}).
Definition eo_client_set_cmp (c : eo_client) (len : nat) : outcome eo_client :=
  enforce (Nat.leb len eo_key_size) (Ok {| ec_key := ec_key c; ec_inv := ec_inv c; ec_cmp := len |}).
Definition eo_get_cmp (len : nat) : nat := if Nat.eqb len 0 then eo_cmp_default else len.
(** The server's constructor with a key (basic_ecdh_oprf.h 60-63); SetPrivateKey (ecdh_oprf.h 87-91). *)
Definition eo_server_new (key : bytes) : outcome eo_server :=
  enforce (Nat.eqb (length key) eo_key_size) (Ok {| es_key := key; es_cmp := 0 |}).
(** The client's constructor with a key (202-212); the one without (194-200) has the random bytes of IEcdhOprf() as key. *)
Definition eo_client_new (key : bytes) : outcome eo_client :=
  enforce (Nat.eqb (length key) eo_key_size) (Ok {| ec_key := key; ec_inv := eo_key_inv key; ec_cmp := 0 |}).
Definition eo_client_set_key (c : eo_client) (key : bytes) : outcome eo_client :=
  enforce (Nat.eqb (length key) eo_key_size) (Ok {| ec_key := key; ec_inv := ec_inv c; ec_cmp := ec_cmp c |}).

(** BasicEcdhOprfServer::Evaluate (148-154), FullEvaluate (156-166), SimpleEvaluate (168-180). *)
Definition eo_evaluate (s : eo_server) (b : bytes) : outcome bytes := eo_point_mul (es_key s) b.
Definition eo_full_evaluate (s : eo_server) (item : bytes) : outcome bytes :=
  do b <- eo_item_mul (es_key s) item; eo_hash_item item b (eo_get_cmp (es_cmp s)).
Definition eo_simple_evaluate (s : eo_server) (item : bytes) : outcome bytes :=
  do b <- eo_item_mul (es_key s) item; eo_hash_item [] b (eo_get_cmp (es_cmp s)).

(** BasicEcdhOprfClient::Blind (214-219), Unblind (233-238), Finalize (221-226 and 228-231). *)
Definition eo_blind (c : eo_client) (item : bytes) : outcome bytes := eo_item_mul (ec_key c) item.
Definition eo_unblind (c : eo_client) (b : bytes) : outcome bytes := eo_point_mul (ec_inv c) b.
Definition eo_finalize (c : eo_client) (item b : bytes) : outcome bytes :=
  do u <- eo_unblind c b; eo_hash_item item u (eo_get_cmp (ec_cmp c)).
Definition eo_finalize_simple (c : eo_client) (b : bytes) : outcome bytes := eo_finalize c [] b.

(** The versions for many items (ecdh_oprf.cc 25-37, 39-50, 52-63, 65-78, 80-92).  Finalize takes items[idx] for every
    evaluated element; past the end of items that is undefined. *)
Fixpoint eo_each {A : Type} (f : A -> outcome bytes) (l : list A) : outcome (list bytes) :=
  match l with
  | [] => Ok []
  | x :: r => do y <- f x; do ys <- eo_each f r; Ok (y :: ys)
  end.
Definition eo_evaluate_all (s : eo_server) (l : list bytes) : outcome (list bytes) := eo_each (eo_evaluate s) l.
Definition eo_full_evaluate_all (s : eo_server) (l : list bytes) : outcome (list bytes) := eo_each (eo_full_evaluate s) l.
Definition eo_blind_all (c : eo_client) (l : list bytes) : outcome (list bytes) := eo_each (eo_blind c) l.
Fixpoint eo_finalize_all (c : eo_client) (items evs : list bytes) : outcome (list bytes) :=
  match evs with
  | [] => Ok []
  | e :: evs =>
    match items with
    | [] => UB
    | i :: items => do y <- eo_finalize c i e; do ys <- eo_finalize_all c items evs; Ok (y :: ys)
    end
  end.
Definition eo_finalize_simple_all (c : eo_client) (evs : list bytes) : outcome (list bytes) := eo_each (eo_finalize_simple c) evs.
End Oprf.
