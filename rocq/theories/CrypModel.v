(** Model of the elliptic-curve cryptors: psi/cryptor/cryptor_selector.cc (CreateEccCryptor 80-119 and
    its helpers 32-77), psi/cryptor/sm2_cryptor.h (28-60), psi/cryptor/fourq_cryptor.h,
    psi/cryptor/sodium_curve25519_cryptor.h (40-72), psi/cryptor/ipp_ecc_cryptor.{h,cc},
    psi/cryptor/ecc_cryptor.{h,cc}, the check of the configuration in psi/algorithm/ecdh/ecdh_psi.cc
    (CheckConfig 45-58) and psi/algorithm/ecdh/ub_psi/ecdh_oprf_selector.cc (24-183).

    Points are byte strings.  [mul g k p]: the product of yacl's group [g], [None] if it throws;
    [lane k p]: one lane of mbx_x25519_mb8, its output and whether its status is 0; [hash_to]: the hash
    functions onto the curves.  yacl::parallel_for cuts the indices into consecutive ranges; a
    schedule gives the order in which the steps of all ranges happen.  Simplified: a step (one
    index, or one batch of at most eight) is taken at once; the lengths of serialised points are left
    out. *)
From Coq Require Import List NArith Bool.
From Verif Require Import Base Text StoreModel PirPackModel.
Import ListNotations.
Local Open Scope N_scope.

(** The processor: compiled for x86-64, AVX2, AVX512 IFMA. *)
Record cpu : Type := mk_cpu { x86 : bool; avx2 : bool; ifma : bool }.
Inductive group : Type := GCurve25519 | GFourQ | GSm2 | GSecp256k1.
Inductive hash_kind : Type := HSha256 | HElligator2 | HTryAndRehash | HAutonomous.
(** Which class: the IPP ones multiply eight points at a time, the others through [ec_group_]. *)
Inductive lib : Type := LIpp | LSodium | LFourQ | LOpenSsl.
Record cryptor : Type := mk_cryptor { c_lib : lib; c_group : group; c_hash : hash_kind; c_reports : N }.

(** GetIppCryptor, GetElligator2IppCryptor and GetFourQCryptor: [None] is a null pointer. *)
Definition ipp_cryptor (m : cpu) (h : hash_kind) : option cryptor :=
  if x86 m && ifma m then Some (mk_cryptor LIpp GCurve25519 h 1) else None.
Definition sodium_cryptor (h : hash_kind) : cryptor := mk_cryptor LSodium GCurve25519 h 1.
Definition fourq_cryptor (m : cpu) : option cryptor :=
  if x86 m && negb (avx2 m) then None else Some (mk_cryptor LFourQ GFourQ HAutonomous 2).
(** Sm2Cryptor(type): the group is "sm2" for every type. *)
Definition sm2_cryptor (type : N) : cryptor := mk_cryptor LOpenSsl GSm2 HTryAndRehash type.

(** CreateEccCryptor; types are numbered as in psi/proto/psi.proto 104-125. *)
Definition create_cryptor (m : cpu) (type : N) : outcome cryptor :=
  match type with
  | 1 => match ipp_cryptor m HSha256 with Some c => Ok c | None => Ok (sodium_cryptor HSha256) end
  | 2 => match fourq_cryptor m with Some c => Ok c | None => Throw end
  | 3 => Ok (sm2_cryptor type)
  | 4 => Ok (sm2_cryptor type)
  | 5 => match ipp_cryptor m HElligator2 with Some c => Ok c | None => Ok (sodium_cryptor HElligator2) end
  | _ => Throw
  end.

(** Sm2Cryptor::GetEcGroupId. *)
Definition group_id (type : N) : outcome group :=
  match type with 4 => Ok GSecp256k1 | 3 => Ok GSm2 | _ => Throw end.
(** CreateEcdhOprfServer (24-106), with a key or without; [basic]: whether the OPRF type is Basic. *)
Definition oprf_server (m : cpu) (basic : bool) (type : N) : outcome group :=
  if negb basic then Throw else
  match type with
  | 2 => if x86 m && negb (avx2 m) then Throw else Ok GFourQ
  | 4 | 3 => group_id type
  | _ => Throw
  end.
(** CreateEcdhOprfClient (108-183): another type leaves the pointer null. *)
Definition oprf_client (m : cpu) (basic : bool) (type : N) : outcome group :=
  if basic then
    match type with
    | 2 => if x86 m && negb (avx2 m) then Throw else Ok GFourQ
    | 4 | 3 => group_id type
    | _ => Throw
    end
  else Throw.

(** CheckConfig: the text "target_rank={},curve={}" of both parties. *)
Definition config_text (target : N) (c : cryptor) : bytes :=
  [116; 97; 114; 103; 101; 116; 95; 114; 97; 110; 107; 61] ++ dec target ++
  [44; 99; 117; 114; 118; 101; 61] ++ dec (c_reports c).
Definition check_config (target : N) (c : cryptor) (peer : bytes) : outcome unit :=
  enforce (beqb (config_text target c) peer) (Ok tt).

(** The key of a new cryptor from random bytes: the libsodium ones clamp it in their constructor
    (sodium_curve25519_cryptor.h 47-49). *)
Definition clamp (k : bytes) : bytes :=
  upd 31 (fun b => N.lor b 64) (upd 31 (fun b => N.land b 127) (upd 0 (fun b => N.land b 248) k)).
Definition new_key (c : cryptor) (random : bytes) : bytes :=
  match c_lib c with LSodium => clamp random | _ => random end.
(** SetPrivateKey (ecc_cryptor.h 47-50). *)
Definition set_key (k : bytes) : outcome bytes := enforce (Nat.eqb (length k) 32) (Ok k).
(** MPInt::FromMagBytes of the key, little endian. *)
Fixpoint scalar (k : bytes) : N := match k with [] => 0 | b :: k' => b + 256 * scalar k' end.

(** The loops of ecc_cryptor.cc (24-79) over [parallel_for]: slot i of the result gets [f] of
    element i, in the order of the schedule. *)
Definition one_step {A B : Type} (f : A -> option B) (xs : list A) (out : list B) (i : nat) : outcome (list B) :=
  match nth_error xs i with
  | None => UB
  | Some x => match f x with Some y => Ok (upd i (fun _ => y) out) | None => Throw end
  end.
Fixpoint steps {S T : Type} (step : S -> T -> outcome S) (s : S) (order : list T) : outcome S :=
  match order with [] => Ok s | t :: order' => do s1 <- step s t; steps step s1 order' end.
Definition par_map {A B : Type} (f : A -> option B) (start : B) (xs : list A) (order : list nat) : outcome (list B) :=
  steps (one_step f xs) (repeat start (length xs)) order.

Section Masks.
Variable mul : group -> N -> bytes -> option bytes.
Variable lane : bytes -> bytes -> bytes * bool.
Variable hash_to : hash_kind -> bytes -> bytes.

(** One call of mask_functor (ipp_ecc_cryptor.cc 36-54): the points [idx .. idx+len), the lanes beyond
    read the first of them and write into the junk buffer all threads share. *)
Record mask_state : Type := mk_ms { ms_out : list bytes; ms_junk : list bytes }.
Definition lane_point (points : list bytes) (idx len i : nat) : outcome bytes :=
  match nth_error points (if Nat.ltb i len then idx + i else idx)%nat with Some p => Ok p | None => UB end.
Definition put_lane (idx len : nat) (s : mask_state) (iy : nat * bytes) : mask_state :=
  if Nat.ltb (fst iy) len then mk_ms (upd (idx + fst iy) (fun _ => snd iy) (ms_out s)) (ms_junk s)
  else mk_ms (ms_out s) (upd (fst iy) (fun _ => snd iy) (ms_junk s)).
Definition mask_batch (key : bytes) (points : list bytes) (s : mask_state) (b : nat * nat) : outcome mask_state :=
  do ps <- map_out (lane_point points (fst b) (snd b)) (seq 0 8);
  enforce (forallb (fun p => snd (lane key p)) ps)
    (Ok (fold_left (put_lane (fst b) (snd b)) (List.combine (seq 0 8) (map (fun p => fst (lane key p)) ps)) s)).
(** The batches of a range (58-62) and of all ranges; [sizes]: the lengths of the ranges. *)
Fixpoint range_batches (fuel idx n : nat) : list (nat * nat) :=
  match fuel with
  | O => []
  | S fuel' => if Nat.eqb n 0 then [] else (idx, Nat.min 8 n) :: range_batches fuel' (idx + 8) (n - 8)
  end.
Fixpoint all_batches (start : nat) (sizes : list nat) : list (nat * nat) :=
  match sizes with [] => [] | n :: r => range_batches n start n ++ all_batches (start + n) r end.
(** IppEccCryptor::EccMask (29-66). *)
Definition ipp_mask (key : bytes) (points : list bytes) (order : list (nat * nat)) : outcome (list bytes) :=
  do s <- steps (mask_batch key points) (mk_ms (repeat [] (length points)) (repeat [] 8)) order; Ok (ms_out s).

(** How [parallel_for] ran: the ranges, and the order of the batches or of the indices. *)
Record run : Type := mk_run { r_batches : list (nat * nat); r_indices : list nat }.
(** EccMask of a cryptor. *)
Definition ecc_mask (c : cryptor) (key : bytes) (points : list bytes) (r : run) : outcome (list bytes) :=
  match c_lib c with
  | LIpp => ipp_mask key points (r_batches r)
  | _ => par_map (mul (c_group c) (scalar key)) [] points (r_indices r)
  end.
(** HashInputs (ecc_cryptor.cc 48-57). *)
Definition hash_inputs (c : cryptor) (items : list bytes) (r : run) : outcome (list bytes) :=
  par_map (fun x => Some (hash_to (c_hash c) x)) [] items (r_indices r).
(** One party's own items, then the other party's mask on them. *)
Definition double_mask (c c' : cryptor) (key key' : bytes) (items : list bytes) (r1 r2 r3 : run) : outcome (list bytes) :=
  do h <- hash_inputs c items r1;
  do m <- ecc_mask c key h r2;
  ecc_mask c' key' m r3.
End Masks.
