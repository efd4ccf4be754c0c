(** Model of the batched hashes of RR22: psi/algorithm/rr22/okvs/aes_crhash.cc and
    psi/algorithm/rr22/davis_meyer_hash.cc.

    Spans are windows of one memory, so that input and output may overlap; an access
    behind the end of a span is UB (absl::Span does not check in release builds).
    AES is a parameter. *)
From Coq Require Import List NArith Bool Arith.
From Verif Require Import Base.
Import ListNotations.

Definition mem : Type := nat -> N.
Definition m_set (m : mem) (a : nat) (v : N) : mem := fun b => if Nat.eqb b a then v else m b.
(** absl::Span: first cell and number of cells. *)
Record span := mk_span { s_at : nat; s_len : nat }.

Definition rd (m : mem) (s : span) (i : nat) : outcome N :=
  if Nat.ltb i (s_len s) then Ok (m (s_at s + i)) else UB.
Definition wr (m : mem) (s : span) (i : nat) (v : N) : outcome mem :=
  if Nat.ltb i (s_len s) then Ok (m_set m (s_at s + i) v) else UB.
(** n cells from i on (subspan, or memcpy from &s[i]). *)
Fixpoint rd_many (m : mem) (s : span) (i n : nat) : outcome (list N) :=
  match n with
  | O => Ok []
  | S n' => do x <- rd m s i; do r <- rd_many m s (S i) n'; Ok (x :: r)
  end.

(** The assignments ciphertext[i + j] = enc_outputs[j] ^ plaintext[i + j], one after
    the other (aes_crhash.cc 44-46, 52-54, 67-74, 84-86; davis_meyer_hash.cc 64-71). *)
Fixpoint xor_out (m : mem) (p c : span) (i : nat) (buf : list N) : outcome mem :=
  match buf with
  | [] => Ok m
  | b :: r =>
    do x <- rd m p i;
    do m' <- wr m c i (N.lxor b x);
    xor_out m' p c (S i) r
  end.

Section CrHash.
  (** Encrypt of a span into another of the same size; kBatchSize in cells. *)
  Context (enc : list N -> outcome (list N)) (batch : nat).

  (** One batch or the rest: encrypt, then combine. *)
  Definition cr_step (m : mem) (p c : span) (i n : nat) : outcome mem :=
    do pl <- rd_many m p i n;
    do buf <- enc pl;
    xor_out m p c i buf.
  Fixpoint cr_batches (q : nat) (m : mem) (p c : span) (i : nat) : outcome mem :=
    match q with
    | O => Ok m
    | S q' => do m' <- cr_step m p c i batch; cr_batches q' m' p c (i + batch)
    end.
  (** AesCrHash::Hash of a span (aes_crhash.cc 30-56 and 58-88). *)
  Definition cr_hash (m : mem) (p c : span) : outcome mem :=
    let q := Nat.div (s_len p) batch in
    do m1 <- cr_batches q m p c 0;
    if Nat.ltb (q * batch) (s_len p) then cr_step m1 p c (q * batch) (s_len p - q * batch) else Ok m1.
End CrHash.

(** kBatchSize (26) and the block size of AES in bytes. *)
Definition k_batch : nat := 8.
Definition k_block : nat := 16.

(** On words of 128 bits: Encrypt is AES-ECB of every word. *)
Definition cr_hash_words (aes : N -> N) : mem -> span -> span -> outcome mem :=
  cr_hash (fun l => Ok (map aes l)) k_batch.
(** The single-value version (90-94). *)
Definition cr_hash_one (aes : N -> N) (x : N) : N := N.lxor (aes x) x.

(** On bytes: Encrypt refuses a length that is not a multiple of the block size. *)
Definition enc_bytes (aes : list N -> list N) (l : list N) : outcome (list N) :=
  enforce (Nat.eqb (Nat.modulo (length l) k_block) 0) (Ok (flat_map aes (chunks k_block l))).
Definition cr_hash_bytes (aes : list N -> list N) : mem -> span -> span -> outcome mem :=
  cr_hash (enc_bytes aes) (k_batch * k_block).

(** DavisMeyerHash of single values (davis_meyer_hash.cc 30-37). *)
Definition dm_one (aes : N -> N -> N) (k v : N) : N := N.lxor (aes k v) v.

Section DavisMeyer.
  Context (aes : N -> N -> N).   (* key, value *)

  (** The vectorised loop (57-72). *)
  Fixpoint dm_batches (q : nat) (m : mem) (key val out : span) (i : nat) : outcome mem :=
    match q with
    | O => Ok m
    | S q' =>
      do ks <- rd_many m key i k_batch;
      do vs <- rd_many m val i k_batch;
      do m' <- xor_out m val out i (map (fun kv => aes (fst kv) (snd kv)) (combine ks vs));
      dm_batches q' m' key val out (i + k_batch)
    end.
  (** One after the other (73-75, 79-81). *)
  Fixpoint dm_singles (n : nat) (m : mem) (key val out : span) (i : nat) : outcome mem :=
    match n with
    | O => Ok m
    | S n' =>
      do k <- rd m key i;
      do v <- rd m val i;
      do m' <- wr m out i (dm_one aes k v);
      dm_singles n' m' key val out (S i)
    end.
  (** DavisMeyerHash of spans (39-83). *)
  Definition dm_hash (avx : bool) (m : mem) (key val out : span) : outcome mem :=
    enforce (Nat.eqb (s_len key) (s_len val))
      (if avx then
         let q := Nat.div (s_len key) k_batch in
         do m1 <- dm_batches q m key val out 0;
         dm_singles (s_len key - q * k_batch) m1 key val out (q * k_batch)
       else dm_singles (s_len key) m key val out 0).
End DavisMeyer.

(** The final hash of the OPRF, in place (rr22_oprf.cc 349-353, 390-396, 518-524). *)
Definition final_span (crh_aes : N -> N) (dm_aes : N -> N -> N) (avx malicious : bool) (m : mem) (inputs outputs : span) : outcome mem :=
  if malicious then dm_hash dm_aes avx m outputs inputs outputs else cr_hash_words crh_aes m outputs outputs.
