(** Model of psi/algorithm/rr22/rr22_oprf.cc: the OPRF built from a VOLE correlation and
    an OKVS, fast mode (Baxos over GF(2^128)) and low-communication mode (Paxos with binary
    dense part over 64-bit values), semi-honest and malicious variants; and of
    SendChunked / RecvChunked (rr22_utils.h 54-85).

    Parameters: [aes] the keyed hash of the table, [crh] AesCrHash with kAesHashSeed,
    [dm] DavisMeyerHash (one element), [ro] the random oracle of the commitment.
    The silent VOLE is not modelled: its output arrays are inputs of the functions below. *)
From Coq Require Import List NArith Bool.
From Verif Require Import Base GfModel OkvsModel.
Import ListNotations.
Local Open Scope N_scope.

Inductive oprf_mode := FastMode | LowCommMode.

(** Table geometry agreed by both sides (Init, rr22_oprf.cc 134-196 and 400-449). *)
Record oprf_table := mk_table { t_param : okvs_param; t_bins : nat; t_mode : oprf_mode }.
Definition t_size (t : oprf_table) : nat :=
  match t_mode t with
  | FastMode => t_bins t * (N.to_nat (ok_sparse (t_param t)) + ok_dense (t_param t))
  | LowCommMode => N.to_nat (ok_sparse (t_param t)) + ok_dense (t_param t)
  end.

(** SendChunked: messages of at most kSendChunkSize elements. *)
Definition send_chunk_size : nat := N.to_nat 100000.
Definition send_chunked (chunk : nat) (v : list N) : list (list N) := chunks chunk v.
(** RecvChunked: copy messages behind each other until enough elements came; a message
    that does not fit is copied out of bounds. *)
Fixpoint recv_chunked (size : nat) (got : list N) (msgs : list (list N)) : outcome (list N * list (list N)) :=
  if Nat.leb size (length got) then
    enforce (Nat.eqb (length got) size) (Ok (got, msgs))
  else
    match msgs with
    | [] => Diverge  (* waits for a message *)
    | m :: r => if Nat.ltb size (length got + length m) then UB else recv_chunked size (got ++ m) r
    end.

Section OPRF.
Variable aes crh : N -> N.
Variable dm : N -> N -> N.
Variable ro : N -> N.

Definition decode_table (avx : bool) (threads : nat) (t : oprf_table) (p inputs : list N) : outcome (list N) :=
  match t_mode t with
  | FastMode => baxos_decode aes avx (t_bins t) (t_param t) threads p inputs
  | LowCommMode => paxos_decode aes avx 32 128 (t_param t) p inputs
  end.

(** The value an input is encoded to (HashInputMulDelta, RecvFast 475-482, RecvLowComm
    547-560): the whole hash, or its low 64 bits. *)
Definition item_hash (t : oprf_table) (x : N) : N :=
  match t_mode t with FastMode => crh x | LowCommMode => crh x mod 2 ^ 64 end.

(** Final hash (rr22_oprf.cc 349-353, 390-396, 518-524). *)
Definition final_hash (malicious : bool) (w : N) (x v : N) : N :=
  if malicious then dm (N.lxor v w) x else crh v.

(** Receiver: RecvFast (461-542) / RecvLowComm (544-592), the parts before and after the
    messages.  p is the result of Solve, c and a its VOLE arrays. *)
Definition receiver_message (a p : list N) : list N := zip_with N.lxor p a.
Definition receiver_outputs (avx : bool) (threads : nat) (t : oprf_table) (malicious : bool) (w : N)
  (c inputs : list N) : outcome (list N) :=
  do vs <- decode_table avx threads t (firstn (t_size t) c) inputs;
  Ok (zip_with (final_hash malicious w) inputs vs).
(** Check of the sender's commitment (495-504). *)
Definition receiver_w (ws_hash wr ws : N) : outcome N :=
  enforce (ro ws =? ws_hash) (Ok (N.lxor wr ws)).

(** Sender: HashInputMulDelta (275-302), SendFast (198-246) / SendLowComm (248-273), Eval
    (357-398). *)
Definition sender_hashes (avx : bool) (t : oprf_table) (delta : N) (inputs : list N) : list N :=
  map (fun x => gf_mul avx delta (item_hash t x)) inputs.
(** b_[idx] ^= delta * msg[idx], for idx < msg.size(). *)
Definition sender_update (avx : bool) (delta : N) (b msg : list N) : list N :=
  zip_with (fun bi mi => N.lxor bi (gf_mul avx delta mi)) b msg ++ skipn (length msg) b.
Definition sender_outputs (avx : bool) (threads : nat) (t : oprf_table) (malicious : bool) (w : N)
  (b inputs inputs_hash : list N) : outcome (list N) :=
  do vs <- decode_table avx threads t (firstn (t_size t) b) inputs;
  Ok (zip_with (final_hash malicious w) inputs (zip_with N.lxor vs inputs_hash)).

(** A whole run: what each side returns.  [solve] is Baxos::Solve / Paxos::EncodeU64. *)
Variable solve : oprf_table -> list N -> list N -> outcome (list N).
Definition run_oprf (t : oprf_table) (malicious : bool) (wr ws : N)
  (delta : N) (a b c : list N)
  (avxR : bool) (threadsR : nat) (xs : list N)
  (avxS : bool) (threadsS : nat) (ys : list N) : outcome (list N * list N) :=
  (* sender: commitment, products *)
  let ws_hash := ro ws in
  let hs := sender_hashes avxS t delta ys in
  (* receiver: solve *)
  do p <- solve t xs (map (item_hash t) xs);
  do wR <- (if malicious then receiver_w ws_hash wr ws else Ok 0);
  let wS := N.lxor wr ws in
  let msgs := send_chunked send_chunk_size (receiver_message a p) in
  do outR <- receiver_outputs avxR threadsR t malicious wR c xs;
  (* sender: receive, update, evaluate *)
  do got <- recv_chunked (t_size t) [] msgs;
  let b' := sender_update avxS delta b (fst got) in
  do outS <- sender_outputs avxS threadsS t malicious wS b' ys hs;
  Ok (outR, outS).
End OPRF.
