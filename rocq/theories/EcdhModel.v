(** Model of two-party ECDH PSI: psi/algorithm/ecdh/ecdh_psi.{h,cc} and the data
    path of psi/algorithm/ecdh/ecdh_operator.cc.

    The three std::async activities of each party (ecdh_psi.cc 482-496) are a
    transition system over FIFO channels.  yacl's link numbers the messages of
    each (sender, receiver, context) triple and delivers them by number; the tag
    strings are only used for tracing, so a channel is a queue.

    Not modelled: loss or corruption of messages, logging, statistics and the
    checkpoint calls (see RecoveryModel for those), the protobuf encoding of
    PsiDataBatch other than its fields, exceptions of one activity being
    rethrown after joining the others (500-534): a failing step is [SFail]. *)
From Coq Require Import List NArith Lia Bool Arith.
From Verif Require Import Base Text StoreModel.
Import ListNotations.

(** unordered_map<uint32_t, uint32_t>: operator[] of an absent key is 0. *)
Definition dupmap : Type := list (nat * N).
Definition dup_at (m : dupmap) (i : nat) : N := match assoc i m with Some d => d | None => 0%N end.

(** ProviderWrapper::ReadNextBatchWithDupCnt (ecdh_operator.cc 44-55) on a batch
    of ItemData (buf, cnt). *)
Definition wrap (b : list (bytes * N)) : list bytes * dupmap :=
  (map fst b,
   flat_map (fun p => if (1 <? snd (snd p))%N then [(fst p, (snd (snd p) - 1)%N)] else []) (number 0 b)).

(** PsiDataBatch (psi/utils/communication.h 50-69 and
    ecdh_psi.cc 285-305), without [type].  Simplified: item_num (uint32) and
    batch_index (int32) are naturals, their overflow is not modelled. *)
Record msg : Type := mk_msg {
  m_last : bool; m_num : nat; m_idx : nat; m_bytes : bytes; m_dup : dupmap }.

(** BatchData (ecdh_psi.cc 286-305). *)
Definition batch_data (items : list bytes) (dup : dupmap) (idx : nat) : msg :=
  match items with
  | [] => mk_msg true 0 idx [] []
  | _ => mk_msg false (length items) idx (concat items) dup
  end.

(** RecvBatchImpl (ecdh_psi.cc 361-366, 380-385): cut flatten_bytes into item_num
    substrings of size flatten_bytes.size() / item_num. *)
Definition unpack (m : msg) : list bytes :=
  let sz := Nat.div (length (m_bytes m)) (m_num m) in
  map (fun i => firstn sz (skipn (i * sz) (m_bytes m))) (seq 0 (m_num m)).
Definition recv_batch (m : msg) : list bytes * dupmap :=
  if Nat.eqb (m_num m) 0 then ([], []) else (unpack m, m_dup m).

(** Skipping already processed items (ecdh_psi.cc 65-90); [prov] is the sequence
    of batches the provider still returns (afterwards it returns empty batches).
    The result is what the second loop then reads: the rest of the batch that
    straddles the resume position, with the duplicate map as the code leaves it
    (processed_item_cnt is already 0 in lines 84-88, so no index is shifted),
    followed by the unread batches. *)
Fixpoint skip_processed (prov : list (list bytes * dupmap)) (processed : nat)
  : outcome (list (list bytes * dupmap)) :=
  match processed with
  | O => Ok prov
  | _ =>
    match prov with
    | [] => Throw
    | (b, d) :: r =>
      if Nat.eqb (length b) 0 then Throw
      else if Nat.leb (length b) processed
      then skip_processed r (processed - length b)
      else
        let left_items := skipn processed b in
        let p := 0 in
        Ok ((left_items, flat_map (fun ic => if Nat.leb p (fst ic) then [((fst ic - p)%nat, snd ic)] else []) d) :: r)
    end
  end.

(** The four kinds of atomic steps.  MaskPeer receives and stores (one step),
    then sends (another step). *)
Inductive activity : Type := MaskSelf | MaskPeerRecv | MaskPeerSend | RecvDual.

Record pstate : Type := mk_pstate {
  ms_rest : list (list bytes * dupmap);   (* what the provider still returns *)
  msk_cnt : nat;                          (* batch_count of MaskSelf *)
  ms_done : bool;
  mp_cnt : nat;                           (* batch_count of MaskPeer *)
  mp_hold : option (list bytes);          (* dual_masked_peers not yet sent *)
  mp_done : bool;
  rd_cnt : nat;                           (* batch_count of RecvDualMaskedSelf *)
  rd_done : bool;
  self_store : list (bytes * N);          (* self_ec_point_store: (cipher, dup) *)
  peer_store : list (bytes * N);          (* peer_ec_point_store *)
  out_main : list msg;                    (* main_link_ctx_ towards the peer *)
  out_dual : list msg }.                  (* dual_mask_link_ctx_ towards the peer *)

Definition system : Type := bool -> pstate.
Definition set_party (s : system) (p : bool) (x : pstate) : system :=
  fun r => if Bool.eqb r p then x else s r.

Inductive sresult : Type := SBlocked | SFail | SNext (s : system).

Section Ecdh.
(** IEccCryptor: points, HashInputs, EccMask with a party's private key,
    SerializeEcPoint, DeserializeEcPoints. *)
Variable Point : Type.
Variable hash_point : bytes -> Point.
Variable mask : bool -> Point -> Point.
Variable ser : Point -> bytes.
Variable deser : bytes -> Point.
Variable dual_mask_size : nat.
(** options_.target_rank: [None] is kAllRank. *)
Variable target : option bool.
(** Throttle window of SendAsyncThrottled ([None]: no limit).  The window counts
    the messages of a party the peer has not taken yet, on both contexts. *)
Variable window : option nat.

(** SelfCanTouchResults / PeerCanTouchResults (ecdh_psi.h 107-115). *)
Definition can_touch (p : bool) : bool :=
  match target with None => true | Some t => Bool.eqb t p end.

(** The last dual_mask_size bytes (ecdh_psi.cc 175-177). *)
Definition last_bytes (s : bytes) : bytes := skipn (length s - dual_mask_size) s.

Definition window_open (x : pstate) : bool :=
  match window with
  | None => true
  | Some w => Nat.ltb (length (out_main x) + length (out_dual x)) w
  end.

(** One iteration of MaskSelf (ecdh_psi.cc 92-142). *)
Definition step_mask_self (p : bool) (s : system) : sresult :=
  let x := s p in
  if ms_done x then SBlocked else
  if negb (window_open x) then SBlocked else
  let '(items, dup, rest) :=
    match ms_rest x with [] => ([], [], []) | (i, d) :: r => (i, d, r) end in
  let masked := map (fun it => ser (mask p (hash_point it))) items in
  let m := if can_touch (negb p) then batch_data masked dup (msk_cnt x)
           else batch_data masked [] (msk_cnt x) in
  let fin := Nat.eqb (length items) 0 in
  SNext (set_party s p
    (mk_pstate rest (if fin then msk_cnt x else S (msk_cnt x)) fin
       (mp_cnt x) (mp_hold x) (mp_done x) (rd_cnt x) (rd_done x)
       (self_store x) (peer_store x) (out_main x ++ [m]) (out_dual x))).

(** First half of an iteration of MaskPeer (ecdh_psi.cc 150-184). *)
Definition step_mask_peer_recv (p : bool) (s : system) : sresult :=
  let x := s p in
  let y := s (negb p) in
  if mp_done x then SBlocked else
  match mp_hold x with
  | Some _ => SBlocked
  | None =>
    match out_main y with
    | [] => SBlocked
    | m :: q =>
      if negb (Nat.eqb (m_idx m) (mp_cnt x)) then SFail else
      let '(items, dup) := recv_batch m in
      let ciphers := map (fun it => last_bytes (ser (mask p (deser it)))) items in
      let saved := if can_touch p
                   then map (fun ic => (snd ic, dup_at dup (fst ic))) (number 0 ciphers) else [] in
      let x' := mk_pstate (ms_rest x) (msk_cnt x) (ms_done x)
                  (mp_cnt x) (Some ciphers) (mp_done x) (rd_cnt x) (rd_done x)
                  (self_store x) (peer_store x ++ saved) (out_main x) (out_dual x) in
      let y' := mk_pstate (ms_rest y) (msk_cnt y) (ms_done y)
                  (mp_cnt y) (mp_hold y) (mp_done y) (rd_cnt y) (rd_done y)
                  (self_store y) (peer_store y) q (out_dual y) in
      SNext (set_party (set_party s p x') (negb p) y')
    end
  end.

(** Second half (ecdh_psi.cc 200-235). *)
Definition step_mask_peer_send (p : bool) (s : system) : sresult :=
  let x := s p in
  match mp_hold x with
  | None => SBlocked
  | Some ciphers =>
    let out := if can_touch (negb p) then out_dual x ++ [batch_data ciphers [] (mp_cnt x)]
               else out_dual x in
    let fin := Nat.eqb (length ciphers) 0 in
    SNext (set_party s p
      (mk_pstate (ms_rest x) (msk_cnt x) (ms_done x)
         (if fin then mp_cnt x else S (mp_cnt x)) None fin (rd_cnt x) (rd_done x)
         (self_store x) (peer_store x) (out_main x) out))
  end.

(** One iteration of RecvDualMaskedSelf (ecdh_psi.cc 248-280). *)
Definition step_recv_dual (p : bool) (s : system) : sresult :=
  let x := s p in
  let y := s (negb p) in
  if rd_done x then SBlocked else
  match out_dual y with
  | [] => SBlocked
  | m :: q =>
    if negb (Nat.eqb (m_idx m) (rd_cnt x)) then SFail else
    let items := fst (recv_batch m) in
    let fin := Nat.eqb (length items) 0 in
    let x' := mk_pstate (ms_rest x) (msk_cnt x) (ms_done x)
                (mp_cnt x) (mp_hold x) (mp_done x)
                (if fin then rd_cnt x else S (rd_cnt x)) fin
                (self_store x ++ map (fun c => (c, 0%N)) items) (peer_store x)
                (out_main x) (out_dual x) in
    let y' := mk_pstate (ms_rest y) (msk_cnt y) (ms_done y)
                (mp_cnt y) (mp_hold y) (mp_done y) (rd_cnt y) (rd_done y)
                (self_store y) (peer_store y) (out_main y) q in
    SNext (set_party (set_party s p x') (negb p) y')
  end.

Definition step (p : bool) (a : activity) (s : system) : sresult :=
  match a with
  | MaskSelf => step_mask_self p s
  | MaskPeerRecv => step_mask_peer_recv p s
  | MaskPeerSend => step_mask_peer_send p s
  | RecvDual => step_recv_dual p s
  end.

(** Start of RunEcdhPsi without a recovery manager; RecvDualMaskedSelf returns at
    once when the party may not touch the result (ecdh_psi.cc 240-242). *)
Definition start (prov : bool -> list (list bytes * dupmap)) : system :=
  fun p => mk_pstate (prov p) 0 false 0 None false 0 (negb (can_touch p)) [] [] [] [].

(** Any sequence of enabled steps. *)
Inductive runs : system -> list (bool * activity) -> system -> Prop :=
| runs_nil : forall s, runs s [] s
| runs_snoc : forall s tr s1 p a s2,
    runs s tr s1 -> step p a s1 = SNext s2 -> runs s (tr ++ [(p, a)]) s2.

(** All futures of both parties are ready. *)
Definition finished (s : system) : Prop :=
  forall p, ms_done (s p) = true /\ mp_done (s p) = true /\ rd_done (s p) = true.
End Ecdh.

(** RunEcdhPsi returning items (ecdh_psi.cc 556-571); sort + binary_search is
    membership. *)
Fixpoint in_memory_result (items : list bytes) (peer : list bytes) (self : list bytes) : outcome (list bytes) :=
  match self with
  | [] => Ok []
  | c :: r =>
    match items with
    | [] => if existsb (beqb c) peer then Throw else in_memory_result [] peer r
    | it :: its =>
      do rest <- in_memory_result its peer r;
      Ok (if existsb (beqb c) peer then it :: rest else rest)
    end
  end.
