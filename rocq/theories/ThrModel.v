(** Model of threshold ECDH PSI: experiment/psi/threshold_ecdh_psi/threshold_ecdh_psi.cc,
    threshold_ecdh_psi_cache.{h,cc}, sender.cc, receiver.cc, and AbstractPsiParty::Run
    (psi/interface.h 46-60) with the equal-input shortcut of Init (psi/interface.cc 95-126).

    The activities of the two parties exchange numbered messages over FIFO channels
    exactly as in EcdhModel; here each activity is a function from the messages it
    receives to the messages it sends, so interleavings are not represented.

    Not modelled: the recovery manager (no checkpoint, every run is fresh), loss of
    messages, I/O errors, CheckConfig, logging; the protobuf encoding of index lists
    (utils/serialize.h 45-65, values of type uint32_t pass through uint64 unchanged). *)
From Coq Require Import List NArith Bool Arith.
From Verif Require Import Base Text StoreModel EcdhModel DigestModel.
Import ListNotations.

(** ThresholdEcdhPsiCacheItem (threshold_ecdh_psi_cache.h 30-34). *)
Record trec : Type := mk_trec { t_origin : N; t_shuffle : N; t_dup : N }.

(** SaveData (threshold_ecdh_psi_cache.cc 100-108): the record appended; the two
    indices are cut to uint32_t. *)
Definition thr_save (index shuffle_index : nat) (dup : N) : trec :=
  mk_trec (u32 (N.of_nat index)) (u32 (N.of_nat shuffle_index)) dup.

(** The cache on disk: the records of the ".bin" file and the count in the ".meta"
    file, a uint32_t counter (threshold_ecdh_psi_cache.h 91, .cc 107, 110-119; the
    destructor flushes, .h 67-76). *)
Record tcache : Type := mk_tcache { tc_recs : list trec; tc_cnt : N }.
Definition thr_close (recs : list trec) : tcache := mk_tcache recs (u32 (N.of_nat (length recs))).

Section Thr.
(** IEccCryptor of the two parties ([true] is the receiver). *)
Variable Point : Type.
Variable hash_point : bytes -> Point.
Variable mask : bool -> Point -> Point.
Variable ser : Point -> bytes.
Variable deser : bytes -> Point.
Variable dual_mask_size : nat.

(** MaskSelf (psi/algorithm/ecdh/ecdh_psi.cc 92-142) of party [p]: the messages
    sent, starting at batch_count [k]; [touch] is PeerCanTouchResults (111-118). *)
Fixpoint thr_mask_self (p touch : bool) (k : nat) (bs : list (list bytes * dupmap)) : list msg :=
  match bs with
  | [] => [batch_data [] [] k]
  | (items, dup) :: r =>
    let m := batch_data (map (fun it => ser (mask p (hash_point it))) items)
                        (if touch then dup else []) k in
    if Nat.eqb (length items) 0 then [m] else m :: thr_mask_self p touch (S k) r
  end.

(** The doubly masked form of received items (threshold_ecdh_psi.cc 74-85, 173-181). *)
Definition thr_ciphers (p : bool) (items : list bytes) : list bytes :=
  map (fun it => last_bytes dual_mask_size (ser (mask p (deser it)))) items.

(** dup_cnts (94-100): the vector filled from the map; a key beyond its end is a
    write out of bounds. *)
Definition thr_dup_cnts (n : nat) (dup : dupmap) : outcome (list N) :=
  if existsb (fun e => Nat.leb n (fst e)) dup then UB else Ok (map (dup_at dup) (seq 0 n)).

(** The items in shuffled order (104). *)
Definition thr_apply (idx : list nat) (l : list bytes) : list bytes := map (fun j => nth j l []) idx.

(** The records of one batch (103-107): SaveData(item_count + i,
    item_count + shuffled_indices[i], dup_cnts[i]). *)
Definition thr_records (item_count : nat) (idx : list nat) (dcs : list N) : list trec :=
  map (fun i => thr_save (item_count + i) (item_count + nth i idx 0) (nth i dcs 0%N)) (seq 0 (length idx)).

(** MaskAndShufflePeer (52-151) from batch_count [k]; [shufs] are the results of
    std::shuffle, one per non-empty batch.  Result: the records saved and the
    messages sent back.  Receiving from an exhausted channel blocks. *)
Fixpoint thr_shuffle_peer (k item_count : nat) (ms : list msg) (shufs : list (list nat))
  : outcome (list trec * list msg) :=
  match ms with
  | [] => Diverge
  | m :: q =>
    enforce (Nat.eqb (m_idx m) k)
      (let '(items, dup) := recv_batch m in
       if Nat.eqb (length items) 0 then Ok ([], [batch_data [] [] k])
       else
         let ciphers := thr_ciphers false items in
         let idx := match shufs with [] => [] | i :: _ => i end in
         do dcs <- thr_dup_cnts (length ciphers) dup;
         do (recs, out) <- thr_shuffle_peer (S k) (item_count + length items) q (tl shufs);
         Ok (thr_records item_count idx dcs ++ recs, batch_data (thr_apply idx ciphers) [] k :: out))
  end.

(** RecvAndMaskPeer (153-214): what is saved in peer_ec_point_store. *)
Fixpoint thr_mask_peer (k : nat) (ms : list msg) : outcome (list (bytes * N)) :=
  match ms with
  | [] => Diverge
  | m :: q =>
    enforce (Nat.eqb (m_idx m) k)
      (let '(items, dup) := recv_batch m in
       if Nat.eqb (length items) 0 then Ok []
       else
         do rest <- thr_mask_peer (S k) q;
         Ok (map (fun ic => (snd ic, dup_at dup (fst ic))) (number 0 (thr_ciphers true items)) ++ rest))
  end.

(** RecvDualMaskedSelf (ecdh_psi.cc 244-280): what is saved in self_ec_point_store. *)
Fixpoint thr_recv_dual (k : nat) (ms : list msg) : outcome (list (bytes * N)) :=
  match ms with
  | [] => Diverge
  | m :: q =>
    enforce (Nat.eqb (m_idx m) k)
      (let items := fst (recv_batch m) in
       if Nat.eqb (length items) 0 then Ok []
       else
         do rest <- thr_recv_dual (S k) q;
         Ok (map (fun c => (c, 0%N)) items ++ rest))
  end.

(** Online stage: RunSender (216-273) and RunReceiver (275-336).  [broadcast]: both
    parties may touch the result (target_rank, ecdh/receiver.cc 69-73, sender.cc
    70-74); otherwise only the receiver.  Result: the sender's cache and the
    receiver's two stores (what was saved, in order). *)
Definition thr_online (broadcast : bool) (rprov sprov : list (list bytes * dupmap)) (shufs : list (list nat))
  : outcome (tcache * list (bytes * N) * list (bytes * N)) :=
  do (recs, back) <- thr_shuffle_peer 0 0 (thr_mask_self true broadcast 0 rprov) shufs;
  do self <- thr_recv_dual 0 back;
  do peer <- thr_mask_peer 0 (thr_mask_self false true 0 sprov);
  Ok (thr_close recs, self, peer).
End Thr.

(* ------------------------------------------------------------------ *)
(** * The receiver's matching (receiver.cc 76-147) *)

(** What is collected per match: self_shuffled_index, peer_index, peer_dup_cnt. *)
Record tmatch : Type := mk_tmatch { tm_self : N; tm_peer : N; tm_dup : N }.

(** The loop over one bin (105-118); state: matches, real_intersection_count,
    final_intersection_count.  Indices go into vectors of uint32_t. *)
Definition thr_bin_step (th : N) (peer : list bitem) (st : list tmatch * N * N) (it : bitem) : list tmatch * N * N :=
  let '(acc, real, final) := st in
  match set_find peer (b_data it) with
  | None => (acc, real, final)
  | Some p =>
    if (final <? th)%N
    then (acc ++ [mk_tmatch (u32 (b_index it)) (u32 (b_index p)) (b_dup p)], u32 (real + 1)%N, u32 (final + 1)%N)
    else (acc, u32 (real + 1)%N, final)
  end.

(** The loop over the bins (95-119). *)
Fixpoint thr_bins (th : N) (self peer : hbc) (bins : list nat) (st : list tmatch * N * N)
  : outcome (list tmatch * N * N) :=
  match bins with
  | [] => Ok st
  | b :: r =>
    do s <- hb_load self b;
    do p <- hb_load peer b;
    thr_bins th self peer r (fold_left (thr_bin_step th p) s st)
  end.
Definition thr_compute (th : N) (self peer : hbc) : outcome (list tmatch * N * N) :=
  enforce (Nat.eqb (hb_num self) (hb_num peer))
    (thr_bins th self peer (seq 0 (hb_num self)) ([], 0%N, 0%N)).

(** 131-146: the received index list must have the expected length; the pairs
    given to the index writer, and what SaveIntersectCount writes if a count path
    is set. *)
Definition thr_receiver_end (ms : list tmatch) (real final : N) (restored : list N)
  : outcome (list (N * N) * (N * N)) :=
  enforce (N.eqb final (N.of_nat (length restored)))
    (Ok (combine restored (map tm_dup ms), (real, final))).

(* ------------------------------------------------------------------ *)
(** * The sender's restoring of indices (sender.cc 81-157) *)

(** The constructor's checks (threshold_ecdh_psi_cache.cc 33-53). *)
Definition thr_open (c : tcache) : outcome tcache :=
  enforce (N.eqb (N.of_nat (length (tc_recs c))) (tc_cnt c)) (Ok c).

(** ReadNextShuffledBatch (55-76) with read_cnt_ = [read]; batch_size_ is a uint32_t
    (.h 53). *)
Definition thr_read (c : tcache) (batch_size : N) (read : N) : list trec :=
  if (tc_cnt c <=? read)%N then []
  else firstn (N.to_nat (N.min (u32 batch_size) (tc_cnt c - read))) (skipn (N.to_nat read) (tc_recs c)).

(** shuffled_index_map (sender.cc 113-117): later assignments overwrite. *)
Definition thr_position (shuffled : list N) (x : N) : option nat :=
  fold_left (fun r e => if N.eqb (snd e) x then Some (fst e) else r) (number 0 shuffled) None.

(** One record (131-138); state: peer_restored_index and peer_dup_cnt. *)
Definition thr_restore_step (shuffled : list N) (st : list N * list N) (r : trec) : list N * list N :=
  match thr_position shuffled (t_origin r) with
  | None => st
  | Some pos => (upd pos (fun _ => u32 (t_shuffle r)) (fst st), upd pos (fun _ => t_dup r) (snd st))
  end.

(** The loop (120-139): an empty batch ends it.  [fuel] bounds the iterations. *)
Fixpoint thr_restore_loop (fuel : nat) (c : tcache) (batch_size : N) (shuffled : list N) (read : N)
         (st : list N * list N) : outcome (list N * list N) :=
  match fuel with
  | O => Diverge
  | S f =>
    let b := thr_read c batch_size read in
    match b with
    | [] => Ok st
    | _ => thr_restore_loop f c batch_size shuffled (read + N.of_nat (length b))%N
                            (fold_left (thr_restore_step shuffled) b st)
    end
  end.

(** RestoreAndSendIndex: the restored indices sent back, and the pairs given to the
    index writer with the count line if the result is broadcast (146-156;
    self_index[i] out of range is undefined). *)
Definition thr_sender_end (th : N) (broadcast : bool) (c : tcache) (batch_size : N)
           (shuffled : list N) (real : N) (self_index : list N)
  : outcome (list N * (list (N * N) * option (N * N))) :=
  let n := length shuffled in
  do c' <- thr_open c;
  enforce (N.eqb (u32 (N.of_nat n)) (N.min real th))
    (do (restored, dups) <- thr_restore_loop (S (length (tc_recs c'))) c' batch_size shuffled 0
                                             (repeat 0%N n, repeat 0%N n);
     if broadcast
     then if Nat.ltb (length self_index) n then UB
          else Ok (restored, (combine (firstn n self_index) dups, Some (real, N.of_nat n)))
     else Ok (restored, ([], None))).

(* ------------------------------------------------------------------ *)
(** * A whole run *)

Record tout : Type := mk_tout {
  to_recv : list (N * N);               (* receiver's index file: (index, peer count) *)
  to_recv_cnt : option (N * N);         (* receiver's count file: (real, final) *)
  to_send : list (N * N);
  to_send_cnt : option (N * N) }.

Section Run.
Variable Point : Type.
Variable hash_point : bytes -> Point.
Variable mask : bool -> Point -> Point.
Variable ser : Point -> bytes.
Variable deser : bytes -> Point.
Variable dual_mask_size : nat.
(** std::hash<std::string>, and the number of bins (kDefaultBinNum). *)
Variable hash : bytes -> N.
Variable num : nat.

(** Online and PostProcess of both parties: the stores are written in bins
    (ecdh/receiver.cc 85-88), matched, the indices restored and written. *)
Definition thr_protocol (th : N) (broadcast : bool) (batch_size : N)
           (rprov sprov : list (list bytes * dupmap)) (shufs : list (list nat)) : outcome tout :=
  do (cache, self, peer) <- thr_online Point hash_point mask ser deser dual_mask_size broadcast rprov sprov shufs;
  do cs <- hb_open [] num;
  do cp <- hb_open [] num;
  do (ms, real, final) <- thr_compute th (hb_write_all hash cs self) (hb_write_all hash cp peer);
  do (restored, (sout, scnt)) <-
    thr_sender_end th broadcast cache batch_size (map tm_self ms) real (map tm_peer ms);
  do (rout, rcnt) <- thr_receiver_end ms real final restored;
  Ok (mk_tout rout (Some rcnt) sout scnt).

(** AbstractPsiParty::Run (interface.h 46-60) for both parties: with equal digests
    (interface.cc 98-107) each writes the indices 0, 1, ... with count 0 (117-126,
    index_store.h 50) and PreProcess, Online and PostProcess are skipped. *)
Definition thr_run (check : bool) (rinfo sinfo : kinfo)
           (th : N) (broadcast : bool) (batch_size : N)
           (rprov sprov : list (list bytes * dupmap)) (shufs : list (list nat)) : outcome tout :=
  do eq <- digest_equal check [rinfo; sinfo];
  if eq
  then Ok (mk_tout (map (fun i => (i, 0%N)) (equal_indices rinfo)) None
                   (map (fun i => (i, 0%N)) (equal_indices sinfo)) None)
  else thr_protocol th broadcast batch_size rprov sprov shufs.
End Run.
