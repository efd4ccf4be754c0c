(** Model of the on-disk hash-bucket cache and of the point stores built on it:
    psi/utils/hash_bucket_cache.{h,cc}, psi/utils/multiplex_disk_cache.cc,
    psi/utils/ec_point_store.{h,cc} (lines 39-286 and 440-460) and the matching
    step of psi/algorithm/ecdh/ecdh_operator.cc.

    Not modelled: I/O errors, and buffering of the output streams (every reader
    in the code calls Flush first, ec_point_store.cc 71-72, 103-104). *)
From Coq Require Import List NArith Lia Bool.
From Verif Require Import Base Text.
Import ListNotations.
Local Open Scope N_scope.

(** Element [n] of a list changed by [f]. *)
Fixpoint upd {A : Type} (n : nat) (f : A -> A) (l : list A) : list A :=
  match l, n with
  | [], _ => []
  | x :: r, O => f x :: r
  | x :: r, S k => x :: upd k f r
  end.

(* ------------------------------------------------------------------ *)
(** * HashBucketCache *)

(** BucketItem (hash_bucket_cache.h 37-42); sec_hash and pad are not stored. *)
Record bitem : Type := mk_bitem { b_index : N; b_dup : N; b_data : bytes }.

(** Serialize (hash_bucket_cache.h 44-46). *)
Definition serialize (i : bitem) : bytes :=
  dec (b_index i) ++ comma :: dec (b_dup i) ++ comma :: b_data i.

(** Deserialize (hash_bucket_cache.h 56-70). *)
Definition deserialize (s : bytes) : outcome bitem :=
  match split_on comma s with
  | [t0; t1; t2] =>
    match atoi max64 t0 with
    | None => Throw
    | Some i =>
      match atoi max32 t1 with
      | None => Throw
      | Some d => Ok (mk_bitem i d t2)
      end
    end
  | _ => Throw
  end.

(** The cache object: contents of the bucket files "0", "1", ..., bucket_num_ and
    item_index_ (hash_bucket_cache.h 100-106). *)
Record hbc : Type := mk_hbc { hb_files : list bytes; hb_num : nat; hb_idx : N }.

(** Constructor (hash_bucket_cache.cc 30-42).  The streams are opened for
    appending without truncation (multiplex_disk_cache.cc 67-76), so what the
    files held stays; [disk] is what the directory held before ([] for a fresh or
    scoped temporary directory). *)
Definition hb_open (disk : list bytes) (num : nat) : outcome hbc :=
  enforce (negb (Nat.eqb num 0))
    (Ok (mk_hbc (disk ++ repeat [] (num - length disk)) num 0)).

Section Hash.
(** std::hash<std::string>. *)
Variable hash : bytes -> N.

(** Bucket of an item (hash_bucket_cache.cc 56-57). *)
Definition bucket_of (num : nat) (data64 : bytes) : nat := N.to_nat (hash data64 mod N.of_nat num).

(** WriteItem (hash_bucket_cache.cc 49-61). *)
Definition hb_write (c : hbc) (it : bytes * N) : hbc :=
  let '(data, dup) := it in
  let b64 := base64 data in
  let item := mk_bitem (hb_idx c) dup b64 in
  mk_hbc (upd (bucket_of (hb_num c) b64) (fun f => f ++ serialize item ++ [newline]) (hb_files c))
         (hb_num c) (u64 (hb_idx c + 1)).

Definition hb_write_all (c : hbc) (items : list (bytes * N)) : hbc := fold_left hb_write items c.
End Hash.

(** LoadBucketItems (hash_bucket_cache.cc 70-81). *)
Fixpoint load_lines (ls : list bytes) : outcome (list bitem) :=
  match ls with
  | [] => Ok []
  | l :: r => do i <- deserialize l; do is <- load_lines r; Ok (i :: is)
  end.
Definition hb_load (c : hbc) (b : nat) : outcome (list bitem) :=
  match nth_error (hb_files c) b with
  | None => Throw
  | Some f => load_lines (lines f)
  end.

(* ------------------------------------------------------------------ *)
(** * Bin-wise matching *)

(** The item a lookup in an unordered_set built from [peers] finds: insertion of
    an equal element is a no-op, so the first one stays
    (hash_bucket_cache.h 52-54, ec_point_store.cc 116-118). *)
Definition set_find (peers : list bitem) (data64 : bytes) : option bitem :=
  find (fun p => beqb (b_data p) data64) peers.

(** Inner loop of FinalizeAndComputeIndices (ec_point_store.cc 119-125). *)
Definition match_bin (self peer : list bitem) : list (N * N) :=
  flat_map (fun it => match set_find peer (b_data it) with
                      | Some p => [(b_index it, b_dup p)]
                      | None => []
                      end) self.

(** Loop over the bins; result: what is passed to IndexWriter::WriteCache (or to
    the receiver) bin by bin, peer_total_cnt, peer_inter_cnt
    (ec_point_store.cc 98-131). *)
Definition sum_dup (l : list N) (acc : N) : N := fold_left (fun a d => u32 (a + d + 1)) l acc.
Fixpoint finalize_loop (self peer : hbc) (bins : list nat) (total inter : N)
  : outcome (list (N * N) * N * N) :=
  match bins with
  | [] => Ok ([], total, inter)
  | b :: r =>
    do s <- hb_load self b;
    do p <- hb_load peer b;
    let m := match_bin s p in
    do (rest, t, i) <- finalize_loop self peer r (sum_dup (map b_dup p) total)
                                     (sum_dup (map snd m) inter);
    Ok (m ++ rest, t, i)
  end.
Definition finalize_indices (self peer : hbc) : outcome (list (N * N) * N * N) :=
  enforce (Nat.eqb (hb_num self) (hb_num peer))
    (finalize_loop self peer (seq 0 (hb_num self)) 0 0).

(** The variant returning sorted indices only (ec_point_store.cc 67-96); [srt] is
    std::sort. *)
Definition match_bin_idx (self peer : list bitem) : list N :=
  flat_map (fun it => if existsb (fun p => beqb (b_data p) (b_data it)) peer
                      then [b_index it] else []) self.
Fixpoint finalize_idx_loop (self peer : hbc) (bins : list nat) : outcome (list N) :=
  match bins with
  | [] => Ok []
  | b :: r =>
    do s <- hb_load self b;
    do p <- hb_load peer b;
    do rest <- finalize_idx_loop self peer r;
    Ok (match_bin_idx s p ++ rest)
  end.
Definition finalize_indices_sorted (srt : list N -> list N) (self peer : hbc) : outcome (list N) :=
  enforce (Nat.eqb (hb_num self) (hb_num peer))
    (omap srt (finalize_idx_loop self peer (seq 0 (hb_num self)))).

(* ------------------------------------------------------------------ *)
(** * MemoryEcPointStore (ec_point_store.cc 41-48) and EcdhOperator::OnEnd *)

Record mstore : Type := mk_mstore { ms_store : list bytes; ms_dup : list (nat * N); ms_cnt : N }.
Definition ms_empty : mstore := mk_mstore [] [] 0.

Definition ms_save (s : mstore) (it : bytes * N) : mstore :=
  let '(ct, d) := it in
  mk_mstore (ms_store s ++ [ct])
            (if 0 <? d then (length (ms_store s), d) :: ms_dup s else ms_dup s)
            (u64 (ms_cnt s + 1)).
Definition ms_save_all (s : mstore) (items : list (bytes * N)) : mstore := fold_left ms_save items s.

(** unordered_map lookup. *)
Fixpoint assoc (k : nat) (l : list (nat * N)) : option N :=
  match l with
  | [] => None
  | (i, d) :: r => if Nat.eqb i k then Some d else assoc k r
  end.

(** peer_ciphertext_map.emplace keeps the first position (ecdh_operator.cc
    157-161). *)
Fixpoint first_pos (i : nat) (l : list bytes) (x : bytes) : option nat :=
  match l with
  | [] => None
  | y :: r => if beqb y x then Some i else first_pos (S i) r x
  end.

(** OnEnd, in-memory branch (ecdh_operator.cc 149-175): (index, peer_item_cnt). *)
Definition on_end_memory (self peer : mstore) : list (N * N) :=
  flat_map (fun p => match first_pos 0 (ms_store peer) (snd p) with
                     | None => []
                     | Some j => [(N.of_nat (fst p),
                                   u32 (1 + match assoc j (ms_dup peer) with Some d => d | None => 0 end))]
                     end) (number 0 (ms_store self)).

(** OnEnd, bucketed branch (ecdh_operator.cc 116-147). *)
Definition on_end_bins (self peer : hbc) : outcome (list (N * N)) :=
  do (m, _, _) <- finalize_indices self peer;
  Ok (map (fun p => (fst p, u32 (snd p + 1))) m).

(* ------------------------------------------------------------------ *)
(** * Threaded matching (ec_point_store.cc 133-286) *)

(** UbPsiClientCacheMemoryStore::Save / Find (ec_point_store.cc 445-460):
    operator[] overwrites, so the last save wins. *)
Definition cm_find (saved : list (bytes * N)) (ct : bytes) : option (N * N) :=
  option_map (fun p => (N.of_nat (fst p), snd (snd p)))
    (find (fun p => beqb (fst (snd p)) ct) (rev (number 0 saved))).

(** Work of thread [idx] on a batch of [n] items (ec_point_store.cc 162-166). *)
Definition compare_size (n threads : nat) : nat := Nat.div (n + threads - 1) threads.
Definition thread_range (n threads idx : nat) : list nat :=
  let cs := compare_size n threads in
  let b := (idx * cs)%nat in
  seq b (Nat.min n (b + cs) - b).

(** What one thread does at item [i]: append to its own vectors
    (ec_point_store.cc 168-181); a result is (self index, peer index, self dup,
    peer dup). *)
Definition quad : Type := (N * N * N * N)%type.
Definition compare_item (saved : list (bytes * N)) (processed : nat) (batch : list (bytes * N)) (i : nat)
  : list quad :=
  match nth_error batch i with
  | None => []                       (* not reached: i < batch size *)
  | Some (ct, d) =>
    match cm_find saved ct with
    | None => []
    | Some (si, sd) => [(si, N.of_nat (processed + i), sd, d)]
    end
  end.

(** One step of thread [idx] at item [i]. *)
Definition thread_step (f : nat -> list quad) (slots : list (list quad)) (ev : nat * nat)
  : list (list quad) :=
  upd (fst ev) (fun v => v ++ f (snd ev)) slots.

(** A schedule of one batch: a sequence of (thread, item) steps in which every
    thread runs through its own range in order (std::async, lines 184-191). *)
Definition thread_events (idx : nat) (tr : list (nat * nat)) : list nat :=
  map snd (filter (fun e => Nat.eqb (fst e) idx) tr).
Definition valid_schedule (n threads : nat) (tr : list (nat * nat)) : Prop :=
  (forall idx, (idx < threads)%nat -> thread_events idx tr = thread_range n threads idx) /\
  Forall (fun e => (fst e < threads)%nat) tr.

(** All batches, each with its schedule (while loop 148-198), then concatenation
    of the per-thread vectors in thread order (200-217). *)
Fixpoint compute_loop (saved : list (bytes * N)) (processed : nat)
         (bs : list (list (bytes * N) * list (nat * nat))) (slots : list (list quad))
  : list (list quad) :=
  match bs with
  | [] => slots
  | ([], _) :: _ => slots
  | (b, tr) :: r =>
    compute_loop saved (processed + length b) r
                 (fold_left (thread_step (compare_item saved processed b)) tr slots)
  end.
Definition compute_indices_with_dup (threads : nat) (saved : list (bytes * N))
           (bs : list (list (bytes * N) * list (nat * nat))) : outcome (list quad) :=
  if Nat.eqb threads 0 then UB       (* division by zero, line 158 *)
  else Ok (concat (compute_loop saved 0 bs (repeat [] threads))).

(** GetIndicesByItems (ec_point_store.cc 224-286): per batch, result vectors are
    concatenated in thread order. *)
Definition lookup_item (items : list bytes) (base : nat) (batch : list bytes) (i : nat) : list N :=
  match nth_error batch i with
  | None => []
  | Some x => if existsb (beqb x) items then [N.of_nat (base + i)] else []
  end.
Definition get_batch_indices (threads : nat) (items : list bytes) (base : nat) (batch : list bytes) : list N :=
  flat_map (fun idx => flat_map (lookup_item items base batch) (thread_range (length batch) threads idx))
           (seq 0 threads).
Fixpoint get_indices_loop (threads : nat) (items : list bytes) (base : nat) (bs : list (list bytes)) : list N :=
  match bs with
  | [] => []
  | [] :: _ => []
  | b :: r => get_batch_indices threads items base b ++ get_indices_loop threads items (base + length b) r
  end.
Definition get_indices_by_items (threads : nat) (items : list bytes) (bs : list (list bytes)) : outcome (list N) :=
  if Nat.eqb threads 0 then UB else Ok (get_indices_loop threads items 0 bs).
