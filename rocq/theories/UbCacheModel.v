(** Model of the two cache files of unbalanced PSI:
    server: psi/algorithm/ecdh/ub_psi/ub_psi_cache.{h,cc};
    client: UbPsiClientCacheFileStore, psi/utils/ec_point_store.{h,cc} 112-153 / 290-439.
    Integers are stored little-endian (x86-64), structs without padding (all members have alignment
    1 or 4).  Simplified: JSON encoding of the server meta file and file-system errors. *)
From Coq Require Import List NArith Bool Arith.
From Verif Require Import Base Text Rr22MatchModel.
Import ListNotations.

(** kMaxCipherSize (ub_psi_cache.h 36, ec_point_store.h 114). *)
Definition max_cipher : nat := 32.

(** ** Server cache *)
(** UbPsiCacheItem (ub_psi_cache.h 36-41); [cr_data] is the part of data[32] in use. *)
Record crec : Type := mk_crec { cr_origin : N; cr_shuffle : N; cr_dup : N; cr_data : bytes }.
Definition rec_size : nat := 44.
(** SaveData (ub_psi_cache.cc 145-160): the struct as written; data[] is zero-initialised. *)
Definition enc_rec (r : crec) : bytes :=
  to_bytes 4 (cr_origin r) ++ to_bytes 4 (cr_shuffle r) ++ to_bytes 4 (cr_dup r)
  ++ cr_data r ++ repeat 0%N (max_cipher - length (cr_data r)).
Record cmeta : Type := mk_cmeta { cm_item_len : nat; cm_item_count : N; cm_priv : bytes }.
(** The cache object; [ca_file] is everything written to the stream. *)
Record cache : Type := mk_cache { ca_file : bytes; ca_len : nat; ca_cnt : N; ca_priv : bytes }.

(** Constructor (123-137). *)
Definition cache_open (data_len : nat) (priv : bytes) : outcome cache :=
  enforce (Nat.ltb data_len max_cipher) (Ok (mk_cache [] data_len 0 priv)).
Definition cache_save (c : cache) (r : crec) : outcome cache :=
  enforce (Nat.eqb (length (cr_data r)) (ca_len c))
    (Ok (mk_cache (ca_file c ++ enc_rec r) (ca_len c) (ca_cnt c + 1) (ca_priv c))).
Fixpoint cache_save_all (c : cache) (rs : list crec) : outcome cache :=
  match rs with [] => Ok c | r :: k => do c' <- cache_save c r; cache_save_all c' k end.
(** Flush (139-143): meta first, then the data stream; item_count is a uint32. *)
Definition cache_meta (c : cache) : cmeta := mk_cmeta (ca_len c) (u32 (ca_cnt c)) (ca_priv c).

(** UbPsiCacheProvider: constructor (44-63). *)
Record cprov : Type := mk_cprov { cp_data : bytes; cp_meta : cmeta; cp_read : nat }.
Definition prov_open (data : option bytes) (meta : option cmeta) : outcome cprov :=
  match data, meta with
  | Some d, Some m =>
    enforce (N.of_nat (Nat.div (length d) rec_size) =? cm_item_count m)%N (Ok (mk_cprov d m 0))
  | _, _ => Throw
  end.
(** One item as ReadData and ReadNextShuffledBatch see it (65-72, 103-108). *)
Definition dec_rec (len : nat) (b : bytes) : crec :=
  mk_crec (of_bytes (firstn 4 b)) (of_bytes (firstn 4 (skipn 4 b))) (of_bytes (firstn 4 (skipn 8 b)))
          (firstn len (skipn 12 b)).
(** ReadNextShuffledBatch (91-113); [bs] is batch_size_. *)
Definition prov_read (bs : nat) (p : cprov) : cprov * list crec :=
  let n := N.to_nat (cm_item_count (cp_meta p)) in
  if Nat.leb n (cp_read p) then (p, [])
  else
    let count := Nat.min bs (n - cp_read p) in
    let raw := firstn (count * rec_size) (skipn (cp_read p * rec_size) (cp_data p)) in
    (mk_cprov (cp_data p) (cp_meta p) (cp_read p + count),
     map (dec_rec (cm_item_len (cp_meta p))) (chunks rec_size raw)).
Fixpoint prov_drain (fuel bs : nat) (p : cprov) {struct fuel} : outcome (list (list crec)) :=
  match fuel with
  | O => Diverge
  | S k => let '(p', b) := prov_read bs p in
           match b with [] => Ok [] | _ => omap (cons b) (prov_drain k bs p') end
  end.

(** ** Client store *)
(** CacheItem (ec_point_store.h 115-118); bytes after the ciphertext are indeterminate, here 0. *)
Definition item_size : nat := 36.
Definition enc_item (it : bytes * N) : bytes :=
  fst it ++ repeat 0%N (max_cipher - length (fst it)) ++ to_bytes 4 (snd it).
(** CacheMeta (119-123). *)
Definition enc_meta (item_cnt peer_cnt cipher_len : N) : bytes :=
  to_bytes 4 item_cnt ++ to_bytes 4 peer_cnt ++ to_bytes 4 cipher_len.

(** The files "server_cache" and "server_cache.meta". *)
Record cdisk : Type := mk_cdisk { cd_data : option bytes; cd_meta : option bytes }.
Definition no_cache : cdisk := mk_cdisk None None.
(** The store object; [cs_pending]: bytes still in the stream buffer. *)
Record cstore : Type := mk_cstore { cs_len : nat; cs_items : N; cs_peer : N; cs_pending : bytes }.
Definition file_bytes (f : option bytes) : bytes := match f with Some b => b | None => [] end.

(** DumpMeta (376-381). *)
Definition dump_meta (s : cstore) (d : cdisk) : cdisk :=
  mk_cdisk (cd_data d) (Some (enc_meta (cs_items s) (cs_peer s) (N.of_nat (cs_len s)))).
(** Constructor (383-413).  LoadMeta (371-374) of a file shorter than the struct leaves members
    uninitialised. *)
Definition store_open (len : nat) (d : cdisk) : outcome (cdisk * cstore) :=
  enforce (Nat.leb len max_cipher)
    (let data := file_bytes (cd_data d) in
     let cnt := u32 (N.of_nat (Nat.div (length data) item_size)) in
     let d1 := mk_cdisk (Some data) (cd_meta d) in
     match cd_meta d with
     | None => let s := mk_cstore len cnt 0 [] in Ok (dump_meta s d1, s)
     | Some m =>
       if Nat.ltb (length m) 12 then UB
       else
         enforce (N.of_nat len =? of_bytes (firstn 4 (skipn 8 m)))%N
           (enforce (cnt =? of_bytes (firstn 4 m))%N
              (Ok (d1, mk_cstore len cnt (of_bytes (firstn 4 (skipn 4 m))) [])))
     end).
(** Save (428-439). *)
Definition store_save (s : cstore) (it : bytes * N) : outcome cstore :=
  enforce (Nat.eqb (length (fst it)) (cs_len s))
    (Ok (mk_cstore (cs_len s) (u32 (cs_items s + 1)) (u32 (cs_peer s + snd it + 1)) (cs_pending s ++ enc_item it))).
Fixpoint store_save_all (s : cstore) (its : list (bytes * N)) : outcome cstore :=
  match its with [] => Ok s | i :: r => do s' <- store_save s i; store_save_all s' r end.
(** Flush (423-426), also run by the destructor. *)
Definition store_flush (d : cdisk) (s : cstore) : cdisk * cstore :=
  let s' := mk_cstore (cs_len s) (cs_items s) (cs_peer s) [] in
  (dump_meta s' (mk_cdisk (Some (file_bytes (cd_data d) ++ cs_pending s)) (cd_meta d)), s').
(** A whole session: open, save, destroy. *)
Definition store_session (len : nat) (d : cdisk) (its : list (bytes * N)) : outcome cdisk :=
  do (d1, s) <- store_open len d;
  do s1 <- store_save_all s its;
  Ok (fst (store_flush d1 s1)).
(** A session that dies: [k] bytes of its data reached the file; the meta file untouched, or, once
    all data was out, holding the first [j] bytes of the new meta. *)
Definition crash_in_data (len : nat) (d : cdisk) (its : list (bytes * N)) (k : nat) : outcome cdisk :=
  do (d1, s) <- store_open len d;
  do s1 <- store_save_all s its;
  Ok (mk_cdisk (Some (file_bytes (cd_data d1) ++ firstn k (cs_pending s1))) (cd_meta d1)).
Definition crash_in_meta (len : nat) (d : cdisk) (its : list (bytes * N)) (j : nat) : outcome cdisk :=
  do d1 <- store_session len d its;
  Ok (mk_cdisk (cd_data d1) (option_map (firstn j) (cd_meta d1))).

(** UbPsiClientCacheFileStoreProvider (290-367): all items, in order; batches by [bs]. *)
Definition dec_item (len : nat) (b : bytes) : bytes * N := (firstn len b, of_bytes (skipn 32 b)).
Fixpoint store_read (fuel bs : nat) (len n : nat) (data : bytes) {struct fuel} : outcome (list (list (bytes * N))) :=
  match fuel with
  | O => Diverge
  | S k =>
    let count := Nat.min bs n in
    match map (dec_item len) (chunks item_size (firstn (count * item_size) data)) with
    | [] => Ok []
    | b => omap (cons b) (store_read k bs len (n - count) (skipn (count * item_size) data))
    end
  end.
(** GetBatchProvider on an open store, and reading to the end. *)
Definition store_contents (bs : nat) (d : cdisk) (s : cstore) : outcome (list (list (bytes * N))) :=
  match cd_data d with
  | None => Throw
  | Some data => let n := Nat.div (length data) item_size in store_read (S n) bs (cs_len s) n data
  end.
(** Open and read: what an online run does (client.cc 103-104, ec_point_store.cc 148). *)
Definition open_and_read (len bs : nat) (d : cdisk) : outcome (N * list (list (bytes * N))) :=
  do (d1, s) <- store_open len d;
  let '(d2, s2) := store_flush d1 s in
  omap (pair (cs_peer s2)) (store_contents bs d2 s2).
