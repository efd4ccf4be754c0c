(** Model of unbalanced ECDH-OPRF PSI: psi/algorithm/ecdh/ub_psi/ecdh_oprf_psi.cc,
    server.cc (OfflineGenCache .. Online 63-203) and client.cc (54-141).

    The OPRF (ecdh_oprf.h) is given by its four operations.  A message is the pair (flatten_bytes,
    duplicate_item_cnt) of a PsiDataBatch; the message with is_last_batch set ends a list of
    messages.  Simplified: the link delivers messages unchanged and in order; the client uses one
    OPRF key for all items (client.cc 91-93), so the queue of per-item clients is not modelled; the
    parallel loops over independent items are maps. *)
From Coq Require Import List NArith Bool Arith.
From Verif Require Import Base Text StoreModel EcdhModel ShufModel UbCacheModel.
Import ListNotations.

(** The unordered_map of non-zero counts of a batch: ReadNextBatchWithDupCnt
    (ub_psi_cache.cc 80-89; the CSV provider does the same). *)
Definition dups_of {A : Type} (b : list (A * N)) : dupmap :=
  flat_map (fun p => if (snd (snd p) =? 0)%N then [] else [(fst p, snd (snd p))]) (number 0 b).
Definition pmsg : Type := (bytes * dupmap)%type.

(** Cutting flatten_bytes into items, with the ENFORCE before it
    (ecdh_oprf_psi.cc 221-228, 277-285, 482-491, 608-616). *)
Definition cut (len : nat) (flat : bytes) : outcome (list bytes) :=
  enforce (Nat.eqb (Nat.modulo (length flat) len) 0)
    (Ok (map (fun i => firstn len (skipn (i * len) flat)) (seq 0 (Nat.div (length flat) len)))).

(** IEcPointStore::Save of a batch (ec_point_store.h 50-61): the calls made. *)
Definition save_calls (items : list bytes) (dup : dupmap) : list (bytes * N) :=
  map (fun p => (snd p, dup_at dup (fst p))) (number 0 items).

(** Receiving messages into a store: RecvFinalEvaluatedItems (462-497), RecvEvaluatedItems
    (589-652) with [f] = Finalize. *)
Fixpoint recv_into (len : nat) (f : bytes -> bytes) (ms : list pmsg) : outcome (list (bytes * N)) :=
  match ms with
  | [] => Ok []
  | (flat, dup) :: r =>
    do items <- cut len flat;
    omap (app (save_calls (map f items) dup)) (recv_into len f r)
  end.

(** PeerCntInfo (ecdh_oprf_psi.h 138-142): uint32 counters; the map as the list of its
    assignments, latest first. *)
Record pinfo : Type := mk_pinfo { pi_total : N; pi_unique : N; pi_dup : list (N * N) }.
Definition map_find (k : N) (m : list (N * N)) : option N :=
  match find (fun e => fst e =? k)%N m with Some e => Some (snd e) | None => None end.
(** operator[] *)
Definition map_at (m : list (N * N)) (k : N) : N := match map_find k m with Some v => v | None => 0%N end.

(** One received batch of [n] items (239-247, 295-301). *)
Definition count_batch (c : pinfo) (n : nat) (dup : dupmap) : pinfo :=
  let '(t, m) := fold_left (fun s e => (u32 (fst s + snd e), (u32 (N.of_nat (fst e) + pi_unique c), snd e) :: snd s)%N)
                           dup (pi_total c, pi_dup c) in
  mk_pinfo t (u32 (pi_unique c + N.of_nat n)) m.
(** After the loop (250, 303): total += unique. *)
Definition count_end (c : pinfo) : pinfo :=
  mk_pinfo (u32 (pi_total c + pi_unique c)) (pi_unique c) (pi_dup c).

Section UbPsi.
Variable Item : Type.
Variable simple_eval : Item -> bytes.   (* IEcdhOprfServer::SimpleEvaluate *)
Variable blind : Item -> bytes.         (* IEcdhOprfClient::Blind *)
Variable evaluate : bytes -> bytes.     (* IEcdhOprfServer::Evaluate *)
Variable finalize : bytes -> bytes.     (* IEcdhOprfClient::Finalize *)
Variable cl pl : nat.                   (* GetCompareLength, GetEcPointLength *)

(** ** Server, offline *)
(** The records of one batch of FullEvaluate (137-171). *)
Definition batch_recs (b : list (sentry Item)) : list crec :=
  let flat := concat (map (fun e : sentry Item => simple_eval (fst (fst (fst e)))) b) in
  map (fun p => mk_crec (N.of_nat (snd (fst (snd p)))) (N.of_nat (snd (snd p))) (snd (fst (fst (snd p))))
                        (firstn cl (skipn (fst p * cl) flat)))
      (number 0 b).
(** FullEvaluate without sending (94-192) on the batches of the shuffled provider. *)
Definition gen_cache (priv : bytes) (batches : list (list (sentry Item))) : outcome cache :=
  do c <- cache_open cl priv;
  fold_left (fun oc b => do c' <- oc; cache_save_all c' (batch_recs b)) batches (Ok c).
(** SendFinalEvaluatedItems (50-92) on the batches of the cache provider. *)
Definition cache_msg (b : list crec) : pmsg :=
  (concat (map cr_data b), dups_of (map (fun r => (cr_data r, cr_dup r)) b)).

(** ** Client, online *)
(** SendBlindedItems (512-587); [b]: items with their duplicate counts. *)
Definition blind_msg (server_gets : bool) (b : list (Item * N)) : pmsg :=
  (concat (map (fun e => blind (fst e)) b), if server_gets then dups_of b else []).

(** ** Server, online *)
(** RecvBlindAndSendEvaluate (194-255). *)
Fixpoint serve_plain (c : pinfo) (ms : list pmsg) : outcome (pinfo * list pmsg) :=
  match ms with
  | [] => Ok (count_end c, [])
  | (flat, dup) :: r =>
    do items <- cut pl flat;
    do (c', out) <- serve_plain (count_batch c (length items) dup) r;
    Ok (c', (concat (map evaluate items), []) :: out)
  end.
(** RecvBlindAndShuffleSendEvaluate (257-346): the receiving loop (267-302). *)
Fixpoint serve_collect (c : pinfo) (ms : list pmsg) : outcome (pinfo * list bytes) :=
  match ms with
  | [] => Ok (count_end c, [])
  | (flat, dup) :: r =>
    do items <- cut pl flat;
    do (c', out) <- serve_collect (count_batch c (length items) dup) r;
    Ok (c', map evaluate items ++ out)
  end.
(** [perm]: shuffle_index (308-311). *)
Definition serve_shuffled (bs : nat) (perm : list nat) (ms : list pmsg) : outcome (pinfo * list pmsg) :=
  do (c, items) <- serve_collect (mk_pinfo 0 0 []) ms;
  let dup := map (fun p => (u32 (N.of_nat (fst p)), map_at (pi_dup c) (u32 (N.of_nat (snd p))))) (number 0 perm) in
  Ok (mk_pinfo (pi_total c) (pi_unique c) (rev dup),
      map (fun b => (concat b, [])) (chunks bs (map (fun i => nth i items []) perm))).

(** TransCacheIndexesToRowIndexs (server.cc 116-146) over the records of the cache. *)
Definition rows_of_cache (m : list (N * N)) (recs : list crec) : list (N * N) :=
  flat_map (fun r => match map_find (cr_origin r) m with Some c => [(cr_shuffle r, c)] | None => [] end) recs.
(** server.cc 185-189: the map from cache index to the client's count. *)
Definition index_map (c : pinfo) (cache_index client_index : list N) : list (N * N) :=
  rev (map (fun e => (fst e, map_at (pi_dup c) (snd e))) (combine cache_index client_index)).

(** ** The two phases *)
(** Offline at the server (server.cc 63-87). *)
Definition offline_server (priv : bytes) (bs : nat) (moved : Item) (src : list (raw_batch Item)) : outcome cache :=
  do batches <- drain_shuffled Item moved (2 + length (concat (map (rb_items Item) src))) bs (shuf_open Item src);
  gen_cache priv batches.
(** Reading the server's cache (server.cc 89-93). *)
Definition cache_batches (bs : nat) (c : cache) : outcome (list (list crec)) :=
  do p <- prov_open (Some (ca_file c)) (Some (cache_meta c));
  prov_drain (S (N.to_nat (ca_cnt c))) bs p.
(** The transfer (server.cc 95-114, client.cc 54-82) into an empty cache directory. *)
Definition offline_transfer (bs : nat) (c : cache) : outcome cdisk :=
  do bt <- cache_batches bs c;
  do items <- recv_into cl (fun x => x) (map cache_msg bt);
  store_session cl no_cache items.

(** The online phase (server.cc 151-203, client.cc 89-141).  [shuffle]: None when the client gets
    the result, otherwise the permutation drawn by the server.  [sched i n]: thread schedule of
    the client's matching on batch [i] of [n] items.  Result: the client's matched (index, server
    count) and the server's row count; the server's matched (row, client count) and the client's row
    count. *)
Definition online (bs_server bs_client threads : nat) (sched : nat -> nat -> list (nat * nat))
    (shuffle : option (list nat)) (server_gets : bool)
    (c : cache) (d : cdisk) (client : list (list (Item * N)))
  : outcome ((list (N * N) * N) * (list (N * N) * N)) :=
  do (info, ev) <- match shuffle with
                   | None => serve_plain (mk_pinfo 0 0 []) (map (blind_msg server_gets) client)
                   | Some perm => serve_shuffled bs_server perm (map (blind_msg server_gets) client)
                   end;
  do saved <- recv_into pl finalize ev;
  do (peer_cnt, peer) <- open_and_read cl bs_client d;
  do quads <- compute_indices_with_dup threads saved
                (map (fun p => (snd p, sched (fst p) (length (snd p)))) (number 0 peer));
  let self_indices := map (fun q => fst (fst (fst q))) quads in
  let peer_indices := map (fun q => snd (fst (fst q))) quads in
  let peer_dup := map snd quads in
  do recs <- cache_batches bs_server c;
  Ok ((combine self_indices peer_dup, peer_cnt),
      (rows_of_cache (index_map info peer_indices self_indices) (concat recs), pi_total info)).
End UbPsi.
