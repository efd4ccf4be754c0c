(** Model of psi/algorithm/rr22/rr22_utils.cc: transfer of the (truncated) OPRF values and
    the matching of both sides (GetIntersectionSender, GetIntersectionReceiver, both
    overloads).  Memory is a list of bytes; 128-bit values are little endian. *)
From Coq Require Import List NArith Bool.
From Verif Require Import Base StoreModel.
Import ListNotations.
Local Open Scope N_scope.

Fixpoint to_bytes (k : nat) (v : N) : list N :=
  match k with O => [] | S k' => v mod 256 :: to_bytes k' (v / 256) end.
Fixpoint of_bytes (b : list N) : N :=
  match b with [] => 0 | x :: r => x + 256 * of_bytes r end.
Definition u128_bytes (v : N) : list N := to_bytes 16 v.

(** std::memcpy(mem + dst, mem + src, n), with the result memmove would have; the flag says
    whether the two ranges overlap (then the C++ call is undefined behaviour). *)
Definition overlap (dst src n : nat) : bool := Nat.ltb dst (src + n) && Nat.ltb src (dst + n).
Definition mem_copy (mem : list N) (dst src n : nat) : list N :=
  firstn dst mem ++ firstn n (skipn src mem) ++ skipn (dst + n) mem.

(** In-place compaction (rr22_utils.cc 245-247 and 290-292): for i = 0 .. todo-1. *)
Fixpoint compact (todo : nat) (i : nat) (m : nat) (mem : list N) : list N :=
  match todo with
  | O => mem
  | S k => compact k (S i) m (mem_copy mem (i * m) (16 * i) m)
  end.
(** Bytes handed to Send: compress = (mask_size != 16). *)
Definition sender_bytes (m : nat) (oprfs : list N) : list N :=
  let mem := concat (map u128_bytes oprfs) in
  let mem := if Nat.eqb m 16 then mem else compact (length oprfs) 0 m mem in
  firstn (length oprfs * m) mem.

(** The overload with counts sends everything at once (249-251); the other one sends
    chunks of kSendChunkSize items (293-298): for i = 0; i < size; i += chunk. *)
Fixpoint send_chunks (fuel i chunk m n : nat) (mem : list N) : list (list N) :=
  match fuel with
  | O => []
  | S f =>
      if Nat.ltb i n
      then firstn (Nat.min chunk (n - i) * m) (skipn (i * m) mem) :: send_chunks f (i + chunk) chunk m n mem
      else []
  end.
Definition sender_chunks (chunk m : nat) (oprfs : list N) : list (list N) :=
  send_chunks (S (length oprfs)) 0 chunk m (length oprfs) (sender_bytes m oprfs).
(** The receiver copies them behind each other until peer_items_num items have come
    (179-186); a copy past the end of the buffer is undefined behaviour.  Returns the
    buffer and the messages not consumed. *)
Fixpoint recv_chunks (n m count : nat) (buf : list N) (msgs : list (list N)) : outcome (list N * list (list N)) :=
  match msgs with
  | [] => if Nat.ltb count n then Diverge else Ok (buf, [])
  | b :: r =>
      if Nat.ltb count n then
        if Nat.ltb (length buf) (count * m + length b) then UB
        else recv_chunks n m (count + Nat.div (length b) m)
               (firstn (count * m) buf ++ b ++ skipn (count * m + length b) buf) r
      else Ok (buf, msgs)
  end.
Definition receiver_buffer (n m : nat) (msgs : list (list N)) : outcome (list N * list (list N)) :=
  recv_chunks n m 0 (repeat 0 (n * m)) msgs.

(** Item j of the received buffer (107, 202): mask_size bytes into a zeroed uint128_t. *)
Definition read_item (m : nat) (buf : list N) (j : nat) : N := of_bytes (firstn m (skipn (j * m) buf)).

(** truncate_mask (61-69): 0xff repeated mask_size times; key of the map (70-76). *)
Fixpoint truncate_mask (m : nat) : N :=
  match m with O => 0 | S k => N.lor 0xff (N.shiftl (truncate_mask k) 8 mod 2 ^ 128) end.
Definition map_key (m : nat) (v : N) : N := if Nat.eqb m 16 then v else N.land v (truncate_mask m).

(** google::dense_hash_map with empty key 0: inserting or looking up 0 is an error of the
    caller (UB here); insert keeps the first value of a key. *)
Fixpoint dense_find (mp : list (N * nat)) (k : N) : option nat :=
  match mp with [] => None | (k', i) :: r => if k =? k' then Some i else dense_find r k end.
Fixpoint dense_build (m : nat) (i : nat) (oprfs : list N) (mp : list (N * nat)) : outcome (list (N * nat)) :=
  match oprfs with
  | [] => Ok mp
  | v :: r =>
      let k := map_key m v in
      if k =? 0 then UB
      else dense_build m (S i) r (match dense_find mp k with Some _ => mp | None => mp ++ [(k, i)] end)
  end.

(** std::unordered_map<uint64_t, uint32_t> of the positive counts, and reading it with
    operator[] (a missing key reads 0). *)
Fixpoint cnt_map (i : nat) (cnts : list N) : list (nat * N) :=
  match cnts with [] => [] | c :: r => if 0 <? c then (i, c) :: cnt_map (S i) r else cnt_map (S i) r end.
Fixpoint cnt_get (mp : list (nat * N)) (i : nat) : N :=
  match mp with [] => 0 | (k, c) :: r => if Nat.eqb k i then c else cnt_get r i end.

(** One match found by a worker: self index, peer count, peer index, self count. *)
Record rmatch := mk_match { mt_self : nat; mt_peer_cnt : N; mt_peer : nat; mt_self_cnt : N }.

(** The loop of one worker over [begin, begin + todo) (106-120). *)
Fixpoint worker (m : nat) (buf : list N) (mp : list (N * nat)) (peer_cnt : list (nat * N))
  (self_cnts : list N) (broadcast : bool) (j todo : nat) : outcome (list rmatch) :=
  match todo with
  | O => Ok []
  | S k =>
      let key := read_item m buf j in
      if key =? 0 then UB else
      match dense_find mp key with
      | None => worker m buf mp peer_cnt self_cnts broadcast (S j) k
      | Some i =>
          enforce (negb broadcast || Nat.ltb i (length self_cnts))
            (do rest <- worker m buf mp peer_cnt self_cnts broadcast (S j) k;
             Ok (mk_match i (cnt_get peer_cnt j) j (nth i self_cnts 0) :: rest))
      end
  end.
(** The workers' results in the order in which they take the merge lock. *)
Fixpoint run_workers (m : nat) (buf : list N) (mp : list (N * nat)) (peer_cnt : list (nat * N))
  (self_cnts : list N) (broadcast : bool) (ranges : list (nat * nat)) : outcome (list rmatch) :=
  match ranges with
  | [] => Ok []
  | (b, e) :: r =>
      do x <- worker m buf mp peer_cnt self_cnts broadcast b (e - b);
      do y <- run_workers m buf mp peer_cnt self_cnts broadcast r;
      Ok (x ++ y)
  end.

(** What the two sides return. *)
Record match_result := mk_res {
  res_self : list nat; res_peer_cnt : list N;           (* receiver: self_indices, peer_cnt *)
  res_sender : list nat; res_sender_cnt : list N        (* sender: result, items_cnt_v *)
}.

(** Both sides (51-150 and 229-273); [ranges] are the worker ranges in merge order. *)
Definition match_run (m : nat) (broadcast : bool) (selfs : list N) (self_cnts : list N)
  (peers : list N) (peer_cnts : list N) (ranges : list (nat * nat)) : outcome match_result :=
  let buf := sender_bytes m peers in
  let pc := cnt_map 0 peer_cnts in
  do mp <- dense_build m 0 selfs [];
  enforce (Nat.eqb (length peers) (Nat.div (length buf) m))
   (do ms <- run_workers m buf mp pc self_cnts broadcast ranges;
    let peer_indices := if broadcast then map mt_peer ms else [] in
    let self_cnt := if broadcast then map mt_self_cnt ms else [] in
    (* the sender: items_cnt_v(result.size(), 0), then the entries of the received map *)
    let cv := fold_left (fun v e => upd (fst e) (fun _ => snd e) v) (cnt_map 0 self_cnt)
                        (repeat 0 (length peer_indices)) in
    Ok (mk_res (map mt_self ms) (map mt_peer_cnt ms) peer_indices cv)).
