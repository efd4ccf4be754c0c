(** Model of PIANO: experiment/pir/piano/{client,server,util}.cc, util.h, serialize.h.

    Entries are lists of bytes; indices, sizes and counters are natural numbers (uint64_t in the
    code; no value exceeds twice the number of bytes of the database).  The pseudorandom function
    (AES with the long key, util.cc 40-49) is an argument, as are the values of the generators of
    random numbers.
    Simplified: a protobuf message is the data put into it; the threads of PreprocessDBChunk,
    which write disjoint elements, run one after the other; the number of queries and of backup
    sets before rounding up to a multiple of the threads (formulas over doubles in client.cc
    37-39, 56-58) are arguments; the comparison of doubles in GenChunkParams is exact. *)
From Coq Require Import List NArith Bool Arith.
From Verif Require Import Base Text Rr22MatchModel OkvsModel.
Import ListNotations.

(** DBEntry (util.h 29-81). *)
Definition pn_entry : Type := list N.
Definition pn_zero (size : nat) : pn_entry := repeat 0%N size.
Definition pn_xor (a b : pn_entry) : outcome pn_entry :=
  enforce (Nat.eqb (length a) (length b)) (Ok (map (fun xy => N.lxor (fst xy) (snd xy)) (combine a b))).
(** [len] bytes at [off] of a vector, through a pointer or an iterator. *)
Definition pn_slice (b : list N) (off len : nat) : outcome pn_entry :=
  if Nat.leb (off + len) (length b) then Ok (firstn len (skipn off b)) else UB.

(** FNVHash (util.cc 72-89). *)
Fixpoint fnv_loop (n : nat) (hash key : N) : N :=
  match n with
  | O => hash
  | S k => fnv_loop k (u64 (N.lxor hash (N.land key 255) * 1099511628211)) (N.shiftr key 8)
  end.
Definition fnv_hash (key : N) : list N := to_bytes 8 (fnv_loop 8 14695981039346656037 key).
(** GenDBEntry (util.h 59-72). *)
Definition gen_entry (size : nat) (key id : N) : pn_entry :=
  map (fun i => nth i (fnv_hash (N.lxor key id)) 0%N) (seq 0 size).

(** GenChunkParams (util.cc 19-30). *)
Fixpoint chunk_loop (fuel c n : nat) : nat :=
  match fuel with
  | O => c
  | S f => if Nat.ltb (c * c) (4 * n) then chunk_loop f (c * 2) n else c
  end.
Definition chunk_params (n : nat) : nat * nat :=
  let c := chunk_loop 64 1 n in (c, (n + c - 1) / c).

(** QueryServiceServer (server.cc 19-39). *)
Record pn_server := { pv_db : list N; pv_num : nat; pv_size : nat; pv_chunk : nat; pv_sets : nat }.
Definition pn_server_new (db : list N) (num size : nat) (seed : N) : pn_server :=
  let '(chunk, sets) := chunk_params num in
  if Nat.ltb num (chunk * sets) then
    {| pv_db := db ++ concat (map (fun i => gen_entry size seed (N.of_nat i)) (seq 0 (chunk * sets - num)));
       pv_num := num + (chunk * sets - num); pv_size := size; pv_chunk := chunk; pv_sets := sets |}
  else {| pv_db := db; pv_num := num; pv_size := size; pv_chunk := chunk; pv_sets := sets |}.
(** GetDBChunk (server.cc 41-48). *)
Definition get_db_chunk (s : pn_server) (ci : nat) : outcome (nat * list N) :=
  do chunk <- pn_slice (pv_db s) (ci * pv_chunk s * pv_size s) (pv_chunk s * pv_size s); Ok (ci, chunk).
(** DBAccess (server.cc 61-70). *)
Definition db_access (s : pn_server) (idx : nat) : outcome pn_entry :=
  if Nat.ltb idx (pv_num s) then pn_slice (pv_db s) (idx * pv_size s) (pv_size s) else Ok (pn_zero (pv_size s)).
(** GenerateIndexReply (server.cc 50-59). *)
Fixpoint reply_loop (s : pn_server) (indices : list nat) (parity : pn_entry) : outcome pn_entry :=
  match indices with
  | [] => Ok parity
  | i :: r => do e <- db_access s i; do p <- pn_xor parity e; reply_loop s r p
  end.
Definition index_reply (s : pn_server) (indices : list nat) : outcome pn_entry :=
  reply_loop s indices (pn_zero (pv_size s)).

(** The client's tables (client.h 34-115, 185-204). *)
Record pn_set := { ps_tag : N; ps_parity : pn_entry; ps_point : nat; ps_prog : bool }.
Record pn_backup := { pb_tag : N; pb_parity : pn_entry }.
Record pn_repl := { pr_used : nat; pr_idx : list nat; pr_val : list pn_entry }.
Record pn_client := {
  pc_size : nat; pc_chunk : nat; pc_sets : nat; pc_threads : nat; pc_m1 : nat; pc_m2 : nat;
  pc_prim : list pn_set; pc_back : list pn_backup; pc_bused : list nat; pc_repl : list pn_repl;
  pc_cache : list (nat * pn_entry); pc_miss : list (nat * pn_entry);
  pc_mask : bool; pc_cur : nat; pc_hit : nat }.

Fixpoint pn_upd {A : Type} (i : nat) (x : A) (l : list A) : list A :=
  match l, i with
  | [], _ => []
  | _ :: r, O => x :: r
  | y :: r, S k => y :: pn_upd k x r
  end.
Definition pn_get {A : Type} (l : list A) (i : nat) : outcome A :=
  match nth_error l i with Some x => Ok x | None => UB end.
(** unordered_map: find, and assignment through operator[]. *)
Fixpoint pn_find (k : nat) (m : list (nat * pn_entry)) : option pn_entry :=
  match m with
  | [] => None
  | (k', v) :: r => if Nat.eqb k k' then Some v else pn_find k r
  end.

(** The constructor (client.cc 19-100); [tq] and [bk] are the two products of logarithms. *)
Definition round_up (n threads : nat) : nat := (n + threads - 1) / threads * threads.
Definition pn_client_new (num threads size tq bk : nat) : pn_client :=
  let threads := if Nat.ltb 0 threads then threads else 1 in
  let '(chunk, sets) := chunk_params num in
  let m1 := round_up tq threads in
  let m2 := round_up bk threads in
  {| pc_size := size; pc_chunk := chunk; pc_sets := sets; pc_threads := threads; pc_m1 := m1; pc_m2 := m2;
     pc_prim := map (fun i => {| ps_tag := u32 (N.of_nat i); ps_parity := pn_zero size; ps_point := 0; ps_prog := false |}) (seq 0 m1);
     pc_back := map (fun i => {| pb_tag := u32 (N.of_nat i); pb_parity := pn_zero size |}) (seq m1 (m2 * sets));
     pc_bused := repeat 0 sets;
     pc_repl := repeat {| pr_used := 0; pr_idx := repeat 0 m2; pr_val := repeat [] m2 |} sets;
     pc_cache := []; pc_miss := []; pc_mask := false; pc_cur := 0; pc_hit := 0 |}.

Section Piano.
(** PRFEvalWithLongKeyAndTag (util.cc 40-49). *)
Variable prf : N -> N -> N.

(** The masking with chunk_size - 1 (util.cc 58, 69; client.cc 133, 149). *)
Definition pn_low (chunk : nat) (w : N) : nat := N.to_nat (N.land w (N.of_nat (chunk - 1))).
Definition pn_off (chunk : nat) (tag : N) (ci : nat) : nat := pn_low chunk (prf tag (N.of_nat ci)).

(** The loop over primary sets of one thread (client.cc 130-140). *)
Fixpoint pre_prims (chunk size : nat) (db : list N) (ci : nat) (js : list nat) (prims : list pn_set) (hit : list bool)
  : outcome (list pn_set * list bool) :=
  match js with
  | [] => Ok (prims, hit)
  | j :: r =>
      do s <- pn_get prims j;
      let off := pn_off chunk (ps_tag s) ci in
      do e <- pn_slice db (off * size) size;
      do p <- pn_xor (ps_parity s) e;
      pre_prims chunk size db ci r
        (pn_upd j {| ps_tag := ps_tag s; ps_parity := p; ps_point := ps_point s; ps_prog := ps_prog s |} prims)
        (pn_upd off true hit)
  end.
(** The loop over backup sets of one thread (client.cc 143-154). *)
Fixpoint pre_backs (chunk size m2 : nat) (db : list N) (ci : nat) (js : list nat) (backs : list pn_backup)
  : outcome (list pn_backup) :=
  match js with
  | [] => Ok backs
  | j :: r =>
      if (Nat.ltb j (ci * m2) || Nat.leb ((ci + 1) * m2) j)%bool then
        do b <- pn_get backs j;
        let off := pn_off chunk (pb_tag b) ci in
        do e <- pn_slice db (off * size) size;
        do p <- pn_xor (pb_parity b) e;
        pre_backs chunk size m2 db ci r (pn_upd j {| pb_tag := pb_tag b; pb_parity := p |} backs)
      else pre_backs chunk size m2 db ci r backs
  end.
(** The elements of one thread (client.cc 113-125). *)
Definition thread_range (n threads tid : nat) : list nat :=
  let per := (n + threads - 1) / threads in
  seq (tid * per) (Nat.min (tid * per + per) n - tid * per).
Fixpoint pre_threads (c : pn_client) (db : list N) (ci : nat) (tids : list nat)
    (prims : list pn_set) (backs : list pn_backup) (hit : list bool)
  : outcome (list pn_set * list pn_backup * list bool) :=
  match tids with
  | [] => Ok (prims, backs, hit)
  | t :: r =>
      do ph <- pre_prims (pc_chunk c) (pc_size c) db ci (thread_range (pc_m1 c) (pc_threads c) t) prims hit;
      do b <- pre_backs (pc_chunk c) (pc_size c) (pc_m2 c) db ci
                (thread_range (pc_m2 c * pc_sets c) (pc_threads c) t) backs;
      pre_threads c db ci r (fst ph) b (snd ph)
  end.
(** The elements no primary set contains (client.cc 167-175). *)
Fixpoint pre_misses (c : pn_client) (db : list N) (ci : nat) (hit : list bool) (js : list nat) (miss : list (nat * pn_entry))
  : outcome (list (nat * pn_entry)) :=
  match js with
  | [] => Ok miss
  | j :: r =>
      if nth j hit false then pre_misses c db ci hit r miss else
      do e <- pn_slice db (j * pc_size c) (pc_size c);
      pre_misses c db ci hit r ((j + ci * pc_chunk c, e) :: miss)
  end.
(** PreprocessDBChunk (client.cc 102-190); [rnd k] is what the generator yields for replacement k. *)
Definition preprocess (c : pn_client) (msg : nat * list N) (rnd : nat -> N) : outcome pn_client :=
  let '(ci, db) := msg in
  do pbh <- pre_threads c db ci (seq 0 (pc_threads c)) (pc_prim c) (pc_back c) (repeat false (pc_chunk c));
  let '(prims, backs, hit) := pbh in
  do miss <- pre_misses c db ci hit (seq 0 (pc_chunk c)) (pc_miss c);
  do rg <- pn_get (pc_repl c) ci;
  do vals <- omapM (fun k => pn_slice db (pn_low (pc_chunk c) (rnd k) * pc_size c) (pc_size c)) (seq 0 (pc_m2 c));
  Ok {| pc_size := pc_size c; pc_chunk := pc_chunk c; pc_sets := pc_sets c; pc_threads := pc_threads c;
        pc_m1 := pc_m1 c; pc_m2 := pc_m2 c; pc_prim := prims; pc_back := backs; pc_bused := pc_bused c;
        pc_repl := pn_upd ci {| pr_used := pr_used rg;
                                pr_idx := map (fun k => pn_low (pc_chunk c) (rnd k) + ci * pc_chunk c) (seq 0 (pc_m2 c));
                                pr_val := vals |} (pc_repl c);
        pc_cache := pc_cache c; pc_miss := miss; pc_mask := pc_mask c; pc_cur := pc_cur c; pc_hit := pc_hit c |}.

(** GenerateMaskQuery (client.cc 192-199). *)
Definition mask_query (c : pn_client) (rnd : nat -> N) : list nat :=
  map (fun i => N.to_nat (rnd i mod N.of_nat (pc_chunk c)) + i * pc_chunk c) (seq 0 (pc_sets c)).
(** The search for a primary set (client.cc 213-224). *)
Definition set_matches (c : pn_client) (ci off : nat) (s : pn_set) : bool :=
  (negb (ps_prog s && Nat.eqb ci (ps_point s / pc_chunk c)) && Nat.eqb off (pn_off (pc_chunk c) (ps_tag s) ci))%bool.
Fixpoint pn_search (c : pn_client) (ci off : nat) (sets : list pn_set) (i : nat) : option (nat * pn_set) :=
  match sets with
  | [] => None
  | s :: r => if set_matches c ci off s then Some (i, s) else pn_search c ci off r (S i)
  end.
(** ExpandWithLongKey (util.cc 51-62). *)
Definition pn_expand (c : pn_client) (tag : N) : list nat :=
  map (fun i => i * pc_chunk c + pn_off (pc_chunk c) tag i) (seq 0 (pc_sets c)).

Definition set_ctx (c : pn_client) (cache : list (nat * pn_entry)) (mask : bool) (idx hit : nat) : pn_client :=
  {| pc_size := pc_size c; pc_chunk := pc_chunk c; pc_sets := pc_sets c; pc_threads := pc_threads c;
     pc_m1 := pc_m1 c; pc_m2 := pc_m2 c; pc_prim := pc_prim c; pc_back := pc_back c; pc_bused := pc_bused c;
     pc_repl := pc_repl c; pc_cache := cache; pc_miss := pc_miss c; pc_mask := mask; pc_cur := idx; pc_hit := hit |}.

(** GenerateIndexQuery (client.cc 201-263): the client afterwards, the indices sent, and whether an
    error was logged.  [rnd] is used by a mask query. *)
Definition gen_query (c : pn_client) (idx : nat) (rnd : nat -> N) : outcome (pn_client * list nat * bool) :=
  match pn_find idx (pc_cache c) with
  | Some _ => Ok (set_ctx c (pc_cache c) true idx (pc_hit c), mask_query c rnd, false)
  | None =>
      let off := idx mod pc_chunk c in
      let ci := idx / pc_chunk c in
      match pn_search c ci off (pc_prim c) 0 with
      | None =>
          match pn_find idx (pc_miss c) with
          | None => Ok (set_ctx c (pc_cache c) true idx (pc_hit c), mask_query c rnd, true)
          | Some e => Ok (set_ctx c ((idx, e) :: pc_cache c) true idx (pc_hit c), mask_query c rnd, false)
          end
      | Some (h, s) =>
          let ex := pn_expand c (ps_tag s) in
          do ex <- (if ps_prog s then
                      if Nat.ltb (ps_point s / pc_chunk c) (length ex)
                      then Ok (pn_upd (ps_point s / pc_chunk c) (ps_point s) ex) else UB
                    else Ok ex);
          do rg <- pn_get (pc_repl c) ci;
          if Nat.eqb (pr_used rg) (pc_m2 c) then
            Ok (set_ctx c (pc_cache c) true idx (pc_hit c), mask_query c rnd, true)
          else
            do ri <- pn_get (pr_idx rg) (pr_used rg);
            if Nat.ltb ci (length ex)
            then Ok (set_ctx c (pc_cache c) (pc_mask c) idx h, pn_upd ci ri ex, false) else UB
      end
  end.

(** RecoverIndexReply (client.cc 265-314). *)
Definition recover (c : pn_client) (parity : pn_entry) : outcome (pn_client * pn_entry) :=
  let idx := pc_cur c in
  if pc_mask c then
    Ok (set_ctx c (pc_cache c) false idx (pc_hit c),
        match pn_find idx (pc_cache c) with Some e => e | None => pn_zero (pc_size c) end)
  else
    let ci := idx / pc_chunk c in
    do rg <- pn_get (pc_repl c) ci;
    do rv <- pn_get (pr_val rg) (pr_used rg);
    do s <- pn_get (pc_prim c) (pc_hit c);
    do v1 <- pn_xor (ps_parity s) parity;
    do val <- pn_xor v1 rv;
    let repl := pn_upd ci {| pr_used := S (pr_used rg); pr_idx := pr_idx rg; pr_val := pr_val rg |} (pc_repl c) in
    let cache := (idx, val) :: pc_cache c in
    do used <- pn_get (pc_bused c) ci;
    if Nat.eqb used (pc_m2 c) then
      Ok ({| pc_size := pc_size c; pc_chunk := pc_chunk c; pc_sets := pc_sets c; pc_threads := pc_threads c;
             pc_m1 := pc_m1 c; pc_m2 := pc_m2 c; pc_prim := pc_prim c; pc_back := pc_back c; pc_bused := pc_bused c;
             pc_repl := repl; pc_cache := cache; pc_miss := pc_miss c;
             pc_mask := pc_mask c; pc_cur := pc_cur c; pc_hit := pc_hit c |}, val)
    else
      do b <- pn_get (pc_back c) (ci * pc_m2 c + used);
      do p <- pn_xor val (pb_parity b);
      Ok ({| pc_size := pc_size c; pc_chunk := pc_chunk c; pc_sets := pc_sets c; pc_threads := pc_threads c;
             pc_m1 := pc_m1 c; pc_m2 := pc_m2 c;
             pc_prim := pn_upd (pc_hit c) {| ps_tag := pb_tag b; ps_parity := p; ps_point := idx; ps_prog := true |} (pc_prim c);
             pc_back := pc_back c; pc_bused := pn_upd ci (S used) (pc_bused c);
             pc_repl := repl; pc_cache := cache; pc_miss := pc_miss c;
             pc_mask := pc_mask c; pc_cur := pc_cur c; pc_hit := pc_hit c |}, val).

(** The preprocessing phase and a sequence of queries, in the order of piano_test.cc 100-114.  A query
    yields the entry, the indices the server saw and whether an error was logged. *)
Fixpoint pn_offline (s : pn_server) (c : pn_client) (rnd : nat -> nat -> N) (order : list nat) : outcome pn_client :=
  match order with
  | [] => Ok c
  | ci :: r => do m <- get_db_chunk s ci; do c1 <- preprocess c m (rnd ci); pn_offline s c1 rnd r
  end.
Definition pn_round (s : pn_server) (c : pn_client) (idx : nat) (rnd : nat -> N)
  : outcome (pn_client * (pn_entry * list nat * bool)) :=
  do cql <- gen_query c idx rnd;
  let '(c1, q, err) := cql in
  do rep <- index_reply s q;
  do ce <- recover c1 rep;
  Ok (fst ce, (snd ce, q, err)).
Fixpoint pn_rounds (s : pn_server) (c : pn_client) (qs : list (nat * (nat -> N)))
  : outcome (list (pn_entry * list nat * bool)) :=
  match qs with
  | [] => Ok []
  | (idx, rnd) :: r =>
      do ce <- pn_round s c idx rnd;
      do es <- pn_rounds s (fst ce) r;
      Ok (snd ce :: es)
  end.
Definition pn_run (db : list N) (num size threads tq bk : nat) (seed : N) (rnd : nat -> nat -> N)
    (order : list nat) (qs : list (nat * (nat -> N))) : outcome (list (pn_entry * list nat * bool)) :=
  let s := pn_server_new db num size seed in
  do c <- pn_offline s (pn_client_new num threads size tq bk) rnd order;
  pn_rounds s c qs.
End Piano.
