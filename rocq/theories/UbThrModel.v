(** Model of threshold unbalanced PSI: experiment/psi/threshold_ub_psi/client.cc (26-132), server.cc
    (28-116) and threshold_ecdh_oprf_psi.cc (23-86).  The offline phase and the evaluation of the
    blinded items are those of UbPsiModel.

    [shuf n] is the arrangement std::shuffle makes of 0 .. n-1 with a generator started from
    shuffle_seed_ and shuffle_counter_: the generator is started twice, for the evaluated items
    (ecdh_oprf_psi.cc 308-311) and for the restored indexes (threshold_ecdh_oprf_psi.cc 31-34), and
    replays the same stream.  Simplified: the link delivers messages unchanged; the two parties'
    configurations agree on who gets a result, but each has its own threshold. *)
From Coq Require Import List NArith Bool Arith.
From Verif Require Import Base Text StoreModel EcdhModel UbCacheModel UbPsiModel.
Import ListNotations.

(** RecvAndRestoreIndexes (threshold_ecdh_oprf_psi.cc 24-45): the loop 37-39; an index outside
    the vector is UB. *)
Fixpoint ubt_restore (perm : list nat) (idx : list N) : outcome (list N) :=
  match idx with
  | [] => Ok []
  | i :: r =>
    match nth_error perm (N.to_nat i) with
    | Some j => omap (cons (u32 (N.of_nat j))) (ubt_restore perm r)
    | None => UB
    end
  end.

(** What one party has at the end: matched (index, other side's extra copies), the other side's
    row count, and the two numbers SaveIntersectCount writes. *)
Record ubt_result : Type := mk_ubtr { ur_rows : list (N * N); ur_peer : N; ur_real : N; ur_final : N }.

Section UbThr.
Variable Item : Type.
Variable blind : Item -> bytes.
Variable evaluate finalize : bytes -> bytes.
Variable cl pl : nat.

(** RecvBlindAndShuffleSendEvaluate with the permutation for the number of items received
    (ecdh_oprf_psi.cc 264-346). *)
Definition ubt_serve (bs : nat) (shuf : nat -> list nat) (ms : list pmsg) : outcome (pinfo * list pmsg) :=
  do (_, items) <- serve_collect evaluate pl (mk_pinfo 0 0 []) ms;
  serve_shuffled evaluate pl bs (shuf (length items)) ms.

(** Client (client.cc 57-73, 124-130): receiving, matching and ResizeIntersection.  Result: the
    server's row count, the real number of matches, and the quadruples kept. *)
Definition ubt_match (bs_client threads : nat) (sched : nat -> nat -> list (nat * nat)) (th : N)
    (d : cdisk) (ev : list pmsg) : outcome (N * N * list quad) :=
  do saved <- recv_into pl finalize ev;
  do (peer_cnt, peer) <- open_and_read cl bs_client d;
  do quads <- compute_indices_with_dup threads saved
                (map (fun p => (snd p, sched (fst p) (length (snd p)))) (number 0 peer));
  let real := u32 (N.of_nat (length quads)) in
  Ok (peer_cnt, real, firstn (N.to_nat (N.min th real)) quads).

(** The messages of an online run up to the restored indexes (client.cc 45-87, server.cc 46-58):
    the server's counters and evaluated items, what the client matched, and the restored indexes
    when the client gets a result. *)
Definition ubt_exchange (bs_server bs_client threads : nat) (sched : nat -> nat -> list (nat * nat))
    (shuf : nat -> list nat) (client_gets server_gets : bool) (th_client : N)
    (d : cdisk) (client : list (list (Item * N)))
  : outcome (pinfo * list pmsg * (N * N * list quad) * list N) :=
  do (info, ev) <- ubt_serve bs_server shuf (map (blind_msg Item blind server_gets) client);
  do (pr, q) <- ubt_match bs_client threads sched th_client d ev;
  do restored <- if client_gets
                 then ubt_restore (shuf (N.to_nat (pi_unique info))) (map (fun q : quad => fst (fst (fst q))) q)
                 else Ok [];
  Ok (info, ev, (pr, q), restored).

(** The online phase (client.cc 30-121, server.cc 33-115).  Result: the client's and the server's. *)
Definition ubt_online (bs_server bs_client threads : nat) (sched : nat -> nat -> list (nat * nat))
    (shuf : nat -> list nat) (client_gets server_gets : bool) (th_server th_client : N)
    (c : cache) (d : cdisk) (client : list (list (Item * N)))
  : outcome (option ubt_result * option ubt_result) :=
  do (ieq, restored) <- ubt_exchange bs_server bs_client threads sched shuf client_gets server_gets th_client d client;
  let '(info, _, (peer_cnt, real, q)) := ieq in
  let final := N.min th_client real in
  let self_indices := map (fun q : quad => fst (fst (fst q))) q in
  let peer_indices := map (fun q : quad => snd (fst (fst q))) q in
  (* client.cc 83-86 *)
  do _ <- enforce (negb client_gets || (N.of_nat (length restored) =? final)%N) (Ok tt);
  (* server.cc 64-93 *)
  do server <- if server_gets then
                 enforce (u32 (N.of_nat (length self_indices)) =? N.min th_server real)%N
                   (do recs <- cache_batches bs_server c;
                    Ok (Some (mk_ubtr (rows_of_cache (index_map info peer_indices self_indices) (concat recs))
                                      (pi_total info) real (u32 (N.of_nat (length self_indices))))))
               else Ok None;
  (* client.cc 98-113 *)
  Ok (if client_gets then Some (mk_ubtr (combine restored (map snd q)) peer_cnt real final) else None, server).
End UbThr.
