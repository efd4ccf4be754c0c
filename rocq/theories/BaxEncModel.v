(** Model of Baxos::Solve (psi/algorithm/rr22/okvs/baxos.cc 119-458): keys are hashed into
    bins by several threads, the bins of the threads are merged and every bin is encoded by
    Paxos into its own part of the table.

    Given: cap = per_thrd_max_bin_size and ipb = items_per_bin_, both from GetBinSize
    (BinModel.v), and gmax = PaxosParam::g.  An exception in a thread ends
    the process in the code; here it is Throw. *)
From Coq Require Import List Arith NArith Bool.
From Verif Require Import Base StoreModel GfModel OkvsModel Rr22OprfModel PaxEncModel.
Import ListNotations.
Local Open Scope nat_scope.

Section Solve.
Variable aes : N -> N.

(** A thread's bins: the (hash, value) pairs it wrote to each, in order.  The main loop
    writes without a check (baxos.cc 302-317), the tail checks (320-331). *)
Definition bx_put (tail : bool) (cap : nat) (b : N) (x : N * N) (bins : list (list (N * N))) : outcome (list (list (N * N))) :=
  do l <- vget bins (N.to_nat b);
  if length l <? cap then vset bins (N.to_nat b) (l ++ [x]) else if tail then Throw else UB.
Definition bx_key (tail : bool) (nb cap : nat) (values : list N) (ix : nat * N) (bins : list (list (N * N)))
  : outcome (list (list (N * N))) :=
  let h := aes (snd ix) in
  do v <- vget values (fst ix);
  bx_put tail cap (if tail then bin_tail (N.of_nat nb) h else bin_main (N.of_nat nb) h) (h, v) bins.
(** The first part of routine (252-332), for inputs from number begin on. *)
Definition bx_thread (nb cap : nat) (values : list N) (begin : nat) (ins : list N) : outcome (list (list (N * N))) :=
  let main := length ins / 32 * 32 in
  do bins <- ofold (bx_key false nb cap values) (number begin (firstn main ins)) (repeat [] nb);
  ofold (bx_key true nb cap values) (number (begin + main) (skipn main ins)) bins.

(** hash_backing and val_backing of one bin (223-242): cap places for every thread. *)
Definition bx_region (cap : nat) (parts : list (list N)) : list N :=
  concat (map (fun l => l ++ repeat 0%N (cap - length l)) parts).
(** std::memmove(hashes + dst, hashes + src, size) (396-397). *)
Definition mem_move (dst src size : nat) (l : list N) : outcome (list N) :=
  if (dst + size <=? length l) && (src + size <=? length l) then
    Ok (firstn dst l ++ firstn size (skipn src l) ++ skipn (dst + size) l)
  else UB.
(** h.Assign(values[bin_pos + j], thrd_vals[j]) for ascending j (399-401). *)
Definition copy_up (dst src size : nat) (l : list N) : outcome (list N) :=
  ofold (fun j l => do x <- vget l (src + j); vset l (dst + j) x) (seq 0 size) l.
(** The merge (385-404): thread i's pairs, sizes given, move behind those of the threads before. *)
Definition bx_merge (cap : nat) (sizes : list nat) (hv : list N * list N) : outcome (list N * list N) :=
  match sizes with
  | [] => UB
  | s0 :: r =>
      enforce (s0 <=? cap)
       (do st <- ofold (fun is st =>
            let '(pos, h, v) := st in
            enforce (snd is <=? cap)
             (do h <- mem_move pos (cap * fst is) (snd is) h;
              do v <- copy_up pos (cap * fst is) (snd is) v;
              Ok (pos + snd is, h, v))) (number 1 r) (s0, fst hv, snd hv);
        let '(_, h, v) := st in Ok (h, v))
  end.

(** One bin (355-444), with SetInput (paxos.cc 321-350) and Encode. *)
Definition bx_bin (avx : bool) (w : N) (q : okvs_param) (gmax cap ipb : nat) (parts : list (list (N * N))) (out : list N)
  : outcome (list N) :=
  let sizes := map (@length (N * N)) parts in
  let n := list_sum sizes in
  enforce (n <=? ipb)
   (do n' <- paxos_init w q n;
    do hv <- bx_merge cap sizes (bx_region cap (map (map fst) parts), bx_region cap (map (map snd) parts));
    let hashes := firstn n (fst hv) in
    let values := firstn n (snd hv) in
    do rows <- (if ok_weight q =? 3 then build_rows n avx w q hashes else omapM (build_row avx w q) hashes);
    enforce (length rows =? n')
     (paxos_solve avx q gmax (map (map N.to_nat) rows) hashes values out)).

(** p_.subspan(paxos_size_per * bin_idx, paxos_size_per) is written in place. *)
Definition bx_store (q : okvs_param) (b : nat) (part p : list N) : list N :=
  let per := N.to_nat (ok_sparse q) + ok_dense q in
  firstn (per * b) p ++ part ++ skipn (per * b + per) p.
Definition bx_bins (avx : bool) (w : N) (q : okvs_param) (gmax cap ipb : nat) (ths : list (list (list (N * N))))
  (order : list nat) (p : list N) : outcome (list N) :=
  ofold (fun b p => do part <- bx_bin avx w q gmax cap ipb (map (fun bins => nth b bins []) ths) (bin_slice q p b);
                    Ok (bx_store q b part p)) order p.

(** Solve (130-149) and ImplParSolve (151-458).  The threads encode disjoint bins into
    disjoint parts at the same time: order is the order in which they finish them. *)
Definition baxos_solve (avx : bool) (nb : nat) (q : okvs_param) (gmax num_items cap ipb threads : nat) (order : list nat)
  (inputs values p : list N) : outcome (list N) :=
  let w := idx_width (ok_sparse q) in
  enforce (length p =? nb * (N.to_nat (ok_sparse q) + ok_dense q))
   (enforce (length inputs <=? num_items)
     (if nb =? 1 then paxos_encode aes avx w q gmax num_items inputs values p
      else
        let T := Nat.max 1 threads in
        do ths <- omapM (fun i => bx_thread nb cap values (length inputs * i / T) (par_slice T i inputs)) (seq 0 T);
        bx_bins avx w q gmax cap ipb ths order p)).
End Solve.

(** The table the receiver of the RR22 OPRF solves for: RecvFast (rr22_oprf.cc 461-483)
    with Baxos over GF(2^128), RecvLowComm (544-568) with Paxos<uint32_t> over bits; the
    OKVS was initialised for the number of the receiver's items (rr22_psi.cc 141). *)
Definition rr22_solve (aes : N -> N) (avx : bool) (gmax cap ipb threads : nat) (order : list nat) (t : oprf_table)
  (xs hs : list N) : outcome (list N) :=
  match t_mode t with
  | FastMode => baxos_solve aes avx (t_bins t) (t_param t) gmax (length xs) cap ipb threads order xs hs (repeat 0%N (t_size t))
  | LowCommMode => paxos_encode aes avx 32 (t_param t) gmax (length xs) xs hs (repeat 0%N (t_size t))
  end.
