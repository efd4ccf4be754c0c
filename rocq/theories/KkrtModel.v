(** Model of psi/algorithm/kkrt/kkrt_psi.{h,cc}.  The OT extension of yacl is
    an ideal OPRF: [oprf b x] is the encoding (of [esz] bytes) of item x under
    bin b, the same on both sides; asking the sender's side for bin b before the
    correction of b arrived is UB.  Message transport is a list of batches. *)
From Coq Require Import List NArith Lia Bool Arith.
From Verif Require Import Base Text StoreModel CuckooModel SyncModel.
Import ListNotations.
Local Open Scope N_scope.

(** PsiItemHash, psi_io.h:37-40. *)
Definition hitem : Type := (N * N)%type.   (* data, cnt *)
(** PsiDataBatch, communication.h:50-69 (fields used here). *)
Record dbatch := mk_db { db_num : nat; db_flat : bytes; db_dup : dupcnt; db_last : bool }.
Definition k_none : N := 18446744073709551615.

Section Sender.
  Context (oprf : N -> N -> bytes) (esz : nat)
          (num_bins : N) (ot_batch psi_batch : nat)
          (perm : list nat)                (* input_permute after std::shuffle *)
          (fill : nat -> nat -> bytes)     (* prg.Fill for item i, hash h *)
          (garbage : nat -> bytes)         (* initial content of encode_buf, per slot *)
          (arr : nat -> N)                 (* corrections arrived at a given time *)
          (items : list hitem).

  (** input_permute_inv, kkrt_psi.cc:169-171. *)
  Fixpoint invert (i : nat) (p inv : list nat) : list nat :=
    match p with
    | [] => inv
    | x :: r => invert (S i) r (upd x (fun _ => i) inv)
    end.
  Definition perm_inv : list nat := invert 0 perm (repeat 0%nat (length items)).

  (** bin_indices, kkrt_psi.cc:179-192, flattened: entry i*3+h. *)
  Definition sbin (x h : N) : N := N.shiftr x (16 * h) mod 2 ^ 64 mod num_bins.
  Definition c01 (x : N) : bool := sbin x 0 =? sbin x 1.
  Definition c02 (x : N) : bool := (sbin x 0 =? sbin x 2) || (sbin x 1 =? sbin x 2).
  Definition item_bins (it : hitem) : list N :=
    let x := fst it in
    [sbin x 0; N.lor (sbin x 1) ((if c01 x then 1 else 0) * k_none);
     N.lor (sbin x 2) ((if c02 x then 1 else 0) * k_none)].
  Definition bin_indices : list N := flat_map item_bins items.

  (** encode_buf with fillers in the slots of colliding hashes, kkrt_psi.cc:174-176, 193-207;
      slot t*3+h belongs to item perm[t]. *)
  Definition fill1 (buf : list bytes) (p : nat * hitem) : list bytes :=
    let '(i, it) := p in
    let s := (nth i perm_inv 0 * 3)%nat in
    let buf1 := if c01 (fst it) then upd (s + 1) (fun _ => fill i 1) buf else buf in
    if c02 (fst it) then upd (s + 2) (fun _ => fill i 2) buf1 else buf1.
  Definition buf0 : list bytes :=
    fold_left fill1 (number 0 items) (map garbage (seq 0 (length items * 3))).

  (** sender.Encode(b, x, ...) at a moment when [arrived] corrections are there. *)
  Definition s_encode (arrived b x : N) : outcome bytes :=
    if b <? arrived then Ok (oprf b x) else UB.

  (** Inner statement, kkrt_psi.cc:226-241. *)
  Definition try_slot (r arrived : N) (t h : nat) (st : list N * list bytes) : outcome (list N * list bytes) :=
    let '(bi, buf) := st in
    match nth_error perm t with
    | None => UB
    | Some inp =>
      match nth_error bi (inp * 3 + h), nth_error items inp with
      | Some b, Some it =>
        if b <? r then
          do e <- s_encode arrived b (fst it);
          Ok (upd (inp * 3 + h) (fun _ => k_none) bi, upd (t * 3 + h) (fun _ => e) buf)
        else Ok (bi, buf)
      | _, _ => UB
      end
    end.
  Definition try_item (r arrived : N) (t : nat) (st : list N * list bytes) : outcome (list N * list bytes) :=
    do s1 <- try_slot r arrived t 0 st;
    do s2 <- try_slot r arrived t 1 s1;
    try_slot r arrived t 2 s2.
  (** One batch of attempts, kkrt_psi.cc:220-246; [k] is the time. *)
  Fixpoint spin_batch (n : nat) (k : nat) (r : N) (t : nat) (st : list N * list bytes)
    : outcome (nat * (list N * list bytes)) :=
    match n with
    | O => Ok (t, st)
    | S m => do st' <- try_item r (arr k) t st;
             spin_batch m (S k) r ((t + 1) mod length items)%nat st'
    end.
  (** while (r != num_bins), kkrt_psi.cc:218-251. *)
  Fixpoint spin (fuel : nat) (k : nat) (r : N) (t : nat) (st : list N * list bytes)
    : outcome (list N * list bytes) :=
    if r =? num_bins then Ok st
    else match fuel with
         | O => Diverge
         | S f => do x <- spin_batch ot_batch k r t st;
                  spin f (k + ot_batch) (arr (k + ot_batch)) (fst x) (snd x)
         end.

  (** Final encoding of one batch, kkrt_psi.cc:257-279: items at permuted
      positions [i ..] (after f_recv_corrections.get(): all corrections are there). *)
  Fixpoint final_items (i : nat) (j n : nat) (bi : list N) (buf : list bytes) (dup : dupcnt)
    : outcome (list bytes * dupcnt) :=
    match n with
    | O => Ok (buf, dup)
    | S m =>
      match nth_error perm (i + j) with
      | None => UB
      | Some inp =>
        match nth_error items inp with
        | None => UB
        | Some it =>
          let enc h buf :=
            match nth_error bi (inp * 3 + h) with
            | None => UB
            | Some b => if b =? k_none then Ok buf
                        else do e <- s_encode num_bins b (fst it);
                             Ok (upd ((i + j) * 3 + h) (fun _ => e) buf)
            end in
          do b1 <- enc 0%nat buf; do b2 <- enc 1%nat b1; do b3 <- enc 2%nat b2;
          final_items i (S j) m bi b3
            (if 1 <? snd it then dup ++ [(N.of_nat j, snd it)] else dup)
        end
      end
    end.
  (** The sending loop, kkrt_psi.cc:257-299. *)
  Fixpoint final_loop (fuel i : nat) (bi : list N) (buf : list bytes) : outcome (list dbatch) :=
    if (length items <=? i)%nat then Ok []
    else match fuel with
         | O => Diverge
         | S f =>
           let n := Nat.min psi_batch (length items - i) in
           do r <- final_items i 0 n bi buf [];
           let '(buf', dup) := r in
           let flat := concat (firstn (n * 3) (skipn (i * 3) buf')) in
           let last := (i + n =? length items)%nat in
           omap (cons (mk_db n flat dup last)) (final_loop f (i + n) bi buf')
         end.

  (** KkrtPsiSend, kkrt_psi.cc:111-307 (sizes already exchanged). *)
  Definition kkrt_send (fuel : nat) : outcome (list dbatch) :=
    do st <- spin fuel 0 0 0 (bin_indices, buf0);
    final_loop (S (length items)) 0 (fst st) (snd st).
End Sender.

Section Receiver.
  Context (oprf : N -> N -> bytes) (esz : nat) (o : ck_opts).

  (** unordered_map<string, size_t>: emplace keeps the first entry. *)
  Definition emap : Type := list (bytes * N).
  Fixpoint em_find (m : emap) (k : bytes) : option N :=
    match m with
    | [] => None
    | (a, v) :: r => if beqb a k then Some v else em_find r k
    end.
  Definition em_emplace (m : emap) (k : bytes) (v : N) : emap :=
    match em_find m k with Some _ => m | None => m ++ [(k, v)] end.

  (** The loop over the bins, kkrt_psi.cc:359-391; empty bins only contribute to
      the corrections. *)
  Fixpoint recv_bins (t : cuckoo) (bins : list (nat * N)) (maps : list emap) : outcome (list emap) :=
    match bins with
    | [] => Ok maps
    | (p, e) :: r =>
      if is_empty e then recv_bins t r maps
      else match nth_error (ck_hashes t) (N.to_nat (input_idx e)) with
           | None => UB
           | Some x =>
             do h <- min_colliding o t (N.of_nat p);
             recv_bins t r (upd (N.to_nat h) (fun m => em_emplace m (oprf (N.of_nat p) x) (input_idx e)) maps)
           end
    end.

  (** Lookup of one received item, kkrt_psi.cc:404-418. *)
  Definition substr (s : bytes) (pos len : nat) : bytes := firstn len (skipn pos s).
  Definition look_slot (maps : list emap) (b : dbatch) (i j : nat) : list (N * N) :=
    match em_find (nth j maps []) (substr (db_flat b) ((i * 3 + j) * esz) esz) with
    | None => []
    | Some idx => [(idx, match dup_get (db_dup b) (N.of_nat i) with Some c => c | None => 0 end)]
    end.
  Definition look_batch (maps : list emap) (b : dbatch) : list (N * N) :=
    flat_map (fun i => look_slot maps b i 0 ++ look_slot maps b i 1 ++ look_slot maps b i 2) (seq 0 (db_num b)).
  (** The receive loop, kkrt_psi.cc:393-421; [Diverge] = waits for a batch that never comes. *)
  Fixpoint recv_batches (maps : list emap) (bs : list dbatch) : outcome (list (N * N)) :=
    match bs with
    | [] => Diverge
    | b :: r =>
      enforce (length (db_flat b) =? db_num b * 3 * esz)%nat
        (let found := look_batch maps b in
         if db_last b then Ok found else omap (app found) (recv_batches maps r))
    end.

  (** KkrtPsiRecvIndices, kkrt_psi.cc:309-427. *)
  Definition kkrt_recv_indices (codes : list N) (bs : list dbatch) : outcome (list (N * N)) :=
    do t0 <- ck_new o;
    do t <- ck_insert o t0 codes;
    enforce (length (ck_stash t) =? 0)%nat
      (do maps <- recv_bins t (number 0 (ck_bins t)) [[]; []; []];
       recv_batches maps bs).

  (** KkrtPsiRecv, kkrt_psi.h:78-98: counts become extra counts. *)
  Definition extra (c : N) : N := if 1 <? c then c - 1 else 0.
  Definition kkrt_recv (codes : list N) (bs : list dbatch) : outcome (list (nat * N)) :=
    omap (map (fun p => (N.to_nat (fst p), extra (snd p)))) (kkrt_recv_indices codes bs).
End Receiver.
