(** Properties C23 and C24: the KKRT exchange. *)
From Coq Require Import List NArith Lia Bool Permutation Arith.
From Verif Require Import Base Text StoreModel CuckooModel CuckooSpec SyncModel KkrtModel KkrtSpec KkrtProofs KkrtProofs2
  BucketSpec.
Import ListNotations.

(** C23.  Distinct items on both sides, 3 hash functions and no stash (the only
    supported setting), encodings of different items different, fillers different
    from the receiver's encodings, any permutation and any arrival timing: the
    sender finishes, and the receiver either throws (cuckoo insertion failed) or
    gets exactly the positions of the common items, each once, with the sender's
    extra multiplicity. *)
Theorem C23_kkrt_exact :
  forall oprf esz o ot_batch psi_batch perm fill garbage arr items codes,
  good_opts o -> ko_hash o = 3%N -> ko_stash o = 0 -> (ko_bins o < k_none)%N ->
  0 < ot_batch -> 0 < psi_batch -> Permutation perm (seq 0 (length items)) ->
  arrivals (ko_bins o) arr ->
  (forall b x, length (oprf b x) = esz) -> (forall i h, length (fill i h) = esz) ->
  (forall b b' x y, In x (codes ++ map fst items) -> In y codes -> oprf b x = oprf b' y -> x = y) ->
  (forall i h b y, In y codes -> fill i h <> oprf b y) ->
  NoDup codes -> NoDup (map fst items) -> items <> [] ->
  exists fuel0 bs, (forall fuel, fuel0 <= fuel ->
      kkrt_send oprf (ko_bins o) ot_batch psi_batch perm fill garbage arr items fuel = Ok bs) /\
    (kkrt_recv oprf esz o codes bs = Throw \/
     exists res, kkrt_recv oprf esz o codes bs = Ok res /\
       exact_result (fun p => p) (fun cnt => (cnt - 1)%N) codes items res).
Proof. exact kkrt_recv_exact. Qed.
Print Assumptions C23_kkrt_exact.

(** C23.  The raw result (KkrtPsiRecvIndices, used by KkrtOperator): the count
    reported for an item the sender has once is 0, otherwise the sender's count. *)
Theorem C23_kkrt_indices_exact :
  forall oprf esz o ot_batch psi_batch perm fill garbage arr items codes,
  good_opts o -> ko_hash o = 3%N -> ko_stash o = 0 -> (ko_bins o < k_none)%N ->
  0 < ot_batch -> 0 < psi_batch -> Permutation perm (seq 0 (length items)) ->
  arrivals (ko_bins o) arr ->
  (forall b x, length (oprf b x) = esz) -> (forall i h, length (fill i h) = esz) ->
  (forall b b' x y, In x (codes ++ map fst items) -> In y codes -> oprf b x = oprf b' y -> x = y) ->
  (forall i h b y, In y codes -> fill i h <> oprf b y) ->
  NoDup codes -> NoDup (map fst items) -> items <> [] ->
  exists fuel0 bs, (forall fuel, fuel0 <= fuel ->
      kkrt_send oprf (ko_bins o) ot_batch psi_batch perm fill garbage arr items fuel = Ok bs) /\
    (kkrt_recv_indices oprf esz o codes bs = Throw \/
     exists res, kkrt_recv_indices oprf esz o codes bs = Ok res /\
       exact_result N.to_nat (fun c => if (1 <? c)%N then c else 0%N) codes items res).
Proof. exact kkrt_exact. Qed.
Print Assumptions C23_kkrt_indices_exact.

(** C23.  For a bucket: with a 128-bit hash free of collisions on the bucket
    data the result is what C20 and C21 require of the PSI. *)
Theorem C23_bucket_form :
  forall (hash128 : bytes -> N) rb sb res,
  (forall a b, In a (map b_data (rb ++ sb)) -> In b (map b_data (rb ++ sb)) -> hash128 a = hash128 b -> a = b) ->
  exact_result (fun p => p) (fun cnt => (cnt - 1)%N)
    (map (fun i => hash128 (b_data i)) rb) (map (fun i => (hash128 (b_data i), b_dup i + 1)%N) sb) res ->
  exact_on rb sb res.
Proof. exact kkrt_bucket_exact. Qed.
Print Assumptions C23_bucket_form.

(** C24.  The batches sent do not depend on when corrections arrive (nor on what
    was in the uninitialised buffer); no call of Encode precedes the arrival of
    its bin's correction, since that would be UB. *)
Theorem C24_timing_independent :
  forall oprf num_bins ot_batch psi_batch perm fill items,
  (0 < num_bins < k_none)%N -> 0 < ot_batch -> 0 < psi_batch ->
  Permutation perm (seq 0 (length items)) -> items <> [] ->
  exists bs, forall garbage arr, arrivals num_bins arr ->
    exists fuel0, forall fuel, fuel0 <= fuel ->
      kkrt_send oprf num_bins ot_batch psi_batch perm fill garbage arr items fuel = Ok bs.
Proof. exact kkrt_send_timing. Qed.
Print Assumptions C24_timing_independent.

(** Sender item 2 has all three hashes in one bin, item 1 two of them. *)
Definition ex_oprf (b x : N) : bytes := [b; x].
Definition ex_fill (i h : nat) : bytes := [N.of_nat i; 0]%N.
Definition ex_arr (k : nat) : N := N.min 9 (N.of_nat k / 5).
Definition ex_items : list hitem :=
  [(0x000300010000, 1); (0x000500070009, 3); (0x000900090009, 1); (0x000100000001, 2)]%N.
Definition ex_recv : list N := [0x000100000001; 0x000900090009; 0x000200010000; 0x000300010000]%N.

Example C23_example :
  let o := mk_ko 4 0 3 128 9 in
  good_opts o /\ arrivals 9 ex_arr /\ Permutation [2; 0; 3; 1] (seq 0 4) /\
  (forall b b' x y, ex_oprf b x = ex_oprf b' y -> x = y) /\
  (forall i h b y, In y ex_recv -> ex_fill i h <> ex_oprf b y) /\
  map (item_bins 9) ex_items = [[1; 4; 3]; [6; k_none; 5]; [0; k_none; k_none]; [5; 7; 1]]%N /\
  (do bs <- kkrt_send ex_oprf 9 4 3 [2; 0; 3; 1] ex_fill (fun _ => []) ex_arr ex_items 50;
   kkrt_recv ex_oprf 2 o ex_recv bs) = Ok [(1, 0%N); (3, 0%N); (0, 1%N)].
Proof.
  cbv zeta. split; [unfold good_opts; cbn; lia | ].
  split.
  { split; [ | split].
    - intros a b L. unfold ex_arr. apply N.min_le_compat_l. apply N.div_le_mono; [discriminate | lia].
    - intros a. unfold ex_arr. apply N.le_min_l.
    - exists 45. reflexivity. }
  split.
  { change (Permutation [2; 0; 3; 1] [0; 1; 2; 3]).
    apply (Permutation_trans (l' := [0; 2; 3; 1])); [apply perm_swap | ]. apply perm_skip.
    apply (Permutation_trans (l' := [2; 1; 3])); [apply perm_skip, perm_swap | apply perm_swap]. }
  split; [intros b b' x y H; injection H; auto | ].
  split.
  { intros i h b y Hy E. injection E as _ E2. subst y. cbn in Hy. intuition discriminate. }
  split; vm_compute; reflexivity.
Qed.

(** Another arrival pattern and buffer content give the same batches. *)
Example C24_example :
  kkrt_send ex_oprf 9 4 3 [2; 0; 3; 1] ex_fill (fun _ => []) ex_arr ex_items 50 =
  kkrt_send ex_oprf 9 7 3 [2; 0; 3; 1] ex_fill (fun _ => [7; 7]%N) (fun k => if Nat.leb k 20 then 3%N else 9%N) ex_items 50 /\
  exists bs, kkrt_send ex_oprf 9 4 3 [2; 0; 3; 1] ex_fill (fun _ => []) ex_arr ex_items 50 = Ok bs /\ length bs = 2.
Proof. vm_compute. split; [reflexivity | ]. eexists. split; reflexivity. Qed.
