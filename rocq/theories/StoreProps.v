(** Properties C14, C15, C17, C18: point stores. *)
From Coq Require Import List NArith Lia Bool Permutation Sorted Arith.
From Verif Require Import Base Text StoreModel StoreSpec StoreProofs StoreProofs2 JoinModel.
Import ListNotations.

(** C14.  Bin by bin over fresh on-disk stores of both lists: the pairs found are
    those of the whole lists, and the two totals count the rows of the peer list
    and of the matches. *)
Theorem C14_bins_equal_whole :
  forall (hash : bytes -> N) num self peer,
  0 < num -> Forall good_input self -> Forall good_input peer ->
  (N.of_nat (length self) < max64)%N -> (N.of_nat (length peer) < max64)%N ->
  exists cs cp m t i,
    omap (fun c => hb_write_all hash c self) (hb_open [] num) = Ok cs /\
    omap (fun c => hb_write_all hash c peer) (hb_open [] num) = Ok cp /\
    finalize_indices cs cp = Ok (m, t, i) /\
    Permutation m (matches self peer) /\
    t = rows_of (map snd peer) /\
    i = rows_of (map snd (matches self peer)).
Proof. exact finalize_exact. Qed.
Print Assumptions C14_bins_equal_whole.

(** The overload returning sorted indices. *)
Theorem C14_sorted_indices :
  forall (hash : bytes -> N) (srt : list N -> list N) num self peer,
  (forall l, Permutation (srt l) l) -> (forall l, StronglySorted N.le (srt l)) ->
  0 < num -> Forall good_input self -> Forall good_input peer ->
  (N.of_nat (length self) < max64)%N -> (N.of_nat (length peer) < max64)%N ->
  exists cs cp,
    omap (fun c => hb_write_all hash c self) (hb_open [] num) = Ok cs /\
    omap (fun c => hb_write_all hash c peer) (hb_open [] num) = Ok cp /\
    finalize_indices_sorted srt cs cp = Ok (map fst (matches self peer)).
Proof. exact finalize_sorted_exact. Qed.
Print Assumptions C14_sorted_indices.

(** EcdhOperator::OnEnd: the in-memory branch is the specification with the
    multiplicity (count + 1), and the bucketed branch gives the same pairs. *)
Theorem C14_on_end_memory :
  forall self peer,
  (N.of_nat (length self) < max64)%N -> (N.of_nat (length peer) < max64)%N ->
  on_end_memory (ms_save_all ms_empty self) (ms_save_all ms_empty peer) =
  map (fun p => (fst p, u32 (snd p + 1))) (matches self peer).
Proof. exact (on_end_memory_exact (fun _ => 0%N)). Qed.
Print Assumptions C14_on_end_memory.

Theorem C14_on_end_bins :
  forall (hash : bytes -> N) num self peer,
  0 < num -> Forall good_input self -> Forall good_input peer ->
  (N.of_nat (length self) < max64)%N -> (N.of_nat (length peer) < max64)%N ->
  exists cs cp m,
    omap (fun c => hb_write_all hash c self) (hb_open [] num) = Ok cs /\
    omap (fun c => hb_write_all hash c peer) (hb_open [] num) = Ok cp /\
    on_end_bins cs cp = Ok m /\
    Permutation m (on_end_memory (ms_save_all ms_empty self) (ms_save_all ms_empty peer)).
Proof. exact on_end_bins_exact. Qed.
Print Assumptions C14_on_end_bins.

(** Three bins, hash = sum of the characters. *)
Definition sum_hash (s : bytes) : N := fold_right N.add 0%N s.
Example C14_example :
  let self := [([1; 2], 0); ([3], 4); ([44; 10], 1); ([5; 6; 7], 0)]%N in
  let peer := [([5; 6; 7], 2); ([9], 0); ([44; 10], 3)]%N in
  Forall good_input self /\ Forall good_input peer /\
  bind (omap (fun c => hb_write_all sum_hash c self) (hb_open [] 3)) (fun cs =>
  bind (omap (fun c => hb_write_all sum_hash c peer) (hb_open [] 3)) (fun cp =>
    finalize_indices cs cp)) = Ok ([(2, 3); (3, 2)], 8, 7)%N /\
  on_end_memory (ms_save_all ms_empty self) (ms_save_all ms_empty peer) = [(2, 4); (3, 3)]%N.
Proof. cbv zeta. split; [|split]; [repeat constructor..|vm_compute; repeat split]. Qed.

(** C15.  Whatever the thread count and the schedules, the quadruples are those
    of the sequential scan (self position, peer position, self count, peer
    count). *)
Theorem C15_matching_any_threads :
  forall saved t (bs : list (list (bytes * N) * list (nat * nat))),
  0 < t -> Forall (fun b => fst b <> []) bs ->
  Forall (fun b => valid_schedule (length (fst b)) t (snd b)) bs ->
  exists r, compute_indices_with_dup t saved bs = Ok r /\
            Permutation r (all_pairs saved (concat (map fst bs))).
Proof. exact compute_exact. Qed.
Print Assumptions C15_matching_any_threads.

(** For a fixed thread count even the order is independent of the schedule. *)
Theorem C15_schedule_irrelevant :
  forall saved t (bs1 bs2 : list (list (bytes * N) * list (nat * nat))),
  map fst bs1 = map fst bs2 ->
  Forall (fun b => valid_schedule (length (fst b)) t (snd b)) bs1 ->
  Forall (fun b => valid_schedule (length (fst b)) t (snd b)) bs2 ->
  compute_indices_with_dup t saved bs1 = compute_indices_with_dup t saved bs2.
Proof. exact compute_schedule_free. Qed.
Print Assumptions C15_schedule_irrelevant.

(** Schedules exist for every batch size and thread count. *)
Theorem C15_schedules_exist : forall n t, exists tr, valid_schedule n t tr.
Proof. exact (fun n t => ex_intro _ _ (serial_valid n t)). Qed.
Print Assumptions C15_schedules_exist.

(** GetIndicesByItems. *)
Theorem C15_lookup_any_threads :
  forall t items (bs : list (list bytes)),
  0 < t -> Forall (fun b => b <> []) bs ->
  get_indices_by_items t items bs = Ok (positions items (concat bs)).
Proof. exact get_indices_exact. Qed.
Print Assumptions C15_lookup_any_threads.

(** Two batches, two threads with interleaved steps against one thread: the same
    quadruples in a different order. *)
Example C15_example :
  let saved := [([1], 0); ([2], 5); ([3], 1)]%N in
  let b1 := [([3], 7); ([9], 0); ([1], 2)]%N in
  let b2 := [([2], 0)]%N in
  let two := [(b1, [(1, 2); (0, 0); (0, 1)]); (b2, [(0, 0)])] in
  let one := [(b1, [(0, 0); (0, 1); (0, 2)]); (b2, [(0, 0)])] in
  Forall (fun b => valid_schedule (length (fst b)) 2 (snd b)) two /\
  Forall (fun b => valid_schedule (length (fst b)) 1 (snd b)) one /\
  compute_indices_with_dup 2 saved two = Ok [(2, 0, 1, 7); (1, 3, 5, 0); (0, 2, 0, 2)]%N /\
  compute_indices_with_dup 1 saved one = Ok [(2, 0, 1, 7); (0, 2, 0, 2); (1, 3, 5, 0)]%N /\
  get_indices_by_items 3 [[3]; [2]]%N [[[3]; [9]]; [[2]]]%N = Ok [0; 2]%N /\
  compute_indices_with_dup 0 saved one = UB.
Proof.
  cbv zeta. split; [|split].
  - repeat constructor; intros [|[|i]] H; try reflexivity; cbn in H; lia.
  - repeat constructor; intros [|i] H; try reflexivity; cbn in H; lia.
  - vm_compute. repeat split.
Qed.

(** C17.  A fresh cache: every bucket loads, the buckets together hold every item
    once with data, count and position, and each item sits in the bucket of its
    hash. *)
Theorem C17_cache_is_partition :
  forall (hash : bytes -> N) num items,
  0 < num -> Forall good_input items -> (N.of_nat (length items) < max64)%N ->
  exists c, omap (fun c => hb_write_all hash c items) (hb_open [] num) = Ok c /\
    (forall b, b < num -> exists l, hb_load c b = Ok l) /\
    Permutation
      (flat_map (fun b => match hb_load c b with Ok l => l | _ => [] end) (seq 0 num))
      (map (fun p => mk_bitem (N.of_nat (fst p)) (snd (snd p)) (base64 (fst (snd p)))) (number 0 items)) /\
    (forall b l i, b < num -> hb_load c b = Ok l -> In i l -> b = bucket_of hash num (b_data i)).
Proof. exact cache_partition. Qed.
Print Assumptions C17_cache_is_partition.

(** The stored form identifies the data, so equal data and only equal data
    compare equal, and equal data share the bucket on both parties. *)
Theorem C17_equal_data_equal_bucket :
  forall (hash : bytes -> N) num a b,
  Forall is_byte a -> Forall is_byte b ->
  (base64 a = base64 b <-> a = b) /\
  (a = b -> bucket_of hash num (base64 a) = bucket_of hash num (base64 b)).
Proof. exact base64_same_bucket. Qed.
Print Assumptions C17_equal_data_equal_bucket.

(** Items containing ',' and newline bytes survive. *)
Example C17_example :
  let items := [([44; 10], 3); ([], 0); ([44; 10], 3); ([255; 0; 7; 1], 9)]%N in
  Forall good_input items /\
  bind (omap (fun c => hb_write_all sum_hash c items) (hb_open [] 2)) (fun c =>
    bind (hb_load c 0) (fun l0 => bind (hb_load c 1) (fun l1 =>
      Ok (map (fun i => (b_index i, b_dup i)) l0, map (fun i => (b_index i, b_dup i)) l1)))) =
  Ok ([(1, 0)], [(0, 3); (2, 3); (3, 9)])%N.
Proof. cbv zeta. split; [repeat constructor|vm_compute; reflexivity]. Qed.

(** C18.  Full statement:
      forall hash num old new, 0 < num -> good inputs ->
        the items of all buckets after (open, write old), (open again, write new)
        have pairwise different positions.
    It is false of the code whenever both sequences are non-empty: the counter
    restarts at 0 when the cache is opened again. *)
Theorem C18_reopened_positions_unique_refuted :
  exists (hash : bytes -> N) num old new c1 c2,
    0 < num /\ Forall good_input old /\ Forall good_input new /\
    (N.of_nat (length old) < max64)%N /\ (N.of_nat (length new) < max64)%N /\
    omap (fun c => hb_write_all hash c old) (hb_open [] num) = Ok c1 /\
    omap (fun c => hb_write_all hash c new) (hb_open (hb_files c1) num) = Ok c2 /\
    ~ NoDup (map b_index
        (flat_map (fun b => match hb_load c2 b with Ok l => l | _ => [] end) (seq 0 num))).
Proof. exact cache_reopen_witness. Qed.
Print Assumptions C18_reopened_positions_unique_refuted.

(** Not only for one witness: it happens for all non-empty sequences. *)
Theorem C18_reopened_positions_always_clash :
  forall (hash : bytes -> N) num old new,
  0 < num -> Forall good_input old -> Forall good_input new ->
  (N.of_nat (length old) < max64)%N -> (N.of_nat (length new) < max64)%N ->
  old <> [] -> new <> [] ->
  exists c1 c2,
    omap (fun c => hb_write_all hash c old) (hb_open [] num) = Ok c1 /\
    omap (fun c => hb_write_all hash c new) (hb_open (hb_files c1) num) = Ok c2 /\
    ~ NoDup (map b_index
        (flat_map (fun b => match hb_load c2 b with Ok l => l | _ => [] end) (seq 0 num))).
Proof. exact cache_reopen_clash. Qed.
Print Assumptions C18_reopened_positions_always_clash.

(** What holds: nothing stored earlier is lost or changed, the new items follow
    it, and their positions count from 0 again.  Missing for the full statement:
    new positions different from old ones. *)
Theorem C18_reopened_cache_partial :
  forall (hash : bytes -> N) num old new,
  0 < num -> Forall good_input old -> Forall good_input new ->
  (N.of_nat (length old) < max64)%N -> (N.of_nat (length new) < max64)%N ->
  exists c1 c2,
    omap (fun c => hb_write_all hash c old) (hb_open [] num) = Ok c1 /\
    omap (fun c => hb_write_all hash c new) (hb_open (hb_files c1) num) = Ok c2 /\
    forall b, b < num ->
      hb_load c2 b = Ok (filter (fun i => Nat.eqb (bucket_of hash num (b_data i)) b)
        (map (fun p => mk_bitem (N.of_nat (fst p)) (snd (snd p)) (base64 (fst (snd p)))) (number 0 old) ++
         map (fun p => mk_bitem (N.of_nat (fst p)) (snd (snd p)) (base64 (fst (snd p)))) (number 0 new))).
Proof. exact cache_reopen. Qed.
Print Assumptions C18_reopened_cache_partial.

Example C18_example :
  let old := [([1], 3); ([2], 0)]%N in
  let new := [([7], 1)]%N in
  bind (omap (fun c => hb_write_all sum_hash c old) (hb_open [] 1)) (fun c1 =>
  bind (omap (fun c => hb_write_all sum_hash c new) (hb_open (hb_files c1) 1)) (fun c2 =>
    omap (map (fun i => (b_index i, b_dup i))) (hb_load c2 0))) = Ok [(0, 3); (1, 0); (0, 1)]%N.
Proof. vm_compute. reflexivity. Qed.
