(** C97: the places Baxos reserves for a bin. *)
From Coq Require Import Reals Lra Lia List NArith ZArith Bool Arith.
From Verif Require Import Base StoreModel OkvsModel PaxEncModel BaxEncModel BinModel BinSpec BinProofs.
Import ListNotations.
Local Open Scope N_scope.

(** The bins can hold the items at all unless the number of items is a power of two and the number of
    bins is not. *)
Theorem C97_room : forall search nb n ssp,
  1 <= nb -> nb <= 2 ^ 32 -> 1 <= n -> n <= 2 ^ 30 -> (power2 n -> power2 nb) ->
  room nb (get_bin_size search nb n ssp) n.
Proof. exact bin_size_room. Qed.
Print Assumptions C97_room.

(** With bins for 2^14 items and a power of two of threads, as with one, both sizes suffice: for all
    items, and for the share of every thread. *)
Theorem C97_threads : forall search n ssp t, 1 <= n -> n <= 2 ^ 30 -> t <= 14 ->
  let nb := bx_num_bins n (2 ^ 14) in
  let share := bx_items_per_thread n (2 ^ t) in
  up_div n (2 ^ 14) nb /\ up_div n (2 ^ t) share /\
  room nb (bx_items_per_bin search n (2 ^ 14) ssp) n /\
  room nb (bx_thread_cap search n (2 ^ 14) ssp (2 ^ t)) share.
Proof.
  intros search n ssp t N1 N2 T nb share. pose proof (num_bins_up n (2 ^ 14) ltac:(cbn; lia)) as U. pose proof (share_up n (2 ^ t)) as V.
  replace (N.max 1 (2 ^ t)) with (2 ^ t) in V by (pose proof (N.pow_nonzero 2 t); lia). fold nb in U. fold share in V.
  split; [exact U|]. split; [exact V|]. destruct U as [U1 U2]. destruct V as [V1 V2]. change (2 ^ 14) with 16384 in U1, U2. change (2 ^ 30) with 1073741824 in N2.
  assert (B1 : 1 <= nb) by lia. assert (B2 : nb <= 2 ^ 32) by (change (2 ^ 32) with 4294967296; lia).
  pose proof (N.pow_nonzero 2 t) as P2. assert (S1 : 1 <= share) by (destruct (N.eq_dec share 0) as [E|E]; [rewrite E in V1; lia|lia]).
  assert (S2 : share <= 2 ^ 30). { change (2 ^ 30) with 1073741824. destruct V2 as [V2|V2]; [lia|]. assert (share - 1 <= 2 ^ t * (share - 1)) by nia. lia. }
  split.
  - unfold bx_items_per_bin. fold nb. apply bin_size_room; try assumption.
    intros P. apply (power_share n 14 0 N1); [lia|]. change (2 ^ 0) with 1. unfold bx_items_per_thread. change (N.max 1 1) with 1.
    rewrite N.div_1_r, N.add_sub. exact P.
  - unfold bx_thread_cap. apply bin_size_room; try assumption. intros P. exact (power_share n 14 t N1 T P).
Qed.
Print Assumptions C97_threads.

(** Any number of threads does if the share of a thread is no power of two. *)
Theorem C97_share : forall search n ssp threads, 1 <= n -> n <= 2 ^ 30 -> ~ power2 (bx_items_per_thread n threads) ->
  room (bx_num_bins n (2 ^ 14)) (bx_thread_cap search n (2 ^ 14) ssp threads) (bx_items_per_thread n threads).
Proof.
  intros search n ssp threads N1 N2 P. pose proof (num_bins_up n (2 ^ 14) ltac:(cbn; lia)) as [U1 U2]. pose proof (share_up n threads) as [V1 V2].
  change (2 ^ 14) with 16384 in U1, U2 at 1. change (2 ^ 30) with 1073741824 in N2. unfold bx_thread_cap.
  set (nb := bx_num_bins _ _) in *. set (share := bx_items_per_thread _ _) in *.
  assert (T1 : 1 <= N.max 1 threads) by lia. set (T := N.max 1 threads) in *. clearbody T share nb. apply bin_size_room; [lia| | | |intros Q; contradiction].
  - change (2 ^ 32) with 4294967296. change (2 ^ 14) with 16384 in U2. lia.
  - destruct (N.eq_dec share 0) as [E|E]; [rewrite E in V1; lia|lia].
  - change (2 ^ 30) with 1073741824. destruct V2 as [V2|V2]; [lia|]. assert (share - 1 <= T * (share - 1)) by nia. lia.
Qed.
Print Assumptions C97_share.

(** Where there are not places for all, the threads write beyond their bins, whatever the keys hash to. *)
Theorem C97_overfull : forall aes avx nb q gmax num cap ipb threads order inputs values p,
  (length p = nb * (N.to_nat (ok_sparse q) + ok_dense q))%nat -> (length inputs <= num)%nat -> nb <> 1%nat ->
  let share := (length inputs / Nat.max 1 threads)%nat in
  (share mod 32 = 0)%nat -> ~ room (N.of_nat nb) (N.of_nat cap) (N.of_nat share) ->
  baxos_solve aes avx nb q gmax num cap ipb threads order inputs values p = UB.
Proof.
  intros aes avx nb q gmax num cap ipb threads order inputs values p P L N1 share M H. apply solve_full; try assumption.
  unfold room in H. fold share. nia.
Qed.
Print Assumptions C97_overfull.

(** So it is for 49152 keys with 3, 6, 12 or 24 threads, one for each processor by default, and the
    default of 40 bits: for all keys. *)
Theorem C97_threads_refuted : forall search aes avx q gmax ipb order inputs values p threads,
  In threads [3; 6; 12; 24] -> N.of_nat (length inputs) = 49152 ->
  let nb := N.to_nat (bx_num_bins 49152 (2 ^ 14)) in
  let cap := N.to_nat (bx_thread_cap search 49152 (2 ^ 14) 40 threads) in
  (length p = nb * (N.to_nat (ok_sparse q) + ok_dense q))%nat ->
  baxos_solve aes avx nb q gmax (length inputs) cap ipb (N.to_nat threads) order inputs values p = UB.
Proof.
  intros search aes avx q gmax ipb order inputs values p threads HT HL nb cap P.
  assert (L : length inputs = N.to_nat 49152) by lia.
  assert (K : exists k, 11 <= k /\ k <= 14 /\ 49152 / threads = 2 ^ k /\ bx_items_per_thread 49152 threads = 2 ^ k /\ (2 ^ k) mod 32 = 0).
  { destruct HT as [<-|[<-|[<-|[<-|[]]]]]; [exists 14|exists 13|exists 12|exists 11]; repeat split; try lia; reflexivity. }
  destruct K as (k & K1 & K2 & K3 & K4 & K5). assert (HT1 : 1 <= threads) by (destruct HT as [<-|[<-|[<-|[<-|[]]]]]; lia).
  assert (S : (length inputs / Nat.max 1 (N.to_nat threads) = N.to_nat (2 ^ k))%nat).
  { rewrite L. replace (Nat.max 1 (N.to_nat threads)) with (N.to_nat threads) by lia. rewrite <- N2Nat.inj_div. now rewrite K3. }
  apply C97_overfull; [exact P|lia|discriminate| |]; rewrite S.
  - change 32%nat with (N.to_nat 32). rewrite <- N2Nat.inj_mod. now rewrite K5.
  - unfold room. rewrite !N2Nat.id. unfold cap, bx_thread_cap. rewrite K4. change (bx_num_bins 49152 (2 ^ 14)) with 3.
    pose proof (three_bins search 40 k K1 K2 ltac:(lia)) as B. rewrite N2Nat.id. change (N.of_nat nb) with 3. lia.
Qed.
Print Assumptions C97_threads_refuted.

Example C97_example : forall search,
  ~ power2 65537 /\ bx_num_bins 65537 (2 ^ 14) = 5 /\ room 5 (bx_thread_cap search 65537 (2 ^ 14) 40 1) 65537 /\
  bx_items_per_thread 65537 3 = 21846 /\ ~ power2 21846 /\ power2 (bx_items_per_thread 49152 3) /\ ~ power2 (bx_num_bins 49152 (2 ^ 14)).
Proof.
  intros search. assert (NP : forall a k, 2 ^ k < a -> a < 2 ^ (k + 1) -> ~ power2 a).
  { intros a k A B [j ->]. apply N.pow_lt_mono_r_iff in A; [|lia]. apply N.pow_lt_mono_r_iff in B; lia. }
  assert (P1 : ~ power2 65537) by (apply (NP _ 16); reflexivity). repeat split.
  - exact P1.
  - apply (C97_share search 65537 40 1); [lia|cbn; lia|exact P1].
  - apply (NP _ 14); reflexivity.
  - exists 14. reflexivity.
  - apply (NP _ 1); reflexivity.
Qed.
