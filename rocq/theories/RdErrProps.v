(** C108: APSI tables whose CSV reader fails. *)
From Coq Require Import List NArith Bool Arith Lia.
From Verif Require Import Base BaseProofs Text TextProofs StoreModel PirPackModel GroupDbModel RdErrModel RdErrSpec RdErrProofs.
Import ListNotations.

(** Without a failure, read gives the rows of the file in order, however it is cut into batches, and throws exactly when there are none or
    a key is repeated. *)
Theorem C108_read : forall batches,
  (file_rows batches <> [] -> NoDup (map fst (file_rows batches)) -> rd_read (calls batches) = Ok (file_rows batches)) /\
  (file_rows batches = [] \/ ~ NoDup (map fst (file_rows batches)) -> rd_read (calls batches) = Throw).
Proof.
  intros batches. split.
  - intros H1 H2. unfold rd_read. rewrite loop_clean. fold (file_rows batches).
    assert (X : Nat.eqb (length (file_rows batches)) (length (nodup (list_eq_dec N.eq_dec) (map fst (file_rows batches)))) = true).
    { apply distinct_iff in H2. rewrite map_length in H2. exact H2. }
    match goal with |- enforce _ (enforce ?b _) = _ => replace b with true by (symmetry; exact X) end.
    destruct (file_rows batches); [contradiction|reflexivity].
  - intros [H|H].
    + unfold rd_read. rewrite loop_clean. fold (file_rows batches). rewrite H. reflexivity.
    + apply read_dup. rewrite loop_clean. exact H.
Qed.
Print Assumptions C108_read.

(** A failed call is only logged, and the batch before it is taken once more; yet whenever a call fails, read throws - the rows taken twice
    have repeated keys - if no batch is without rows. *)
Theorem C108_read_failed : forall evs, some_failed evs -> no_empty_batch evs -> rd_read evs = Throw.
Proof.
  intros evs HF HN. destruct (repeated_row evs HF HN) as [E|(r & a & m & c & E)].
  - unfold rd_read. rewrite E. reflexivity.
  - apply read_dup. rewrite E. apply repeated_keys.
Qed.
Print Assumptions C108_read_failed.

(** Without a failure, bucketize puts every row into the bucket of its key and nowhere else, in order. *)
Theorem C108_buckets : forall hash nb batches, (0 < nb <= 2147483648)%N ->
  exists bs, rd_bucketize hash nb (calls batches) = Ok bs /\ length bs = N.to_nat nb /\
    forall i, i < N.to_nat nb -> nth i bs [] = rows_in_bucket hash nb i (file_rows batches).
Proof.
  intros hash nb batches H. destruct (bucketize_ok hash nb H (calls batches)) as (bs & E & L & R).
  exists bs. split; [exact E|]. split; [exact L|]. intros i Hi. rewrite R by exact Hi. rewrite loop_clean. reflexivity.
Qed.
Print Assumptions C108_buckets.

(** If a call fails after the first, bucketize ends well; but some bucket holds a row twice, and reading it throws however it is cut into
    batches. *)
Theorem C108_buckets_failed : forall hash nb first evs, (0 < nb <= 2147483648)%N ->
  some_failed evs -> no_empty_batch (RdBatch first :: evs) ->
  exists bs i, rd_bucketize hash nb (RdBatch first :: evs) = Ok bs /\ i < length bs /\
    forall batches, file_rows batches = nth i bs [] -> rd_read (calls batches) = Throw.
Proof.
  intros hash nb first evs H HF HN. destruct (bucketize_ok hash nb H (RdBatch first :: evs)) as (bs & E & L & R).
  destruct (repeated_row (RdBatch first :: evs)) as [X|(r & a & m & c & X)]; [right; exact HF|exact HN| |].
  - exfalso. cbn [rd_loop concat] in X. apply app_eq_nil in X as [X _]. revert X. apply HN. left. reflexivity.
  - assert (HI : N.to_nat (hash (fst r) mod nb) < N.to_nat nb) by (pose proof (N.mod_lt (hash (fst r)) nb ltac:(lia)); lia).
    exists bs, (N.to_nat (hash (fst r) mod nb)). split; [exact E|]. split; [lia|]. intros batches EB.
    apply C108_read. right. rewrite EB, R, X by exact HI. unfold rows_in_bucket. rewrite filter_app. cbn [filter]. rewrite Nat.eqb_refl.
    rewrite filter_app. cbn [filter]. rewrite Nat.eqb_refl. apply repeated_keys.
Qed.
Print Assumptions C108_buckets_failed.

(** The grouped form used by the sender throws on any failure and on a table without rows, and otherwise writes what it would for the whole file at once. *)
Theorem C108_group : forall hash nb ng evs,
  (some_failed evs -> rd_group hash nb ng evs = Throw) /\
  (forall batches, evs = calls batches -> file_rows batches <> [] -> rd_group hash nb ng evs = divide_writes hash nb ng (file_rows batches)) /\
  (forall batches, evs = calls batches -> file_rows batches = [] -> rd_group hash nb ng evs = Throw).
Proof.
  intros hash nb ng evs.
  assert (ER : forall batches, rd_rows (calls batches) = Ok (file_rows batches)).
  { unfold calls, file_rows. induction batches as [|b batches IH]; [reflexivity|]. cbn [map rd_rows concat]. rewrite IH. reflexivity. }
  split; [|split].
  - intros HF. unfold rd_group. assert (E : rd_rows evs = Throw); [|rewrite E; reflexivity].
    induction evs as [|[b|] evs IH]; [destruct HF| |reflexivity]. destruct HF as [HF|HF]; [discriminate|].
    cbn [rd_rows]. rewrite IH by exact HF. reflexivity.
  - intros batches -> HN. unfold rd_group. rewrite ER. cbn [bind]. destruct (file_rows batches) as [|r rows]; [contradiction|]. cbn [length Nat.eqb negb].
    destruct (divide_writes hash nb ng (r :: rows)); reflexivity.
  - intros batches -> HN. unfold rd_group. rewrite ER, HN. cbn [bind]. unfold divide_writes. destruct (1 <=? ng)%N; reflexivity.
Qed.
Print Assumptions C108_group.

Definition row108 (k v : N) : row := ([k], [v]).
Definition hash108 (k : bytes) : N := match k with [] => 0 | x :: _ => x end%N.
Example C108_read_example : rd_read (calls [[row108 1 9; row108 2 8]; []; [row108 3 7]]) = Ok [row108 1 9; row108 2 8; row108 3 7]
  /\ rd_read (calls [[row108 1 9]; [row108 1 8]]) = Throw /\ rd_read (calls [[]; []]) = Throw.
Proof. vm_compute. auto. Qed.
Example C108_read_failed_example : rd_read [RdBatch [row108 1 9; row108 2 8]; RdFail] = Throw /\ rd_read [RdFail] = Throw.
Proof. vm_compute. auto. Qed.
Example C108_buckets_example : rd_bucketize hash108 2 (calls [[row108 1 9; row108 2 8]; [row108 3 7]]) = Ok [[row108 2 8]; [row108 1 9; row108 3 7]].
Proof. vm_compute. reflexivity. Qed.
Example C108_buckets_failed_example : rd_bucketize hash108 2 [RdBatch [row108 1 9; row108 2 8]; RdFail] = Ok [[row108 2 8; row108 2 8]; [row108 1 9; row108 1 9]].
Proof. vm_compute. reflexivity. Qed.
Example C108_group_example : exists ws, rd_group hash108 2 1 (calls [[row108 1 9]; [row108 2 8]]) = Ok ws /\ length ws = 3
  /\ rd_group hash108 2 1 [RdBatch [row108 1 9]; RdFail; RdBatch [row108 2 8]] = Throw.
Proof. eexists. vm_compute. auto. Qed.

(** "A failure of the reader never goes unnoticed" is false: if the batch before the failure is without rows, read returns the rows so far. *)
Theorem C108_read_unnoticed_refuted : exists batches rows,
  rd_read (calls batches ++ [RdFail]) = Ok rows /\ rows <> [].
Proof. exists [[row108 1 9]; []], [row108 1 9]. split; [vm_compute; reflexivity|discriminate]. Qed.
Print Assumptions C108_read_unnoticed_refuted.

(** Nor in bucketize: if the first call fails, it ends well with all buckets empty, whatever the file holds. *)
Theorem C108_buckets_unnoticed_refuted : exists hash nb, forall evs, exists bs,
  rd_bucketize hash nb (RdFail :: evs) = Ok bs /\ length bs = N.to_nat nb /\ forall b, In b bs -> b = [].
Proof.
  exists hash108, 2%N. intros evs. exists [[]; []]. split; [reflexivity|]. split; [reflexivity|].
  intros b [<- | [<- | []]]; reflexivity.
Qed.
Print Assumptions C108_buckets_unnoticed_refuted.
