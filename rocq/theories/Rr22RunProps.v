(** Theorems about the RR22 bucket drivers: C25, C26, C51. *)
From Coq Require Import List Arith Bool Lia Permutation.
From Verif Require Import Rr22RunModel Rr22RunSpec Rr22RunProofs.
Import ListNotations.

Lemma async_facts : forall n start waits k s, start <= n ->
  sreach n start (fun _ _ => false) waits k s ->
  k <= 16 * (n - start) /\
  (forall s0, s0 = fst s \/ s0 = snd s ->
     stages_in_order (s_log s0) /\ length (s_q1 s0) <= 1 /\
     (forall st, exists m, done_by st (s_log s0) = seq start m) /\
     (returned n s0 -> all_buckets_done start n (s_log s0))) /\
  ((forall s', ~ sstep n (fun _ _ => false) waits s s') ->
     returned n (fst s) /\ returned n (snd s)).
Proof.
  intros n start waits k s SN R. split; [|split].
  - eapply reach_bound; eauto.
  - intros s0 E. destruct (inv_reach _ _ _ _ SN _ _ R) as [Ia Ib].
    destruct (alive_reach _ _ _ _ (fun _ _ => eq_refl) _ _ R) as [Aa Ab].
    assert (I : inv n start s0) by (destruct E; subst; assumption).
    assert (A : alive s0) by (destruct E; subst; assumption).
    split; [apply (i_o _ _ _ I)|split; [|split]].
    + rewrite (i_q1 _ _ _ I), seq_length. pose proof (i_4 _ _ _ I). lia.
    + intros []; eexists; [apply (i_lp _ _ _ I)|apply (i_lr _ _ _ I)|apply (i_lx _ _ _ I)].
    + intros [P [Q X]]. destruct A as [A1 [A2 A3]].
      destruct P as [P|[i P]]; [|destruct (A1 _ P)].
      destruct Q as [Q|[i Q]]; [|destruct (A2 _ Q)].
      destruct X as [X|[i X]]; [|destruct (A3 _ X)].
      eapply done_all; eauto.
  - intros ST. destruct (stuck_done _ _ _ _ SN (fun _ _ => eq_refl) _ _ R ST) as [[A1 [A2 A3]] [B1 [B2 B3]]].
    split; split; auto.
Qed.

(** C25.  Two parties run AsyncRun over the same buckets, no stage call throws, and
    any set of stage calls waits for the peer to begin the same call.  Then, under
    every interleaving of the six threads: the stages of every bucket happen in
    order; each stage takes the buckets in increasing order, none twice; at most one
    prepared bucket is queued; no execution is longer than 16 steps per bucket; a
    state without a next step is one where both parties have returned; and a party
    that has returned has taken every bucket from start on through every stage
    exactly once. *)
Theorem C25_pipeline_exactly_once_no_deadlock :
  forall n start waits k s, start <= n ->
  sreach n start (fun _ _ => false) waits k s ->
  k <= 16 * (n - start) /\
  (forall s0, s0 = fst s \/ s0 = snd s ->
     stages_in_order (s_log s0) /\ length (s_q1 s0) <= 1 /\
     (forall st, exists m, done_by st (s_log s0) = seq start m) /\
     (returned n s0 -> all_buckets_done start n (s_log s0))) /\
  ((forall s', ~ sstep n (fun _ _ => false) waits s s') ->
     returned n (fst s) /\ returned n (snd s)).
Proof. exact async_facts. Qed.
Print Assumptions C25_pipeline_exactly_once_no_deadlock.

(** C25.  The sequential driver, used for a single bucket, does the same. *)
Theorem C25_sequential :
  forall n start, all_buckets_done start n (run_seq start n).
Proof. intros n start. apply run_seq_done. Qed.
Print Assumptions C25_sequential.

(** One full execution, two buckets, every call waiting for the peer. *)
Example C25_example : exists s,
  sreach 3 1 (fun _ _ => false) (fun _ _ => true) 32 s /\ returned 3 (fst s) /\ returned 3 (snd s) /\
  done_by SInt (s_log (fst s)) = [1; 2].
Proof.
  pose proof (s_start 3 1 (fun _ _ => false) (fun _ _ => true)) as R. unfold a_init in R.
  Ltac go R t := eapply s_more in R; [|t]; cbn [app] in R.
  Ltac beg := solve [left; simpl; tauto | right; left; split; reflexivity
                    | right; right; left; eexists; split; reflexivity
                    | right; right; right; eexists; split; reflexivity].
  Ltac ret := split; [reflexivity|intros _; beg].
  Ltac both R c := go R ltac:(apply s_left; c); go R ltac:(apply s_right; c).
  both R ltac:(apply a_p_begin; lia). both R ltac:(apply a_p_return; ret).
  both R ltac:(apply a_p_push; unfold cache_size; simpl; lia).
  both R ltac:(apply a_r_pop; lia). both R ltac:(apply a_p_begin; lia).
  both R ltac:(apply a_r_return; ret). both R ltac:(apply a_p_return; ret).
  both R ltac:(apply a_p_push; unfold cache_size; simpl; lia).
  both R ltac:(apply a_r_push). both R ltac:(apply a_r_pop; lia).
  both R ltac:(apply a_x_pop; lia).
  both R ltac:(apply a_r_return; ret). both R ltac:(apply a_x_return; ret).
  both R ltac:(apply a_r_push). both R ltac:(apply a_x_pop; lia).
  both R ltac:(apply a_x_return; ret).
  eexists. split; [exact R|]. repeat split; left; reflexivity.
Qed.

(** C26, the part that holds.  Starting at bucket 0, ParallelRun takes every bucket
    through every stage exactly once, in the right order of stages.  Missing: a start
    index above 0 (refuted below when there are more buckets than threads). *)
Theorem C26_parallel_from_zero_partial :
  forall n p start, 0 < p -> start = 0 \/ n <= p ->
  (forall l, In l (parallel_run start n p) -> stages_in_order l) /\
  (forall st, Permutation (concat (map (done_by st) (parallel_run start n p))) (seq start (n - start))).
Proof.
  intros n p start P [->|L]; (split; [|intros st]).
  - intros l H. unfold parallel_run in H. destruct (Nat.leb n p).
    + destruct H as [<-|[]]. apply run_seq_done.
    + apply in_map_iff in H. destruct H as [t [<- _]]. apply flat_order.
  - rewrite Nat.sub_0_r. apply parallel_from_zero. exact P.
  - intros l H. unfold parallel_run in H. replace (Nat.leb n p) with true in H by (symmetry; apply Nat.leb_le; exact L).
    destruct H as [<-|[]]. apply run_seq_done.
  - unfold parallel_run. replace (Nat.leb n p) with true by (symmetry; apply Nat.leb_le; exact L).
    cbn [map concat]. rewrite app_nil_r, (proj2 (run_seq_done start n)). apply Permutation_refl.
Qed.
Print Assumptions C26_parallel_from_zero_partial.

(** C26 fails when a run is resumed: with more buckets than threads, ParallelRun
    ignores the start index, so every bucket before it is processed again. *)
Theorem C26_resumed_parallel_refuted :
  exists n p start, 0 < p /\ start <= n /\
  exists st, ~ Permutation (concat (map (done_by st) (parallel_run start n p))) (seq start (n - start)).
Proof.
  exists 7, 6, 3. split; [lia|split; [lia|]]. exists SInt. intros H. apply Permutation_length in H.
  vm_compute in H. discriminate H.
Qed.
Print Assumptions C26_resumed_parallel_refuted.

(** In fact always: the buckets before the start index are processed again. *)
Theorem C26_resume_repeats_all_partial :
  forall n p start b, 0 < p -> p < n -> b < start -> start <= n ->
  forall st, In b (concat (map (done_by st) (parallel_run start n p))).
Proof.
  intros n p start b P L B S st. unfold parallel_run.
  replace (Nat.leb n p) with false by (symmetry; apply Nat.leb_gt; exact L).
  rewrite map_map, (map_ext _ _ (fun t => par_thread_done st n p t)), <- flat_map_concat_map.
  eapply Permutation_in; [apply Permutation_sym, par_partition; exact P|]. apply in_seq. lia.
Qed.
Print Assumptions C26_resume_repeats_all_partial.

Example C26_example :
  map (done_by SInt) (parallel_run 0 7 3) = [[0; 3; 6]; [1; 4]; [2; 5]] /\
  map (done_by SRun) (parallel_run 5 7 3) = [[0; 3; 6]; [1; 4]; [2; 5]] /\
  map (done_by SRun) (parallel_run 5 7 8) = [[5; 6]].
Proof. repeat split. Qed.

(** C51 fails: a Prepare or RunOprf call that throws is not reported.  Two buckets,
    RunOprf of bucket 0 throws at the first party: that party reaches a state in
    which it has no further step whatever the peer does, and has not returned - its
    intersection thread waits for a bucket that never comes, and both get() and the
    future's destructor wait for that thread. *)
Theorem C51_failure_not_reported_refuted :
  exists n start throws waits k s,
  sreach n start throws waits k s /\
  (exists i, s_r (fst s) = RDead i) /\
  (forall peer s', ~ astep n throws waits true peer (fst s) s') /\
  ~ returned n (fst s).
Proof.
  exists 2, 0, (fun w c => andb w (andb (stage_eqb (fst c) SRun) (Nat.eqb (snd c) 0))), (fun _ _ => false).
  pose proof (s_start 2 0 (fun w c => andb w (andb (stage_eqb (fst c) SRun) (Nat.eqb (snd c) 0))) (fun _ _ => false)) as R.
  unfold a_init in R.
  Ltac go1 R c := eapply s_more in R; [|apply s_left; c]; cbn [app] in R.
  Ltac ret1 := split; [reflexivity|intros; discriminate].
  go1 R ltac:(apply a_p_begin; lia). go1 R ltac:(apply a_p_return; ret1).
  go1 R ltac:(apply a_p_push; unfold cache_size; simpl; lia). go1 R ltac:(apply a_r_pop; lia).
  go1 R ltac:(apply a_r_throw; reflexivity).
  go1 R ltac:(apply a_p_begin; lia). go1 R ltac:(apply a_p_return; ret1).
  go1 R ltac:(apply a_p_push; unfold cache_size; simpl; lia).
  do 2 eexists. split; [exact R|]. split; [eexists; reflexivity|]. split.
  - intros peer s' ST. simpl in ST. inversion ST; lia.
  - intros [_ [_ [H|[i H]]]]; discriminate H.
Qed.
Print Assumptions C51_failure_not_reported_refuted.

(** It is so in every execution: a party at which Prepare or RunOprf has thrown, and
    no GetIntersection throws, never returns from AsyncRun, though the whole
    execution is over after 16 steps per bucket. *)
Theorem C51_failed_stage_never_returns :
  forall n start throws waits, start <= n ->
  (forall w b, throws w (SInt, b) = false) ->
  forall k s, sreach n start throws waits k s ->
  forall s0, s0 = fst s \/ s0 = snd s ->
  (exists i, s_p s0 = PDead i) \/ (exists i, s_r s0 = RDead i) ->
  ~ returned n s0 /\
  (forall k' s', sreach n start throws waits k' s' -> k' <= 16 * (n - start)).
Proof.
  intros n start throws waits SN NX k s R s0 E D. split.
  - eapply dead_hangs; eauto. destruct (no_int_throw _ _ _ _ NX _ _ R). destruct E; subst; assumption.
  - intros k' s' R'. eapply reach_bound; eauto.
Qed.
Print Assumptions C51_failed_stage_never_returns.
