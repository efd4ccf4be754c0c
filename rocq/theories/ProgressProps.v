(** C49: reported progress. *)
From Coq Require Import List NArith Arith Bool Lia.
From Verif Require Import Base ProgressModel ProgressSpec ProgressProofs.
Import ListNotations.
Local Open Scope N_scope.

(** A progress tree used as announced shows a percentage up to 100 and consistent job
    counts. *)
Theorem C49_bounded : forall h t, sane h t ->
  exists d, get t = Ok d /\ d_pct d <= 100 /\ d_finished d + d_running d <= d_total d.
Proof. intros h t H. destruct (sane_good h t H) as (d & E & P & B & C). exists d. rewrite P. auto. Qed.
Print Assumptions C49_bounded.

(** Along any disciplined sequence of calls on any objects of the tree the percentage shown
    never decreases (and Get never reads outside the weights). *)
Theorem C49_monotone : forall cs, disciplined_run new_progress cs -> never_decreases (states new_progress cs).
Proof.
  intros cs D i j t t' L Ei Ej.
  assert (S0 : sane 0 new_progress) by (unfold new_progress; constructor; lia).
  destruct (states_sane cs 0%nat new_progress S0 D i j t t' L Ei Ej) as ((h & H) & (h' & H') & M).
  destruct (sane_good _ _ H) as (d & E & P & B & _). destruct (sane_good _ _ H') as (d' & E' & P' & B' & _).
  exists d, d'. rewrite P, P'. auto.
Qed.
Print Assumptions C49_monotone.

(** Done shows 100% when every announced sub job was started. *)
Theorem C49_done_is_100 : forall h t, sane h t -> complete t ->
  exists d, get (done t) = Ok d /\ d_pct d = 100.
Proof.
  intros h t H C. destruct (done_sane h t H) as [S _]. destruct (sane_good _ _ S) as (d & E & P & _).
  exists d. split; [exact E|]. rewrite P. eapply complete_done_100; eauto.
Qed.
Print Assumptions C49_done_is_100.

(** BucketPsi::Run: for every number of buckets (0 if the parties skip the protocol) the
    percentage shown never decreases and ends at 100. *)
Lemma updates_disciplined : forall m t1 t2 ws todo n i p cs, (n = i + todo)%nat -> m <> PSingle ->
  p <= 100 * N.of_nat i / N.of_nat n -> p <= 100 ->
  (forall q, q <= 100 -> disciplined_run (PNode m t1 t2 ws [PNode PSingle 100 true [] []; PNode PSingle q false [] []]) cs) ->
  disciplined_run (PNode m t1 t2 ws [PNode PSingle 100 true [] []; PNode PSingle p false [] []])
    (map (fun i => ([1%nat], OUpdate (100 * N.of_nat (S i) / N.of_nat n))) (seq i todo) ++ cs).
Proof.
  intros m t1 t2 ws todo. induction todo as [|k IH]; intros n i p cs Hn Hm Hp Hb HC; [apply HC; exact Hb|].
  cbn [seq map app disciplined_run disciplined_call].
  assert (M : 100 * N.of_nat i / N.of_nat n <= 100 * N.of_nat (S i) / N.of_nat n) by (apply N.div_le_mono; lia).
  assert (U : 100 * N.of_nat (S i) / N.of_nat n <= 100) by (apply N.div_le_upper_bound; lia).
  split.
  - split; [exact Hm|]. eexists. split; [reflexivity|]. cbn [disciplined]. right. lia.
  - cbn [call StoreModel.upd apply_op update]. rewrite N.min_l by exact U. apply IH; auto; try lia.
Qed.
Theorem C49_bucket_psi : forall n,
  never_decreases (states new_progress (bucket_psi_calls n)) /\
  exists t d, nth_error (states new_progress (bucket_psi_calls n)) (n + 5) = Some t /\
    length (states new_progress (bucket_psi_calls n)) = (n + 6)%nat /\ get t = Ok d /\ d_pct d = 100.
Proof.
  intros n. split.
  - apply C49_monotone. unfold bucket_psi_calls.
    cbn [app disciplined_run disciplined_call]. split.
    { cbn [disciplined new_progress]. repeat split; auto; try discriminate. }
    cbn [call apply_op set_weights new_progress]. split; [cbn; split; [discriminate|lia]|].
    cbn [call apply_op next_sub removelast last app done is_single]. split; [cbn; split; [discriminate|lia]|].
    cbn [call apply_op next_sub removelast last app done is_single].
    apply updates_disciplined with (p := 0); try lia; try discriminate.
    intros q Hq. cbn [disciplined_run disciplined_call]. split; [cbn; split; [discriminate|lia]|].
    cbn [disciplined call apply_op next_sub]. auto.
  - unfold bucket_psi_calls. cbn [app states].
    assert (G : forall todo i n q t1 t2, exists q',
      states (PNode PSerial t1 t2 [15; 65; 20] [PNode PSingle 100 true [] []; PNode PSingle q false [] []])
        (map (fun i => ([1%nat], OUpdate (100 * N.of_nat (S i) / N.of_nat n))) (seq i todo) ++ [([], ONext); ([], ODone)]) =
      firstn todo (states (PNode PSerial t1 t2 [15; 65; 20] [PNode PSingle 100 true [] []; PNode PSingle q false [] []])
        (map (fun i => ([1%nat], OUpdate (100 * N.of_nat (S i) / N.of_nat n))) (seq i todo) ++ [([], ONext); ([], ODone)])) ++
      [PNode PSerial t1 t2 [15; 65; 20] [PNode PSingle 100 true [] []; PNode PSingle q' false [] []];
       PNode PSerial t1 t2 [15; 65; 20] [PNode PSingle 100 true [] []; PNode PSingle 100 true [] []; new_progress];
       done (PNode PSerial t1 t2 [15; 65; 20] [PNode PSingle 100 true [] []; PNode PSingle 100 true [] []; new_progress])] /\
      length (states (PNode PSerial t1 t2 [15; 65; 20] [PNode PSingle 100 true [] []; PNode PSingle q false [] []])
        (map (fun i => ([1%nat], OUpdate (100 * N.of_nat (S i) / N.of_nat n))) (seq i todo) ++ [([], ONext); ([], ODone)])) = (todo + 3)%nat).
    { induction todo as [|k IH]; intros i m q t1 t2.
      - exists q. split; reflexivity.
      - cbn [seq map app states]. cbn [call StoreModel.upd apply_op update].
        destruct (IH (S i) m (N.min (100 * N.of_nat (S i) / N.of_nat m) 100) t1 t2) as (q' & E & L).
        exists q'. split; [|cbn [length]; rewrite L; lia].
        cbn [firstn app]. f_equal. exact E. }
    cbn [call apply_op set_weights new_progress next_sub removelast last app done is_single].
    destruct (G n 0%nat n 0 0 false) as (q & E & L).
    set (st := states _ _) in *. exists (done (PNode PSerial 0 false [15; 65; 20] [PNode PSingle 100 true [] []; PNode PSingle 100 true [] []; new_progress])).
    eexists. split; [|split; [|split; [vm_compute; reflexivity|reflexivity]]].
    + replace (n + 5)%nat with (S (S (S (n + 2)))) by lia. cbn [nth_error]. rewrite E.
      rewrite nth_error_app2 by (rewrite firstn_length; lia). rewrite firstn_length, L.
      replace (n + 2 - Nat.min n (n + 3))%nat with 2%nat by lia. reflexivity.
    + cbn [length]. rewrite L. lia.
Qed.
Print Assumptions C49_bucket_psi.

Example C49_example :
  map (fun t => match get t with Ok d => d_pct d | _ => 999 end) (states new_progress (bucket_psi_calls 3)) =
  [0; 0; 0; 15; 36; 57; 80; 80; 100].
Proof. vm_compute. reflexivity. Qed.

(** The class itself does not enforce this: Update can lower the percentage, even of a
    finished object, and Done does not reach 100% while an announced sub job was never
    started. *)
Theorem C49_update_lowers_refuted : exists t p d d',
  get t = Ok d /\ get (update p t) = Ok d' /\ d_pct d' < d_pct d.
Proof. exists (done new_progress), 30. do 2 eexists. split; [reflexivity|]. split; [reflexivity|]. reflexivity. Qed.
Print Assumptions C49_update_lowers_refuted.
Theorem C49_done_below_100_refuted : exists t d,
  (exists cs, disciplined_run new_progress cs /\ last (states new_progress cs) new_progress = t) /\
  get (done t) = Ok d /\ d_pct d < 100.
Proof.
  exists (call [] ONext (call [] ONext (call [] (OSetWeights [15; 65; 20] PSerial) new_progress))). eexists. split.
  - exists [([], OSetWeights [15; 65; 20] PSerial); ([], ONext); ([], ONext)]. split; [|reflexivity].
    cbn. repeat split; try discriminate; auto; lia.
  - split; [vm_compute; reflexivity|reflexivity].
Qed.
Print Assumptions C49_done_below_100_refuted.
