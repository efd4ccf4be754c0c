(** C91: results of the operators (psi_operator.cc and the KKRT, RR22 and ECDH operators). *)
From Coq Require Import List NArith Lia Bool Arith Sorted Permutation.
From Verif Require Import Base Text StoreModel BucketSpec CuckooModel CuckooSpec SyncModel KkrtModel KkrtSpec KkrtProps OpModel OpSpec OpProofs.
Import ListNotations.

(** BroadcastIntersection: the party with results keeps them; the other gets, in
    order and once, exactly the positions of those of its items that were found,
    with the count of the first.  This includes the case of no results at all. *)
Theorem C91_broadcast :
  forall (first : bool) own other r,
  distinct own -> (forall j c, In (j, c) r -> j < length own) ->
  exists res,
    op_broadcast (fst (flip first own other)) (snd (flip first own other)) (flip first r []) = Ok (flip first r res) /\
    in_order res /\
    forall q c, In (q, c) res <->
      exists x d j cj n, nth_error other q = Some (x, d) /\ In (j, cj) r /\ nth_error own j = Some (x, n) /\ c = at_least_one n.
Proof. exact op_broadcast_exact. Qed.
Print Assumptions C91_broadcast.

(** OnSequenceRun over any protocol that is exact on every bucket: every bucket not
    yet finished by both parties yields the right results at the parties that may
    have them and nothing elsewhere. *)
Theorem C91_sequence :
  forall core val first bcast parsed bs0 bs1 st, first_unfinished parsed st ->
  length bs0 = length bs1 -> st <= length bs0 -> Forall distinct bs0 -> Forall distinct bs1 ->
  (forall k b0 b1, st <= k -> nth_error bs0 k = Some b0 -> nth_error bs1 k = Some b1 ->
     exists r, core k b0 b1 = Ok (flip first r []) /\
       (if first then common_with val b0 b1 r else common_with val b1 b0 r)) ->
  exists outs, op_run core bcast (first || bcast) (negb first || bcast) parsed bs0 bs1 = Ok outs /\
    length outs = length bs0 - st /\
    forall k b0 b1, nth_error bs0 (st + k) = Some b0 -> nth_error bs1 (st + k) = Some b1 ->
      exists o, nth_error outs k = Some o /\ bucket_result val first bcast b0 b1 o.
Proof.
  intros core val first bcast parsed bs0 bs1 st F. replace st with (op_start parsed); [apply op_run_exact|].
  destruct parsed as [[m p]|]; cbn in *; lia.
Qed.
Print Assumptions C91_sequence.

(** Whatever the protocol gives to both parties: a party that is to have no result keeps none. *)
Theorem C91_withheld :
  forall core bcast get0 get1 parsed bs0 bs1 outs,
  op_run core bcast get0 get1 parsed bs0 bs1 = Ok outs ->
  (get0 = false -> Forall (fun o => fst o = []) outs) /\ (get1 = false -> Forall (fun o => snd o = []) outs).
Proof.
  intros core bcast get0 get1 parsed bs0 bs1 outs. unfold op_run. destruct (_ || _)%bool; [discriminate|]. apply op_withheld.
Qed.
Print Assumptions C91_withheld.

(** KkrtOperator: the run raises (a cuckoo table was full) or every bucket has the
    right positions at both parties; the sender's counts are right, the receiver's
    are 0 for items the sender has once. *)
Theorem C91_kkrt :
  forall blake env first bcast bs0 bs1,
  length bs0 = length bs1 -> Forall distinct bs0 -> Forall distinct bs1 ->
  ~ In [] bs0 -> ~ In [] bs1 ->
  (forall k b0 b1, nth_error bs0 k = Some b0 -> nth_error bs1 k = Some b1 -> kkrt_side first blake env k b0 b1) ->
  exists fuel0,
   (forall fuel, fuel0 <= fuel -> kkrt_op_run blake env fuel first bcast bs0 bs1 = Throw) \/
   exists outs,
    (forall fuel, fuel0 <= fuel -> kkrt_op_run blake env fuel first bcast bs0 bs1 = Ok outs) /\
    length outs = length bs0 /\
    forall k b0 b1, nth_error bs0 k = Some b0 -> nth_error bs1 k = Some b1 ->
      exists o, nth_error outs k = Some o /\ bucket_result kkrt_cnt first bcast b0 b1 o.
Proof.
  intros blake env first bcast bs0 bs1 L D0 D1 N0 N1 G.
  exact (kkrt_loop blake env first bcast bs0 bs1 0 L D0 D1 N0 N1 G).
Qed.
Print Assumptions C91_kkrt.

(** A bucket that is empty at one party, however many others are not, stops the
    whole KKRT run: it ends normally only if there is none. *)
Theorem C91_kkrt_no_empty_bucket :
  forall blake env fuel first bcast bs0 bs1 outs,
  kkrt_op_run blake env fuel first bcast bs0 bs1 = Ok outs -> ~ In [] bs0 /\ ~ In [] bs1.
Proof. exact kkrt_empty_stops. Qed.
Print Assumptions C91_kkrt_no_empty_bucket.

(** Rr22Operator: from results of the runner that are exact on a bucket to what is added
    to the output, for every count an uint32_t can hold. *)
Theorem C91_rr22 :
  forall own peer res,
  Forall (fun x => (snd x < max32)%N) peer ->
  exact_on (rr_pre 0 own) (rr_pre 0 peer) res ->
  exists m, rr_post (rr_pre 0 own) res = Ok m /\
    common_with (fun n => n) own peer (map (fun p => (N.to_nat (fst p), snd p)) m).
Proof. exact rr22_exact. Qed.
Print Assumptions C91_rr22.

(** EcdhOperator: OnEnd finds the stores OnInit made, except with a recovery manager
    and a bin size of at most 1. *)
Theorem C91_ecdh_stores :
  forall recovery bin_size,
  (exists st, ecdh_op_stores recovery bin_size = Ok st) <-> (recovery = false \/ (1 < bin_size)%N).
Proof.
  intros recovery bin_size. unfold ecdh_op_stores, ecdh_op_end, ecdh_op_init.
  destruct (1 <? bin_size)%N eqn:E; [apply N.ltb_lt in E | apply N.ltb_ge in E]; destruct recovery; split; intros H; eauto.
  - destruct H as [st H]. discriminate H.
  - destruct H as [H | H]; [discriminate H | lia].
Qed.
Print Assumptions C91_ecdh_stores.

(* ------------------------------------------------------------------ *)
(** * Cases *)

(** Items are single numbers, their "hash" the bin sequence of C23's example. *)
Definition ex_blake (b : bytes) : N := match b with [x] => x | _ => 0%N end.
Definition ex_env (k : nat) : kkrt_env :=
  mk_ke ex_oprf 2 (mk_ko 4 0 3 128 9) 4 3 [2; 0; 3; 1] ex_fill (fun _ => []) ex_arr.
Definition ex_recv_in : list (bytes * N) :=
  [([0x000100000001], 1); ([0x000900090009], 5); ([0x000200010000], 1); ([0x000300010000], 1)]%N.
Definition ex_send_in : list (bytes * N) :=
  [([0x000300010000], 1); ([0x000500070009], 3); ([0x000900090009], 1); ([0x000100000001], 2)]%N.

(** The receiver (rank 1) has an item 5 times and three items once; the sender's
    counts are right: 5 for its item 2, 1 for the others. *)
Example C91_example :
  kkrt_op_run ex_blake ex_env 50 false true [ex_send_in] [ex_recv_in] =
  Ok [([(0, 1%N); (2, 5%N); (3, 1%N)], [(1, 0%N); (3, 0%N); (0, 2%N)])] /\
  kkrt_op_run ex_blake ex_env 50 false false [ex_send_in] [ex_recv_in] =
  Ok [([], [(1, 0%N); (3, 0%N); (0, 2%N)])] /\
  distinct ex_send_in /\ distinct ex_recv_in.
Proof.
  split; [vm_compute; reflexivity | ]. split; [vm_compute; reflexivity | ].
  split; unfold distinct; cbn; repeat constructor; cbn; intuition discriminate.
Qed.

(** Its hypotheses hold. *)
Example C91_example_good : kkrt_side false ex_blake ex_env 0 ex_send_in ex_recv_in.
Proof.
  destruct C23_example as (H1 & H2 & H3 & H4 & H5 & _).
  unfold kkrt_side, kkrt_good, ex_env. cbn [ke_opts ke_oprf ke_esz ke_ot ke_psi ke_perm ke_fill ke_garbage ke_arr ko_hash ko_stash ko_bins].
  split; [exact H1 | ]. split; [reflexivity | ]. split; [reflexivity | ]. split; [reflexivity | ].
  split; [lia | ]. split; [lia | ]. split; [exact H3 | ]. split; [exact H2 | ].
  split; [reflexivity | ]. split; [reflexivity | ].
  split; [intros b b' x y _ _; apply H4 | ].
  split.
  - intros i h b y Hy. apply H5. exact Hy.
  - intros a b Ha Hb E. cbn in Ha, Hb.
    assert (S : forall z, In z (map fst (ex_recv_in ++ ex_send_in)) -> z = [ex_blake z]).
    { cbn. intros z Hz. repeat (destruct Hz as [<- | Hz]; [reflexivity | ]). destruct Hz. }
    rewrite (S a Ha), (S b Hb), E. reflexivity.
Qed.

(** The full claim for KKRT: every result carries the peer's count.  It does not
    hold at the receiver: items the sender has once are reported with count 0. *)
Theorem C91_kkrt_counts_refuted :
  exists blake env fuel b0 b1 outs o,
    distinct b0 /\ distinct b1 /\ kkrt_side false blake env 0 b0 b1 /\
    kkrt_op_run blake env fuel false true [b0] [b1] = Ok outs /\ nth_error outs 0 = Some o /\
    ~ common_with at_least_one b1 b0 (snd o) /\ common_with at_least_one b0 b1 (fst o).
Proof.
  exists ex_blake, ex_env, 50, ex_send_in, ex_recv_in.
  exists [([(0, 1%N); (2, 5%N); (3, 1%N)], [(1, 0%N); (3, 0%N); (0, 2%N)])].
  exists ([(0, 1%N); (2, 5%N); (3, 1%N)], [(1, 0%N); (3, 0%N); (0, 2%N)]).
  destruct C91_example as (E & _ & D0 & D1).
  split; [exact D0 | ]. split; [exact D1 | ]. split; [exact C91_example_good | ]. split; [exact E | ].
  split; [reflexivity | ]. cbn [fst snd]. split.
  - intros [_ H]. destruct (proj1 (H 1 0%N)) as (x & d & n & _ & _ & C); [left; reflexivity | ].
    unfold at_least_one in C. lia.
  - split; [cbn; repeat constructor; cbn; intuition discriminate | ].
    intros i c. split.
    + intros I. cbn in I. repeat (destruct I as [I | I]; [injection I as <- <- | ]); [ | | | destruct I];
      eexists; eexists; eexists; (split; [reflexivity | ]).
      * split; [right; right; right; left; reflexivity | reflexivity].
      * split; [right; left; reflexivity | reflexivity].
      * split; [left; reflexivity | reflexivity].
    + intros (x & d & n & H & I & ->).
      destruct i as [ | [ | [ | [ | i]]]]; cbn in H; try (injection H as <- <-); cbn in I.
      * repeat (destruct I as [I | I]; [first [discriminate I | injection I as <-] | ]); [ | destruct I]. left; reflexivity.
      * repeat (destruct I as [I | I]; [discriminate I | ]). destruct I.
      * repeat (destruct I as [I | I]; [first [discriminate I | injection I as <-] | ]); [ | destruct I]. right; left; reflexivity.
      * repeat (destruct I as [I | I]; [first [discriminate I | injection I as <-] | ]); [ | destruct I]. right; right; left; reflexivity.
      * destruct i; discriminate H.
Qed.
Print Assumptions C91_kkrt_counts_refuted.

(** Common items in the first bucket, an empty second bucket at one party: the run
    raises and the result of the first bucket is not completed. *)
Theorem C91_kkrt_empty_bucket_refuted :
  exists blake env bs0 bs1,
    length bs0 = length bs1 /\ Forall distinct bs0 /\ Forall distinct bs1 /\
    (exists x, In x (map fst (concat bs0)) /\ In x (map fst (concat bs1))) /\
    kkrt_op_run blake env 50 false true bs0 bs1 = Throw.
Proof.
  exists ex_blake, ex_env, [ex_send_in; [([7%N], 1%N)]], [ex_recv_in; []].
  destruct C91_example as (_ & _ & D0 & D1).
  split; [reflexivity | ]. split; [ | split; [ | split]].
  - constructor; [exact D0 | constructor; [ | constructor]]. unfold distinct; cbn; repeat constructor; intuition.
  - constructor; [exact D1 | constructor; [ | constructor]]. constructor.
  - exists [0x000300010000]%N. cbn. auto 10.
  - vm_compute. reflexivity.
Qed.
Print Assumptions C91_kkrt_empty_bucket_refuted.

(** RR22 with counts 1 and 4294967295, and a resumed run that skips bucket 0. *)
Example C91_rr22_example :
  let own := [([1%N], 3%N); ([2%N], 1%N)] in let peer := [([2%N], 4294967295%N); ([1%N], 1%N)] in
  exact_on (rr_pre 0 own) (rr_pre 0 peer) [(1, 4294967294%N); (0, 0%N)] /\
  rr_post (rr_pre 0 own) [(1, 4294967294%N); (0, 0%N)] = Ok [(1%N, 4294967295%N); (0%N, 1%N)].
Proof.
  cbv zeta. split; [ | vm_compute; reflexivity]. split; [cbn; repeat constructor; cbn; intuition discriminate | ].
  intros i c. split.
  - intros I. cbn in I. destruct I as [I | [I | []]]; injection I as <- <-; vm_compute; eexists; eexists;
      (split; [reflexivity | ]).
    + split; [left; reflexivity | ]. split; reflexivity.
    + split; [right; left; reflexivity | ]. split; reflexivity.
  - intros (x & y & H & I & D & C). cbn in I.
    destruct i as [ | [ | i]]; cbn in H; [injection H as <- | injection H as <- | destruct i; discriminate H];
      destruct I as [<- | [<- | []]]; try discriminate D; vm_compute in C; subst c; cbn; auto.
Qed.

Example C91_resume_example :
  op_run (fun _ a b => Ok (map (fun i => (i, 1%N)) (seq 0 (length a)), [])) true true true (Some (2, 1))
    [[]; [([1%N], 1%N); ([2%N], 4%N)]; [([3%N], 1%N)]] [[]; [([2%N], 1%N); ([1%N], 1%N)]; [([3%N], 1%N)]] =
  Ok [([(0, 1%N); (1, 1%N)], [(0, 4%N); (1, 1%N)]); ([(0, 1%N)], [(0, 1%N)])].
Proof. vm_compute. reflexivity. Qed.

Example C91_ecdh_stores_example : ecdh_op_stores true 1 = Throw /\ ecdh_op_stores false 1 = Ok InMemory /\ ecdh_op_stores true 64 = Ok InBins.
Proof. repeat split. Qed.
