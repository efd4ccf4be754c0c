(** Lemmas about Baxos::Solve: what it returns decodes to the values; when it returns; it
    does not depend on the threads. *)
From Coq Require Import List Arith NArith Bool Lia Permutation.
From Verif Require Import Base BaseProofs StoreModel GfModel GfSpec GfProofs GfProofs2 OkvsModel OkvsSpec OkvsProofs OkvsProofs2 OkvsProofs3 OkvsProofs4
  PaxEncModel PaxEncSpec PaxEncProofs PaxEncProofs2 PaxEncProofs5 PaxEncProofs6 PaxEncProofs8 PaxEncProofs9 PaxEncProofs10 BaxEncModel BaxEncProofs BaxEncProofs2.
Import ListNotations.
Local Open Scope nat_scope.

Lemma zeros0 : forall n i, at0 (repeat 0%N n) i = 0%N.
Proof. intros n. induction n as [|n IH]; intros [|i]; cbn; auto. apply IH. Qed.
Lemma seq_ne : forall T, 1 <= T -> seq 0 T <> [].
Proof. intros [|T] H; [lia|discriminate]. Qed.

Lemma at0_fst : forall l r, at0 (map fst l) r = fst (nth r l (0%N, 0%N)).
Proof. intros l r. apply (map_nth fst l (0%N, 0%N) r). Qed.
Lemma at0_snd : forall l r, at0 (map snd l) r = snd (nth r l (0%N, 0%N)).
Proof. intros l r. apply (map_nth snd l (0%N, 0%N) r). Qed.

Section Threads.
Variables (aes : N -> N) (nb : nat) (inputs values : list N).
Hypothesis Hnb : 1 <= nb.
Hypothesis Ha : forall x, (aes x < 2 ^ 128)%N.

(** The pairs of bin b, in the order of the inputs. *)
Definition bl (b : nat) : list (N * N) := filter (inbin nb b) (kvs aes values (number 0 inputs)).
Lemma bl_hash : forall b, Forall (fun hv => (fst hv < 2 ^ 128)%N) (bl b).
Proof using Ha.
  intros b. apply Forall_forall. intros hv X. apply filter_In in X. destruct X as [X _]. apply in_map_iff in X. destruct X as (y & <- & _). apply Ha.
Qed.

Lemma threads_facts : forall cap T l ths,
  omapM (fun i => bx_thread aes nb cap values (length inputs * i / T) (par_slice T i inputs)) l = Ok ths ->
  length ths = length l /\
  Forall (fun ix => fst ix < length values) (concat (map (fun i => par_slice T i (number 0 inputs)) l)) /\
  forall b, b < nb -> concat (map (fun bins => nth b bins []) ths) = filter (inbin nb b) (kvs aes values (concat (map (fun i => par_slice T i (number 0 inputs)) l))) /\
    Forall (fun l => length l <= cap) (map (fun bins => nth b bins []) ths).
Proof using Hnb Ha.
  intros cap T l. induction l as [|i l IH]; intros ths H.
  - cbn in H. injection H as <-. split; [reflexivity|]. split; [constructor|]. intros b _. split; [reflexivity|constructor].
  - cbn [omapM] in H. apply bind_ok in H. destruct H as (bins & E & H). apply bind_ok in H. destruct H as (ths' & E' & H). injection H as <-.
    destruct (IH _ E') as (A & B & C). apply thread_facts in E; try assumption. destruct E as (D & F & G). rewrite number_slice in F, G.
    split; [cbn; f_equal; assumption|]. cbn [map concat]. split; [apply Forall_app; split; assumption|].
    intros b Hb. destruct (C b Hb) as [C1 C2]. destruct (G b Hb) as [G1 G2]. split; [|constructor; assumption].
    rewrite C1, G1. unfold kvs. rewrite map_app, filter_app. reflexivity.
Qed.
Lemma threads_prog : forall cap T, length inputs <= length values ->
  (forall i b, i < T -> b < nb -> length (filter (fun x => bno nb (aes x) =? b) (par_slice T i inputs)) <= cap) ->
  exists ths, omapM (fun i => bx_thread aes nb cap values (length inputs * i / T) (par_slice T i inputs)) (seq 0 T) = Ok ths.
Proof using Hnb Ha.
  intros cap T LV H. apply omapM_prog. intros i X. apply in_seq in X. apply thread_prog; try assumption.
  - rewrite number_slice. apply Forall_forall. intros [j x] Y. cbn [fst]. unfold par_slice in Y.
    assert (In (j, x) (number 0 inputs)).
    { match type of Y with In _ (firstn ?k ?m) => rewrite <- (firstn_skipn (length (number 0 inputs) * i / T) (number 0 inputs)); apply in_or_app; right;
        rewrite <- (firstn_skipn k m); apply in_or_app; left; assumption end. }
    apply number_in in H0. destruct H0 as [_ H0]. rewrite Nat.sub_0_r in H0. assert (j < length inputs) by (apply nth_error_Some; congruence). lia.
  - intros b Hb. specialize (H i b ltac:(lia) Hb). rewrite <- (number_snd _ (par_slice T i inputs) (length inputs * i / T)) in H.
    unfold kvs. revert H. generalize (number (length inputs * i / T) (par_slice T i inputs)). intros l H.
    assert (E : length (filter (inbin nb b) (map (fun ix => (aes (snd ix), at0 values (fst ix))) l)) = length (filter (fun x => bno nb (aes x) =? b) (map snd l))); [|lia].
    clear. induction l as [|ix l IH]; [reflexivity|]. cbn [map filter]. unfold inbin at 1. cbn [fst]. destruct (bno nb (aes (snd ix)) =? b); cbn [length]; rewrite IH; reflexivity.
Qed.

(** The binned part of Solve, without threads. *)
Lemma solve_is : forall avx w q gmax cap ipb T order p, param_ok w q -> 1 <= T -> (forall b, In b order -> b < nb) ->
  forall P, (do ths <- omapM (fun i => bx_thread aes nb cap values (length inputs * i / T) (par_slice T i inputs)) (seq 0 T);
     bx_bins avx w q gmax cap ipb ths order p) = Ok P ->
  Forall (fun ix => fst ix < length values) (number 0 inputs) /\
  bins_fold q (fun b out => bin_core avx w q gmax ipb (bl b) out) order p = Ok P.
Proof using Hnb Ha.
  intros avx w q gmax cap ipb T order p Hq HT Ho P H. apply bind_ok in H. destruct H as (ths & E & H).
  apply threads_facts in E. destruct E as (A & B & C). rewrite par_slices in B by assumption. split; [assumption|].
  change (bx_bins avx w q gmax cap ipb ths order p) with (bins_fold q (fun b out => bx_bin avx w q gmax cap ipb (map (fun bins => nth b bins []) ths) out) order p) in H.
  rewrite <- H. symmetry. apply bins_ext. intros b Ib out. destruct (C b (Ho b Ib)) as [C1 C2]. rewrite par_slices in C1 by assumption.
  rewrite (bin_is avx w q gmax cap ipb (map (fun bins => nth b bins []) ths) out); try assumption.
  - rewrite C1. reflexivity.
  - rewrite seq_length in A. destruct ths; [cbn in A; lia|discriminate].
  - rewrite C1. apply bl_hash.
Qed.
Lemma solve_is_prog : forall avx w q gmax cap ipb T order p, param_ok w q -> 1 <= T -> (forall b, In b order -> b < nb) ->
  length inputs <= length values ->
  (forall i b, i < T -> b < nb -> length (filter (fun x => bno nb (aes x) =? b) (par_slice T i inputs)) <= cap) ->
  (do ths <- omapM (fun i => bx_thread aes nb cap values (length inputs * i / T) (par_slice T i inputs)) (seq 0 T);
   bx_bins avx w q gmax cap ipb ths order p) = bins_fold q (fun b out => bin_core avx w q gmax ipb (bl b) out) order p.
Proof using Hnb Ha.
  intros avx w q gmax cap ipb T order p Hq HT Ho LV Hc. destruct (threads_prog cap T LV Hc) as [ths E]. rewrite E. cbn [bind].
  apply threads_facts in E. destruct E as (A & B & C).
  change (bx_bins avx w q gmax cap ipb ths order p) with (bins_fold q (fun b out => bx_bin avx w q gmax cap ipb (map (fun bins => nth b bins []) ths) out) order p).
  apply bins_ext. intros b Ib out. destruct (C b (Ho b Ib)) as [C1 C2]. rewrite par_slices in C1 by assumption.
  rewrite (bin_is avx w q gmax cap ipb (map (fun bins => nth b bins []) ths) out); try assumption.
  - rewrite C1. reflexivity.
  - rewrite seq_length in A. destruct ths; [cbn in A; lia|discriminate].
  - rewrite C1. apply bl_hash.
Qed.
End Threads.

Lemma core_solved : forall avx w q gmax ipb l r, param_ok w q -> shape_ok 128 q -> Forall (fun hv => (fst hv < 2 ^ 128)%N) l ->
  Forall (fun hv => (snd hv < 2 ^ 128)%N) l ->
  bin_core avx w q gmax ipb l (repeat 0%N (N.to_nat (ok_sparse q) + ok_dense q)) = Ok r -> solved 128 q (map fst l) (map snd l) r.
Proof.
  intros avx w q gmax ipb l r Hq Hs Hh Hv H. unfold bin_core in H. apply enf_ok in H. destruct H as [_ H]. apply bind_ok in H. destruct H as (n & _ & H).
  apply enf_ok in H. destruct H as [_ H]. apply (solve_facts w 128 q (map fst l) (map snd l)) in H; try assumption.
  - apply Forall_map. assumption.
  - apply Forall_map. assumption.
  - apply zeros0.
Qed.

Section Whole.
Variables (aes : N -> N) (nb : nat) (q : okvs_param) (inputs values : list N).
Hypothesis Hnb : 1 <= nb.
Hypothesis Ha : forall x, (aes x < 2 ^ 128)%N.
Hypothesis Hq : param_ok (idx_width (ok_sparse q)) q.
Hypothesis Hsh : shape_ok 128 q.
Hypothesis Hv : Forall (fun v => (v < 2 ^ 128)%N) values.
Local Notation per := (N.to_nat (ok_sparse q) + ok_dense q).

Lemma bl_vals : forall b, Forall (fun hv => (snd hv < 2 ^ 128)%N) (bl aes nb inputs values b).
Proof using Hv.
  intros b. apply Forall_forall. intros hv X. apply filter_In in X. destruct X as [X _]. apply in_map_iff in X. destruct X as (y & <- & _). cbn [snd].
  apply (below_nth 128%N values (fst y)). assumption.
Qed.
Lemma core_len : forall avx w gmax ipb b r, param_ok w q -> bin_core avx w q gmax ipb (bl aes nb inputs values b) (repeat 0%N per) = Ok r -> length r = per.
Proof using Ha Hsh Hv.
  intros avx w gmax ipb b r Hqw H. apply core_solved in H; try assumption; [apply H|apply bl_hash; assumption|apply bl_vals].
Qed.

Lemma solve_slices : forall avx gmax num cap ipb threads order P, nb <> 1 -> Permutation order (seq 0 nb) ->
  baxos_solve aes avx nb q gmax num cap ipb threads order inputs values (repeat 0%N (nb * per)) = Ok P ->
  length P = nb * per /\ length inputs <= length values /\
  forall b, b < nb -> bin_core avx (idx_width (ok_sparse q)) q gmax ipb (bl aes nb inputs values b) (repeat 0%N per) = Ok (bin_slice q P b).
Proof using Hnb Ha Hq Hsh Hv.
  intros avx gmax num cap ipb threads order P N1 Ho H. unfold baxos_solve in H. apply enf_ok in H. destruct H as [_ H]. apply enf_ok in H. destruct H as [_ H].
  rewrite (proj2 (Nat.eqb_neq _ _) N1) in H.
  assert (HT : 1 <= Nat.max 1 threads) by lia. revert H HT. generalize (Nat.max 1 threads). intros T H HT. 
  assert (Io : forall b, In b order <-> b < nb).
  { intros b. split; intros X.
    - apply (Permutation_in _ Ho) in X. apply in_seq in X. lia.
    - apply (Permutation_in _ (Permutation_sym Ho)). apply in_seq. lia. }
  destruct (solve_is aes nb inputs values Hnb Ha avx _ q gmax cap ipb T order (repeat 0%N (nb * per)) Hq HT (fun b X => proj1 (Io b) X) P H) as [LV F].
  apply (fold_facts q nb) in F.
  - destruct F as (A & B & _). split; [assumption|]. split.
    + rewrite Forall_forall in LV. destruct (Nat.eq_dec (length inputs) 0) as [E|E]; [lia|].
      destruct (nth_error inputs (length inputs - 1)) as [x|] eqn:X; [|apply nth_error_None in X; lia].
      assert (Y : In (length inputs - 1, x) (number 0 inputs)) by (apply number_in; split; [lia|rewrite Nat.sub_0_r; assumption]).
      specialize (LV _ Y). cbn in LV. lia.
    + intros b Hb. apply B. apply Io. assumption.
  - intros b r _ E. apply core_len in E; assumption.
  - apply (Permutation_NoDup (Permutation_sym Ho)). apply seq_NoDup.
  - intros b X. apply Io in X. split; [assumption|]. apply slice_zeros. assumption.
  - apply repeat_length.
Qed.

Lemma slices_below : forall P, (forall b, b < nb -> all_below 128 (bin_slice q P b)) -> length P = nb * per -> all_below 128 P.
Proof using Hnb.
  intros P H L. apply Forall_forall. intros x X. apply (In_nth _ _ 0%N) in X. destruct X as (k & Hk & <-). rewrite L in Hk.
  assert (Z : per <> 0) by (intros X; rewrite X in Hk; lia).
  pose proof (Nat.div_mod k per Z) as E. pose proof (Nat.mod_upper_bound k per Z) as M.
  assert (B : k / per < nb) by (apply Nat.div_lt_upper_bound; lia).
  replace k with (k / per * per + k mod per) by lia. rewrite <- slice_nth by assumption. apply below_nth. apply H. assumption.
Qed.
Lemma binned_decode : forall avx gmax num cap ipb threads order P avx' threads', nb <> 1 -> ok_weight q <= 20 -> Permutation order (seq 0 nb) ->
  baxos_solve aes avx nb q gmax num cap ipb threads order inputs values (repeat 0%N (nb * per)) = Ok P ->
  length P = nb * per /\ all_below 128 P /\ length inputs <= length values /\
  baxos_decode aes avx' nb q threads' P inputs = Ok (firstn (length inputs) values).
Proof using Hnb Ha Hq Hsh Hv.
  intros avx gmax num cap ipb threads order P avx' threads' N1 H20 Ho H.
  destruct (solve_slices _ _ _ _ _ _ _ _ N1 Ho H) as (L & LV & S). split; [assumption|].
  assert (SB : forall b, b < nb -> solved 128 q (map fst (bl aes nb inputs values b)) (map snd (bl aes nb inputs values b)) (bin_slice q P b)).
  { intros b Hb. apply (core_solved avx _ q gmax ipb _ _ Hq Hsh); [apply bl_hash; assumption|apply bl_vals|auto]. }
  assert (BP : all_below 128 P).
  { apply slices_below; [|assumption]. intros b Hb. apply all_below_at. apply SB. assumption. }
  split; [assumption|]. split; [assumption|].
  destruct Hq as (Q1 & Q2 & Q3 & Q4).
  rewrite baxos_decode_ok by (try assumption; lia). f_equal. apply (nth_ext _ _ 0%N 0%N).
  - rewrite map_length, firstn_length. lia.
  - rewrite map_length. intros i Hi. rewrite nth_firstn0. destruct (Nat.ltb_spec i (length inputs)); [|lia].
    destruct (nth_error inputs i) as [x|] eqn:X; [|apply nth_error_None in X; lia].
    rewrite (nth_error_nth (map _ _) i 0%N (x := cv avx' nb q P (aes x))) by (rewrite nth_error_map, X; reflexivity).
    set (b := bno nb (aes x)). assert (Hb : b < nb) by (apply bno_lt; assumption).
    assert (I : In (aes x, at0 values i) (bl aes nb inputs values b)).
    { apply filter_In. split; [|unfold inbin; cbn [fst]; apply Nat.eqb_refl]. unfold kvs.
      change (aes x, at0 values i) with ((fun ix => (aes (snd ix), at0 values (fst ix))) (i, x)). apply (in_map (fun ix : nat * N => (aes (snd ix), at0 values (fst ix)))).
      apply number_in. rewrite Nat.sub_0_r. split; [lia|assumption]. }
    apply (In_nth _ _ (0%N, 0%N)) in I. destruct I as (r & Hr & E). destruct (SB b Hb) as (_ & _ & S3). rewrite map_length in S3. destruct (S3 r Hr) as [_ K].
    rewrite at0_fst, at0_snd, E in K. cbn [fst snd] in K.
    unfold cv. fold b. rewrite (key_val_ext (gf_mul avx') (gf_mul true)); [exact K|apply gf_is_mul|apply gf_is_mul|apply slice_below; assumption|apply Ha].
Qed.
End Whole.
