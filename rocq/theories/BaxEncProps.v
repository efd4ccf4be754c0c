(** Properties of Baxos::Solve, and of the RR22 OPRF that uses it. *)
From Coq Require Import List Arith NArith Bool Lia Permutation.
From Verif Require Import Base BaseProofs StoreModel GfModel GfSpec GfProofs GfProofs2 OkvsModel OkvsSpec OkvsProofs OkvsProofs2 OkvsProofs3 OkvsProofs4
  Rr22OprfModel Rr22OprfSpec Rr22OprfProofs Rr22OprfProps Rr22MatchModel Rr22MatchSpec Rr22MatchProps
  PaxEncModel PaxEncSpec PaxEncProofs PaxEncProofs5 PaxEncProofs6 PaxEncProofs9 PaxEncProofs10 PaxEncProps BaxEncModel BaxEncProofs BaxEncProofs2 BaxEncProofs3.
Import ListNotations.
Local Open Scope N_scope.

(** C63.  Whenever Solve into a zeroed table returns, Decode gives every key the value it
    was solved for, in order - any number of bins, any numbers of threads and CPUs on the
    two sides, any order in which the threads finish their bins. *)
Theorem C63_solve_decode : forall aes q avx avx' nb gmax num cap ipb threads threads' order inputs values P,
  (forall x, aes x < 2 ^ 128) -> (1 <= nb)%nat ->
  (1 <= ok_weight q <= 20)%nat -> N.of_nat (ok_weight q) <= ok_sparse q -> ok_sparse q <= 2 ^ 63 ->
  (ok_dt q = DGF128 -> 1 <= ok_dense q)%nat -> (ok_dt q = DBinary -> ok_dense q <= 64)%nat ->
  Forall (fun v => v < 2 ^ 128) values -> Permutation order (seq 0 nb) ->
  baxos_solve aes avx nb q gmax num cap ipb threads order inputs values (repeat 0 (nb * (N.to_nat (ok_sparse q) + ok_dense q))) = Ok P ->
  length P = (nb * (N.to_nat (ok_sparse q) + ok_dense q))%nat /\ Forall (fun x => x < 2 ^ 128) P /\
  (length inputs <= length values)%nat /\
  baxos_decode aes avx' nb q threads' P inputs = Ok (firstn (length inputs) values).
Proof.
  intros aes q avx avx' nb gmax num cap ipb threads threads' order inputs values P Ha Hnb Hw H2 H3 HG HB Hv Ho H.
  assert (Hq : param_ok (idx_width (ok_sparse q)) q) by (repeat split; try assumption; [lia|apply idx_width_ok; assumption]).
  assert (Hs : shape_ok 128 q).
  { unfold shape_ok. destruct (ok_dt q); split; try reflexivity; auto; discriminate. }
  destruct (Nat.eq_dec nb 1) as [E|E].
  - subst nb. rewrite Nat.mul_1_l in *. unfold baxos_solve in H. cbn [Nat.eqb] in H. apply enf_ok in H. destruct H as [_ H]. apply enf_ok in H. destruct H as [_ H].
    refine (C62_encode_decode aes q avx avx' _ (idx_width (ok_sparse q)) 128 gmax num inputs values P Ha _ H2 H3 _ _ _ Hv H).
    + lia.
    + apply idx_width_ok. assumption.
    + auto.
    + intros D. split; [lia|auto].
  - destruct (binned_decode aes nb q inputs values Hnb Ha Hq Hs Hv avx gmax num cap ipb threads order P avx' threads' E ltac:(lia) Ho H) as (A & B & C & D). auto.
Qed.
Print Assumptions C63_solve_decode.

(** C63.  The table does not depend on the number of threads, on the sizes of their
    buffers or on the order in which they finish. *)
Theorem C63_threads : forall aes q avx nb gmax num cap cap' ipb threads threads' order order' inputs values P P',
  (forall x, aes x < 2 ^ 128) -> (1 <= nb)%nat ->
  (1 <= ok_weight q <= 20)%nat -> N.of_nat (ok_weight q) <= ok_sparse q -> ok_sparse q <= 2 ^ 63 ->
  (ok_dt q = DGF128 -> 1 <= ok_dense q)%nat -> (ok_dt q = DBinary -> ok_dense q <= 64)%nat ->
  Forall (fun v => v < 2 ^ 128) values -> Permutation order (seq 0 nb) -> Permutation order' (seq 0 nb) ->
  let table := repeat 0 (nb * (N.to_nat (ok_sparse q) + ok_dense q)) in
  baxos_solve aes avx nb q gmax num cap ipb threads order inputs values table = Ok P ->
  baxos_solve aes avx nb q gmax num cap' ipb threads' order' inputs values table = Ok P' -> P = P'.
Proof.
  intros aes q avx nb gmax num cap cap' ipb threads threads' order order' inputs values P P' Ha Hnb Hw H2 H3 HG HB Hv Ho Ho' table H H'.
  assert (Hq : param_ok (idx_width (ok_sparse q)) q) by (repeat split; try assumption; [lia|apply idx_width_ok; assumption]).
  assert (Hs : shape_ok 128 q).
  { unfold shape_ok. destruct (ok_dt q); split; try reflexivity; auto; discriminate. }
  destruct (Nat.eq_dec nb 1) as [E|E].
  - unfold baxos_solve in H, H'. rewrite E in H, H'. cbn [Nat.eqb] in H, H'. congruence.
  - destruct (solve_slices aes nb q inputs values Hnb Ha Hq Hs Hv _ _ _ _ _ _ _ _ E Ho H) as (A & _ & B).
    destruct (solve_slices aes nb q inputs values Hnb Ha Hq Hs Hv _ _ _ _ _ _ _ _ E Ho' H') as (A' & _ & B').
    apply (slices_eq q nb); try assumption. intros b Hb. specialize (B b Hb). specialize (B' b Hb). congruence.
Qed.
Print Assumptions C63_threads.

(** C63.  Solve returns if in every bin the rows of its keys can be peeled, no column is in
    200 rows or more and two columns are to spare, and no bin gets more keys - from one
    thread or in all - than there is room for. *)
Theorem C63_peelable : forall aes q avx nb gmax cap ipb threads order inputs values,
  (forall x, aes x < 2 ^ 128) -> (2 <= nb)%nat ->
  (1 <= ok_weight q <= 20)%nat -> N.of_nat (ok_weight q) <= ok_sparse q -> ok_sparse q <= 2 ^ 63 ->
  ok_sparse q < 2 ^ idx_width (ok_sparse q) - 1 ->
  (ok_dt q = DGF128 -> 1 <= ok_dense q)%nat -> (ok_dt q = DBinary -> ok_dense q <= 64)%nat ->
  Forall (fun v => v < 2 ^ 128) values -> (length inputs <= length values)%nat -> Permutation order (seq 0 nb) ->
  (forall b, (b < nb)%nat -> exists rows,
     let keys := filter (fun x => Nat.eqb (bin_number nb (aes x)) b) inputs in
     omapM (build_row avx (idx_width (ok_sparse q)) q) (map aes keys) = Ok rows /\
     peelable rows /\ (forall c, column_below 200 rows c) /\
     N.of_nat (length keys) + 2 <= ok_sparse q /\ (length keys <= ipb)%nat) ->
  (forall i b, (i < Nat.max 1 threads)%nat -> (b < nb)%nat ->
     (length (filter (fun x => Nat.eqb (bin_number nb (aes x)) b) (par_slice (Nat.max 1 threads) i inputs)) <= cap)%nat) ->
  exists P, baxos_solve aes avx nb q gmax (length inputs) cap ipb threads order inputs values
    (repeat 0 (nb * (N.to_nat (ok_sparse q) + ok_dense q))) = Ok P.
Proof.
  intros aes q avx nb gmax cap ipb threads order inputs values Ha Hnb Hw H2 H3 Hwd HG HB Hv LV Ho Hb Hc.
  assert (Hq : param_ok (idx_width (ok_sparse q)) q) by (repeat split; try assumption; [lia|apply idx_width_ok; assumption]).
  assert (Hs : shape_ok 128 q).
  { unfold shape_ok. destruct (ok_dt q); split; try reflexivity; auto; discriminate. }
  assert (BN : forall h, bin_number nb h = bno nb h).
  { intros h. unfold bin_number, bno, bin_tail, bin_compress. rewrite !N.shiftr_div_pow2. reflexivity. }
  assert (Io : forall b, In b order -> (b < nb)%nat).
  { intros b X. apply (Permutation_in _ Ho) in X. apply in_seq in X. lia. }
  unfold baxos_solve. rewrite repeat_length, Nat.eqb_refl, Nat.leb_refl. cbn [enforce]. rewrite (proj2 (Nat.eqb_neq nb 1)) by lia. cbv zeta.
  rewrite (solve_is_prog aes nb inputs values ltac:(lia) Ha); try assumption; [|lia|].
  - apply (fold_prog q nb).
    + intros b r _ E. apply (core_len aes nb q inputs values Ha Hs Hv) in E; assumption.
    + apply (Permutation_NoDup (Permutation_sym Ho)). apply seq_NoDup.
    + intros b X. split; [auto|]. apply slice_zeros. auto.
    + apply repeat_length.
    + intros b X. apply Io in X. destruct (Hb b X) as (rows & E & Hp & Hcol & Hn & Hi).
      set (keys := filter (fun x => Nat.eqb (bin_number nb (aes x)) b) inputs) in *.
      assert (EK : map fst (bl aes nb inputs values b) = map aes keys).
      { unfold bl, keys, kvs. rewrite <- (number_snd _ inputs 0) at 2. generalize (number 0 inputs). intros l. clear - BN.
        induction l as [|ix l IH]; [reflexivity|]. cbn [map filter]. unfold inbin at 1. cbn [fst]. rewrite BN.
        destruct (Nat.eqb (bno nb (aes (snd ix))) b); cbn [map fst]; rewrite IH; reflexivity. }
      assert (LK : length (bl aes nb inputs values b) = length keys) by (rewrite <- (map_length fst), EK, map_length; reflexivity).
      assert (ER : rows = map (row_of q) (map aes keys)).
      { rewrite (omapM_ok _ _ _ (row_of q)) in E; [congruence|]. intros h Y. pose proof (aes_all aes keys Ha) as F. rewrite Forall_forall in F. apply build_row_ok; auto. }
      unfold bin_core. rewrite LK, (proj2 (Nat.leb_le _ _)) by assumption. cbn [enforce]. unfold paxos_init.
      rewrite (proj2 (N.ltb_lt _ _)) by assumption. rewrite (proj2 (N.leb_le _ _)) by lia. cbn [enforce bind]. unfold cast. rewrite N.mod_small by lia.
      rewrite Nat2N.id, Nat.eqb_refl. cbn [enforce].
      apply (solve_peel (idx_width (ok_sparse q))); try assumption.
      * rewrite EK. apply aes_all. assumption.
      * rewrite map_length, LK. lia.
      * rewrite !map_length. lia.
      * rewrite EK, <- ER. assumption.
      * rewrite EK, <- ER. assumption.
      * apply repeat_length.
  - intros i b Hi Hb'. specialize (Hc i b Hi Hb'). erewrite filter_ext; [exact Hc|]. intros x. cbv beta. rewrite BN. reflexivity.
Qed.
Print Assumptions C63_peelable.

(** C63.  Solve always stops. *)
Theorem C63_stops : forall aes q avx nb gmax num cap ipb threads order inputs values p,
  (forall x, aes x < 2 ^ 128) -> (1 <= nb)%nat ->
  (1 <= ok_weight q <= 20)%nat -> N.of_nat (ok_weight q) <= ok_sparse q -> ok_sparse q <= 2 ^ 63 ->
  Forall (fun b => (b < nb)%nat) order ->
  baxos_solve aes avx nb q gmax num cap ipb threads order inputs values p <> Diverge.
Proof.
  intros aes q avx nb gmax num cap ipb threads order inputs values p Ha Hnb Hw H2 H3 Ho.
  assert (Hq : param_ok (idx_width (ok_sparse q)) q) by (repeat split; try assumption; [lia|apply idx_width_ok; assumption]).
  unfold baxos_solve. apply enf_nodiv. intros _. apply enf_nodiv. intros _. destruct (Nat.eqb nb 1).
  { apply C62_stops; try assumption. lia. }
  cbv zeta. apply bind_nodiv.
  { apply omapM_nodiv. intros i _. unfold bx_thread, bx_key, bx_put. nodiv. }
  intros ths E. apply (threads_facts aes nb inputs values Hnb Ha) in E. destruct E as (L & _ & C). rewrite seq_length in L. unfold bx_bins. apply ofold_nodiv.
  intros b st X. apply bind_nodiv; [|discriminate]. rewrite Forall_forall in Ho. specialize (C b (Ho b X)). destruct C as [C1 C2].
  rewrite par_slices in C1 by lia. fold (bl aes nb inputs values b) in C1.
  rewrite (bin_is avx _ q gmax cap ipb); try assumption.
  - unfold bin_core. apply enf_nodiv. intros _. apply bind_nodiv; [unfold paxos_init; nodiv|]. intros n _. apply enf_nodiv. intros _.
    apply (solve_nodiv (idx_width (ok_sparse q))); [assumption|]. apply Forall_map. rewrite C1. apply bl_hash. assumption.
  - destruct ths; [cbn [length] in L; lia|discriminate].
  - rewrite C1. apply bl_hash. assumption.
Qed.
Print Assumptions C63_stops.

Lemma rr22_solve_ok : forall aes crh avx gmax cap ipb threads order t xs p,
  (forall x, aes x < 2 ^ 128) -> (forall x, crh x < 2 ^ 128) -> table_ok t -> Permutation order (seq 0 (t_bins t)) ->
  rr22_solve aes avx gmax cap ipb threads order t xs (map (item_hash crh t) xs) = Ok p ->
  length p = t_size t /\ Forall (fun v => v < 2 ^ 128) p /\ decode_table aes avx threads t p xs = Ok (map (item_hash crh t) xs).
Proof.
  intros aes crh avx gmax cap ipb threads order t xs p Ha Hc Ht Ho E.
  assert (HI : Forall (fun v => v < 2 ^ 128) (map (item_hash crh t) xs)).
  { apply Forall_forall. intros v X. apply in_map_iff in X. destruct X as (x & <- & _). apply item_hash_below. assumption. }
  pose proof Ht as (T1 & T2 & T3 & T4 & T5). unfold rr22_solve in E. unfold t_size, decode_table in *. destruct (t_mode t).
  - destruct T5 as [T5 T6].
    apply (fun A1 A2 => C63_solve_decode aes (t_param t) avx avx _ gmax (length xs) cap ipb threads threads order xs _ p Ha T4 T1 T2 T3 A1 A2 HI Ho) in E;
      [|auto|intros X; congruence].
    destruct E as (A & B & _ & D). rewrite firstn_all2 in D by (rewrite map_length; lia). auto.
  - destruct T5 as (T5 & T6 & T7).
    apply (fun A1 A2 A3 A4 => C62_encode_decode aes (t_param t) avx avx 32 32 128 gmax (length xs) xs _ p Ha A1 T2 T3 A2 A3 A4 HI) in E;
      [|lia|assumption|intros X; congruence|intros _; split; [lia|assumption]].
    destruct E as (A & B & _ & D). rewrite firstn_all2 in D by (rewrite map_length; lia). auto.
Qed.

(** C63 with C27: with the solver of the code - Baxos in fast mode, Paxos in
    low-communication mode - a run of the RR22 OPRF gives both sides the values of one
    function on their items if the solver returns, and does not return if it does not. *)
Theorem C63_oprf : forall aes crh dm ro avx gmax cap ipb threads order t malicious wr ws delta a b c avxR threadsR xs avxS threadsS ys,
  (forall x, aes x < 2 ^ 128) -> (forall x, crh x < 2 ^ 128) ->
  table_ok t -> delta < 2 ^ 128 -> vole delta a b c -> (t_size t <= length b)%nat -> Permutation order (seq 0 (t_bins t)) ->
  let solve := rr22_solve aes avx gmax cap ipb threads order in
  let run := run_oprf aes crh dm ro solve t malicious wr ws delta a b c avxR threadsR xs avxS threadsS ys in
  (exists F : N -> N, run = Ok (map F xs, map F ys)) \/ (forall oR oS, run <> Ok (oR, oS)) /\ forall p, solve t xs (map (item_hash crh t) xs) <> Ok p.
Proof.
  intros aes crh dm ro avx gmax cap ipb threads order t malicious wr ws delta a b c avxR threadsR xs avxS threadsS ys Ha Hc Ht Hd HV HL Ho solve run.
  destruct (solve t xs (map (item_hash crh t) xs)) as [p| | |] eqn:E.
  2-4: right; split; [intros oR oS; unfold run, run_oprf; rewrite E; discriminate|discriminate].
  left. destruct (rr22_solve_ok aes crh avx gmax cap ipb threads order t xs p Ha Hc Ht Ho E) as (A & B & D).
  apply (C27_same_function aes crh dm ro solve t malicious wr ws delta a b c avxR threadsR xs avxS threadsS ys p); try assumption.
  exists avx, threads. exact D.
Qed.
Print Assumptions C63_oprf.

(** C63 with C29: the OPRF and the matching together, with the solver of the code. *)
Theorem C63_psi : forall aes crh dm ro avx gmax cap ipb threads order t malicious wr ws delta a b c avxR threadsR xs avxS threadsS ys oR oS m bc cx cy ranges,
  (forall x, aes x < 2 ^ 128) -> (forall x, crh x < 2 ^ 128) ->
  table_ok t -> delta < 2 ^ 128 -> vole delta a b c -> (t_size t <= length b)%nat -> Permutation order (seq 0 (t_bins t)) ->
  run_oprf aes crh dm ro (rr22_solve aes avx gmax cap ipb threads order) t malicious wr ws delta a b c avxR threadsR xs avxS threadsS ys = Ok (oR, oS) ->
  (1 <= m <= 16)%nat -> length cx = length xs -> NoDup xs -> covers (length ys) ranges ->
  Forall (fun v => v < 2 ^ 128) oR -> Forall (fun v => v < 2 ^ 128) oS ->
  let trunc v := v mod 2 ^ (8 * N.of_nat m) in
  Forall (fun v => trunc v <> 0) oR -> Forall (fun v => trunc v <> 0) oS ->
  (forall i j x y u v, nth_error (xs ++ ys) i = Some x -> nth_error (oR ++ oS) i = Some u ->
     nth_error (xs ++ ys) j = Some y -> nth_error (oR ++ oS) j = Some v -> trunc u = trunc v -> x = y) ->
  exists r M, match_run m bc oR cx oS cy ranges = Ok r /\
    NoDup M /\ (forall i j, In (i, j) M <-> exists x, nth_error xs i = Some x /\ nth_error ys j = Some x) /\
    res_self r = map fst M /\
    res_peer_cnt r = map (fun q => nth (snd q) cy 0%N) M /\
    (if bc then res_sender r = map snd M /\ res_sender_cnt r = map (fun q => nth (fst q) cx 0%N) M
     else res_sender r = [] /\ res_sender_cnt r = []).
Proof.
  intros aes crh dm ro avx gmax cap ipb threads order t mal wr ws delta a b c aR tR xs aS tS ys oR oS m bc cx cy ranges
    Ha Hc Ht Hd HV HL Ho HR Hm Lx ND HC BR BS trunc ZR ZS Hinj.
  pose proof HR as HR'. unfold run_oprf in HR'. apply bind_ok in HR'. destruct HR' as (p & E & _).
  destruct (rr22_solve_ok aes crh avx gmax cap ipb threads order t xs p Ha Hc Ht Ho E) as (A & B & D).
  apply (C29_end_to_end aes crh dm ro (rr22_solve aes avx gmax cap ipb threads order) t mal wr ws delta a b c aR tR xs aS tS ys p); try assumption.
  exists avx, threads. exact D.
Qed.
Print Assumptions C63_psi.

(** It is not true that Solve always returns or throws: however much room there is for the
    keys a thread puts into a bin, keys that all fall into one bin are written past it by
    the main loop; only the last keys, fewer than 32, are checked. *)
Lemma overflow_ub : forall aes nb cap values b l bins,
  (forall ix, In ix l -> (fst ix < length values)%nat /\ bin_main (N.of_nat nb) (aes (snd ix)) = N.of_nat b) -> (b < length bins)%nat ->
  (length (nth b bins []) <= cap)%nat -> (cap < length (nth b bins []) + length l)%nat ->
  ofold (bx_key aes false nb cap values) l bins = UB.
Proof.
  intros aes nb cap values b l. induction l as [|ix l IH]; intros bins Hl Hb Hc Hn; [cbn [length] in Hn; lia|].
  cbn [ofold]. destruct (Hl ix (or_introl eq_refl)) as [V M]. unfold bx_key at 1. unfold vget at 1.
  destruct (nth_error values (fst ix)) as [v|] eqn:E; [|apply nth_error_None in E; lia]. cbn [bind]. rewrite M. unfold bx_put, vget. rewrite Nat2N.id.
  rewrite (nth_error_nth' bins [] Hb). cbn [bind]. destruct (Nat.ltb_spec (length (nth b bins [])) cap) as [L|L].
  - unfold vset. rewrite (proj2 (Nat.ltb_lt _ _) Hb). cbn [bind]. apply IH.
    + intros iy Y. apply Hl. right. assumption.
    + rewrite upd_len. assumption.
    + rewrite (upd_same _ []) by assumption. rewrite app_length. cbn [length]. lia.
    + rewrite (upd_same _ []) by assumption. rewrite app_length. cbn [length] in *. lia.
  - reflexivity.
Qed.

Theorem C63_overflow_refuted : forall cap, N.of_nat cap < 2 ^ 32 -> exists aes q avx inputs values order,
  (forall x, aes x < 2 ^ 128) /\ (forall x y, x < 2 ^ 128 -> y < 2 ^ 128 -> aes x = aes y -> x = y) /\
  NoDup inputs /\ Forall (fun x => x < 2 ^ 128) inputs /\ length values = length inputs /\ Permutation order (seq 0 2) /\
  baxos_solve aes avx 2 q 0 (length inputs) cap (length inputs) 1 order inputs values (repeat 0 (2 * (N.to_nat (ok_sparse q) + ok_dense q))) = UB.
Proof.
  intros cap Hcap. set (n := (32 * (cap + 1))%nat). set (inputs := map (fun i => 2 * N.of_nat i) (seq 0 n)).
  assert (SM : forall x, In x inputs -> x < 2 ^ 64 /\ x mod 2 = 0).
  { intros x X. apply in_map_iff in X. destruct X as (i & <- & X). apply in_seq in X. split; [unfold n in X; lia|]. rewrite N.mul_comm. apply N.mod_mul. lia. }
  assert (Ln : length inputs = n) by (unfold inputs; rewrite map_length, seq_length; reflexivity).
  exists (fun x => x mod 2 ^ 128), (mk_okvs 3 60 2 DGF128), true, inputs, inputs, [0; 1]%nat.
  split; [intros x; apply N.mod_lt; discriminate|]. split; [intros x y X Y E; rewrite !N.mod_small in E; assumption|]. split; [|split; [|split; [reflexivity|split; [apply Permutation_refl|]]]].
  - apply FinFun.Injective_map_NoDup; [|apply seq_NoDup]. intros i j E. lia.
  - apply Forall_forall. intros x X. destruct (SM x X) as [A _]. lia.
  - unfold baxos_solve. rewrite repeat_length, Nat.eqb_refl, Nat.leb_refl. cbn [enforce Nat.eqb]. cbv zeta. change (Nat.max 1 1) with 1%nat. cbn [seq omapM].
    assert (PS : par_slice 1 0 inputs = inputs).
    { pose proof (par_slices _ 1 inputs (le_n 1)) as E. cbn [seq map concat] in E. rewrite app_nil_r in E. exact E. }
    rewrite PS. unfold bx_thread. replace (length inputs / 32 * 32)%nat with n.
    2:{ rewrite Ln. unfold n. rewrite Nat.mul_comm, Nat.div_mul by lia. reflexivity. }
    rewrite firstn_all2 by lia. rewrite (overflow_ub _ 2 cap inputs 0); [reflexivity| |cbn; lia|cbn; lia|].
    + intros ix X. rewrite Nat.mul_0_r, Nat.div_0_l in X by lia. split.
      * rewrite (PaxEncProofs2.number_seq _ 0) in X. apply in_map_iff in X. destruct X as (i & <- & X). apply in_seq in X. cbn [fst]. lia.
      * assert (In (snd ix) inputs) as Y by (rewrite <- (number_snd _ inputs 0); apply in_map; exact X).
        destruct (SM _ Y) as [A B]. assert (A' : snd ix < 2 ^ 128) by lia. rewrite N.mod_small by assumption. rewrite bin_main_is by (try assumption; reflexivity).
        unfold bin_tail, bin_compress. rewrite !N.shiftr_div_pow2. rewrite (N.mod_small _ _ A), !N.div_small, !N.lxor_0_r by lia. exact B.
    + cbn [repeat nth length]. rewrite number_length, Ln. unfold n. lia.
Qed.
Print Assumptions C63_overflow_refuted.

(** C63.  The index type is chosen so that it holds the number of sparse columns itself, but Init
    asks for one more: a table with 255 sparse columns per bin (or 65535, or 2^32 - 1) is
    refused whatever the keys, while 254 and 256 are fine. *)
Theorem C63_index_type_full : forall aes avx nb q gmax num cap ipb threads order inputs values p,
  ok_sparse q = 255 \/ ok_sparse q = 65535 \/ ok_sparse q = 2 ^ 32 - 1 -> order <> [] -> 
  forall P, baxos_solve aes avx nb q gmax num cap ipb threads order inputs values p <> Ok P.
Proof.
  intros aes avx nb q gmax num cap ipb threads order inputs values p Hs Ho P H.
  assert (I : forall n, paxos_init (idx_width (ok_sparse q)) q n = Throw) by (intros n; unfold paxos_init; destruct Hs as [E|[E|E]]; rewrite E; reflexivity).
  unfold baxos_solve in H. apply enf_ok in H. destruct H as [_ H]. apply enf_ok in H. destruct H as [_ H]. destruct (Nat.eqb nb 1).
  - unfold paxos_encode in H. rewrite I in H. discriminate.
  - cbv zeta in H. apply bind_ok in H. destruct H as (ths & _ & H). destruct order as [|b order]; [contradiction|].
    unfold bx_bins in H. cbn [ofold] in H. apply bind_ok in H. destruct H as (p' & H & _). apply bind_ok in H. destruct H as (part & H & _).
    unfold bx_bin in H. cbv zeta in H. apply enf_ok in H. destruct H as [_ H]. rewrite I in H. discriminate.
Qed.
Print Assumptions C63_index_type_full.

Definition bx_keys : list N := map N.of_nat (seq 100 40).
Definition bx_vals : list N := map (fun x => x * 1000003) bx_keys.
(** Forty keys in three bins of 60 + 2 columns, solved by one thread and by four, decoded
    by two. *)
Example C63_example :
  (do P <- baxos_solve ex_aes true 3 (mk_okvs 3 60 2 DGF128) 0 40 40 40 1 [0; 1; 2]%nat bx_keys bx_vals (repeat 0 186);
   do P' <- baxos_solve ex_aes true 3 (mk_okvs 3 60 2 DGF128) 0 40 12 40 4 [2; 0; 1]%nat bx_keys bx_vals (repeat 0 186);
   do d <- baxos_decode ex_aes false 3 (mk_okvs 3 60 2 DGF128) 2 P' bx_keys;
   Ok (if list_eq_dec N.eq_dec P P' then true else false, map (fun b => length (filter (fun x => Nat.eqb (bin_number 3 (ex_aes x)) b) bx_keys)) [0; 1; 2]%nat, d)) = Ok (true, [18; 15; 7]%nat, bx_vals).
Proof. vm_compute. reflexivity. Qed.

(** Three keys in two bins meet the hypotheses of C63_peelable. *)
Example C63_peelable_example :
  let q := mk_okvs 3 14 3 DGF128 in let inputs := [5; 6; 7] in
  forall b, (b < 2)%nat -> exists rows,
    let keys := filter (fun x => Nat.eqb (bin_number 2 (ex_aes x)) b) inputs in
    omapM (build_row true (idx_width (ok_sparse q)) q) (map ex_aes keys) = Ok rows /\
    peelable rows /\ (forall c, column_below 200 rows c) /\ N.of_nat (length keys) + 2 <= ok_sparse q /\ (length keys <= 3)%nat.
Proof.
  assert (B2 : forall (rows : list (list N)) c, (length rows <= 2)%nat -> column_below 200 rows c).
  { intros rows c L U D H. assert (X : incl U (seq 0 2)) by (intros r I; apply in_seq; specialize (H r I); destruct H as [H _]; lia).
    apply NoDup_incl_length in X; [|assumption]. rewrite seq_length in X. lia. }
  intros q inputs b Hb. destruct b as [|[|b]]; [| |lia]; eexists; cbv zeta; (split; [vm_compute; reflexivity|]).
  all: split; [|split; [intros c; apply B2; cbn; lia|split; vm_compute; [discriminate|lia]]].
  all: intros U UN UD UB.
  all: assert (B : forall r, In r U -> r = 0%nat \/ r = 1%nat) by (intros r I; specialize (UB r I); cbn in UB; lia).
  all: assert (X : In 0%nat U \/ In 1%nat U) by (destruct U as [|r U]; [contradiction|]; destruct (B r (or_introl eq_refl)) as [->| ->]; [left|right]; left; reflexivity).
  - destruct X as [X|X]; [exists 12, 0%nat|exists 4, 1%nat]; (split; [assumption|]); (split; [cbn; tauto|]);
      intros r' I J; destruct (B r' I) as [->| ->]; cbn in J; intuition discriminate.
  - destruct X as [X|X]; [|specialize (UB _ X); cbn in UB; lia]. exists 0, 0%nat. split; [assumption|]. split; [cbn; tauto|].
    intros r' I J. specialize (UB r' I). cbn in UB. lia.
Qed.

(** Receiver's items 5, 6, 7, sender's 8, 6: malicious mode with two bins, and low
    communication; item 6 gets one value on both sides, item 8 none of the receiver's. *)
Example C63_oprf_example :
  let crh x := (x * 0x2545f4914f6cdd1d + 12345) mod 2 ^ 128 in
  let dm v x := N.lxor (crh v) (N.lxor x v) in
  let a := map (fun i => 1000 + N.of_nat i) (seq 0 34) in
  let c := map (fun i => 77 * N.of_nat i + 2 ^ 100) (seq 0 34) in
  let delta := 0xdeadbeef in
  let b := zip_with (fun ci ai => N.lxor ci (gf_mul true delta ai)) c a in
  map (fun t =>
    match run_oprf ex_aes crh dm (fun x => x + 1) (rr22_solve ex_aes true 4 3 3 2 (seq 0 (t_bins t))) t (match t_mode t with FastMode => true | _ => false end)
      3 9 delta a b c true 2 [5; 6; 7] false 4 [8; 6] with
    | Ok (rs, [s8; s6]) => (length rs, map (N.eqb s6) rs, map (N.eqb s8) rs)
    | _ => (0%nat, [], [])
    end) [mk_table (mk_okvs 3 14 3 DGF128) 2 FastMode; mk_table (mk_okvs 3 14 10 DBinary) 1 LowCommMode] =
  [(3%nat, [false; true; false], [false; false; false]); (3%nat, [false; true; false], [false; false; false])].
Proof. vm_compute. reflexivity. Qed.
