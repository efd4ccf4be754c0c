(** C28 and C29: transfer of truncated OPRF values and matching in RR22. *)
From Coq Require Import List NArith Arith Bool Lia Sorting.Permutation.
From Verif Require Import Base Rr22OprfModel Rr22OprfSpec Rr22OprfProofs Rr22OprfProps
  OkvsModel Rr22MatchModel Rr22MatchSpec Rr22MatchProofs.
Import ListNotations.
Local Open Scope N_scope.

(** C28: whatever the mask size and the chunk size, the receiver reads for item j the low
    mask_size bytes of the sender's value j, from the single message as well as from the
    chunks (all of which it consumes), and its own map uses the same bytes. *)
Theorem C28_truncated_transport : forall m chunk oprfs,
  (1 <= m <= 16)%nat -> (1 <= chunk)%nat -> Forall (fun v => v < 2 ^ 128) oprfs ->
  length (sender_bytes m oprfs) = (length oprfs * m)%nat /\
  receiver_buffer (length oprfs) m (sender_chunks chunk m oprfs) = Ok (sender_bytes m oprfs, []) /\
  forall j v, nth_error oprfs j = Some v ->
    read_item m (sender_bytes m oprfs) j = v mod 2 ^ (8 * N.of_nat m) /\
    map_key m v = v mod 2 ^ (8 * N.of_nat m).
Proof.
  intros m chunk oprfs Hm Hc HB. rewrite sender_bytes_ok by lia.
  split; [apply trunc_concat_len|]. split.
  - unfold receiver_buffer, sender_chunks. rewrite sender_bytes_ok by lia.
    apply recv_chunks_ok; try lia; [apply trunc_concat_len|apply repeat_length|reflexivity].
  - intros j v H. split; [apply read_item_ok; exact H|].
    apply map_key_ok; [lia|]. rewrite Forall_forall in HB. apply HB. eapply nth_error_In; eauto.
Qed.
Print Assumptions C28_truncated_transport.

Example C28_example :
  let oprfs := [0x0102030405060708090a0b0c0d0e0f10; 0xaabbccddeeff00112233445566778899; 0xff; 0x1122334455667788] in
  sender_bytes 3 oprfs = [0x10; 0x0f; 0x0e; 0x99; 0x88; 0x77; 0xff; 0; 0; 0x88; 0x77; 0x66] /\
  map (@length N) (sender_chunks 3 3 oprfs) = [9; 3]%nat /\
  receiver_buffer 4 3 (sender_chunks 3 3 oprfs) = Ok (sender_bytes 3 oprfs, []) /\
  read_item 3 (sender_bytes 3 oprfs) 1 = 0x778899.
Proof. repeat split. Qed.

(** The in-place copy itself: copy number i of the compaction overlaps its source exactly
    for the first few items (always for i = 0), so the calls are not the disjoint copies
    std::memcpy requires; the theorem above holds for a memcpy that behaves like memmove. *)
Theorem C28_overlapping_copies : forall m i, (1 <= m < 16)%nat ->
  overlap (i * m) (16 * i) m = true <-> (i * (16 - m) < m)%nat.
Proof.
  intros m i Hm. unfold overlap. rewrite andb_true_iff, !Nat.ltb_lt. split; [intros [_ H]|intros H; split]; nia.
Qed.
Print Assumptions C28_overlapping_copies.
Theorem C28_disjoint_copies_refuted : exists m i, (1 <= m < 16)%nat /\ (0 < i)%nat /\ overlap (i * m) (16 * i) m = true.
Proof. exists 9%nat, 1%nat. repeat split; lia. Qed.
Print Assumptions C28_disjoint_copies_refuted.

(** C29: for any distribution of the peer's items over workers and any merge order, the
    receiver and the sender return, position by position, the two sides of one list of
    matches, each with the other side's duplicate count; the list consists of exactly the
    index pairs whose truncated values agree.  The receiver's truncated values are
    distinct; no truncated value is the reserved key 0. *)
Theorem C29_same_matches : forall m bc selfs self_cnts peers peer_cnts ranges,
  (1 <= m <= 16)%nat ->
  Forall (fun v => v < 2 ^ 128) selfs -> Forall (fun v => v < 2 ^ 128) peers ->
  length self_cnts = length selfs ->
  let trunc v := v mod 2 ^ (8 * N.of_nat m) in
  Forall (fun v => trunc v <> 0) selfs -> Forall (fun v => trunc v <> 0) peers ->
  NoDup (map trunc selfs) ->
  covers (length peers) ranges ->
  exists r M, match_run m bc selfs self_cnts peers peer_cnts ranges = Ok r /\
    exact_matches trunc selfs peers M /\
    res_self r = map fst M /\
    res_peer_cnt r = map (fun p => nth (snd p) peer_cnts 0) M /\
    (if bc then res_sender r = map snd M /\ res_sender_cnt r = map (fun p => nth (fst p) self_cnts 0) M
     else res_sender r = [] /\ res_sender_cnt r = []).
Proof.
  intros m bc selfs sc peers pcs ranges Hm HBs HBp HL trunc HZs HZp HND HC.
  rewrite Forall_forall in HBs, HBp, HZs, HZp.
  assert (MK : map (map_key m) selfs = map trunc selfs).
  { apply map_ext_in. intros v Hv. apply map_key_ok; [lia|auto]. }
  destruct (dense_build_ok m selfs 0 []) as (mp & EB & EF).
  { intros v Hv. rewrite map_key_ok by (auto; lia). apply HZs. exact Hv. }
  assert (Rd : forall j, (j < length peers)%nat ->
            exists u, nth_error peers j = Some u /\ read_item m (sender_bytes m peers) j = trunc u).
  { intros j Hj. destruct (nth_error peers j) as [u|] eqn:E; [|apply nth_error_None in E; lia].
    exists u. split; [reflexivity|]. rewrite sender_bytes_ok by lia. apply read_item_ok. exact E. }
  assert (Fd : forall k i, dense_find mp k = Some i <-> exists v, nth_error selfs i = Some v /\ trunc v = k).
  { intros k i. rewrite EF. cbn [dense_find]. rewrite MK.
    rewrite <- (map_length trunc selfs). rewrite dense_find_combine by exact HND.
    rewrite Nat.sub_0_r, nth_error_map. split.
    - intros [_ H]. destruct (nth_error selfs i) as [v|]; [|discriminate]. exists v. split; [reflexivity|].
      injection H as H. exact H.
    - intros (v & -> & <-). split; [lia|reflexivity]. }
  set (buf := sender_bytes m peers) in *.
  set (pc := cnt_map 0 pcs).
  set (js := flat_map (fun r => seq (fst r) (snd r - fst r)) ranges).
  set (ms := flat_map (hit m buf mp pc sc) js).
  assert (W : run_workers m buf mp pc sc bc ranges = Ok ms).
  { apply run_workers_ok with (n := length peers).
    - intros j Hj. destruct (Rd j Hj) as (u & E & ->). apply HZp. eapply nth_error_In; eauto.
    - intros j i Hj Hd. apply Fd in Hd. destruct Hd as (v & E & _). rewrite HL.
      apply nth_error_Some. congruence.
    - intros r Hr. eapply covers_bound; eauto. }
  set (M := map (fun x => (mt_self x, mt_peer x)) ms).
  assert (Hms : forall x, In x ms -> mt_peer_cnt x = nth (mt_peer x) pcs 0 /\ mt_self_cnt x = nth (mt_self x) sc 0).
  { intros x Hx. unfold ms in Hx. apply in_flat_map in Hx. destruct Hx as (j & _ & Hx). unfold hit in Hx.
    destruct (dense_find mp (read_item m buf j)); [|destruct Hx]. destruct Hx as [<-|[]].
    cbn [mt_peer_cnt mt_peer mt_self_cnt mt_self]. split; [|reflexivity].
    unfold pc. rewrite cnt_get_map. cbn [Nat.ltb Nat.leb]. rewrite Nat.sub_0_r. reflexivity. }
  assert (HE : exact_matches trunc selfs peers M).
  { split.
    - unfold M, ms. assert (ND : NoDup js).
      { eapply Permutation_NoDup; [apply Permutation_sym; exact HC|apply seq_NoDup]. }
      clear - ND. induction js as [|j r IH]; [constructor|].
      apply NoDup_cons_iff in ND. destruct ND as [Hj ND]. cbn [flat_map]. rewrite map_app.
      unfold hit at 1. destruct (dense_find mp (read_item m buf j)) as [i|]; [|apply IH; exact ND].
      cbn [map app mt_self mt_peer]. constructor; [|apply IH; exact ND].
      intros X. apply in_map_iff in X. destruct X as (x & Ex & Ix). apply in_flat_map in Ix.
      destruct Ix as (j' & Ij & Ix). unfold hit in Ix. destruct (dense_find mp (read_item m buf j')); [|destruct Ix].
      destruct Ix as [<-|[]]. cbn [mt_self mt_peer] in Ex. injection Ex as _ Ex. congruence.
    - intros i j. unfold M. rewrite in_map_iff. split.
      + intros (x & Ex & Ix). unfold ms in Ix. apply in_flat_map in Ix. destruct Ix as (j' & Ij & Ix).
        unfold js in Ij. apply (Permutation_in _ HC) in Ij. apply in_seq in Ij.
        destruct (Rd j') as (u & Eu & Ru); [lia|].
        unfold hit in Ix. destruct (dense_find mp (read_item m buf j')) as [i'|] eqn:D; [|destruct Ix].
        destruct Ix as [<-|[]]. cbn [mt_self mt_peer] in Ex. injection Ex as <- <-.
        apply Fd in D. destruct D as (v & Ev & Tv). exists v, u. rewrite Ru in Tv. auto.
      + intros (v & u & Ev & Eu & T).
        assert (Hj : (j < length peers)%nat) by (apply nth_error_Some; congruence).
        destruct (Rd j Hj) as (u' & Eu' & Ru). assert (u' = u) by congruence. subst u'.
        exists (mk_match i (cnt_get pc j) j (nth i sc 0)). split; [reflexivity|].
        unfold ms. apply in_flat_map. exists j. split.
        * unfold js. apply (Permutation_in _ (Permutation_sym HC)). apply in_seq. lia.
        * unfold hit. assert (D : dense_find mp (read_item m buf j) = Some i).
          { apply Fd. exists v. split; [exact Ev|]. rewrite Ru. exact T. }
          rewrite D. left. reflexivity. }
  unfold match_run. fold buf. fold pc. rewrite EB. cbn [bind].
  assert (L : length buf = (length peers * m)%nat) by (unfold buf; rewrite sender_bytes_ok by lia; apply trunc_concat_len).
  rewrite L, Nat.div_mul, Nat.eqb_refl by lia. cbn [enforce]. rewrite W. cbn [bind].
  eexists. exists M. split; [reflexivity|]. split; [exact HE|]. cbn [res_self res_peer_cnt res_sender res_sender_cnt].
  unfold M. rewrite !map_map. cbn [fst snd].
  split; [reflexivity|]. split; [apply map_ext_in; intros x Hx; apply Hms; exact Hx|].
  destruct bc.
  - split; [reflexivity|].
    pose proof (cnt_fold (map mt_self_cnt ms) []) as CF. cbn [app length] in CF. rewrite !map_length in *.
    rewrite CF. apply map_ext_in. intros x Hx. apply Hms. exact Hx.
  - split; reflexivity.
Qed.
Print Assumptions C29_same_matches.

(** Two schedules give the same matches, in a possibly different order. *)
Theorem C29_schedule_independent : forall trunc selfs peers M M',
  exact_matches trunc selfs peers M -> exact_matches trunc selfs peers M' -> Permutation M M'.
Proof.
  intros trunc selfs peers M M' [N1 H1] [N2 H2]. apply NoDup_Permutation; auto.
  intros [i j]. rewrite H1, H2. reflexivity.
Qed.
Print Assumptions C29_schedule_independent.

Example C29_example :
  let selfs := [0x1105; 0x2207; 0x3309; 0x440b] in
  let peers := [0x99ab0b; 0x0a; 0x77112207; 0x880000005; 0x0d] in
  let run rs := match_run 1 true selfs [0; 4; 0; 2] peers [7; 0; 0; 3; 0] rs in
  covers 5 [(0, 2); (2, 5)]%nat /\ covers 5 [(3, 5); (0, 2); (2, 3)]%nat /\
  run [(0, 2); (2, 5)]%nat = Ok (mk_res [3; 1; 0]%nat [7; 0; 3] [0; 2; 3]%nat [2; 4; 0]) /\
  run [(3, 5); (0, 2); (2, 3)]%nat = Ok (mk_res [0; 3; 1]%nat [3; 7; 0] [3; 0; 2]%nat [0; 2; 4]).
Proof.
  cbv zeta. split; [apply Permutation_refl|]. split; [|split; vm_compute; reflexivity].
  unfold covers. cbn. change [0; 1; 2; 3; 4]%nat with ([0; 1; 2] ++ [3; 4])%nat.
  apply (Permutation_app_comm [3; 4]%nat [0; 1; 2]%nat).
Qed.

(** C29 with C27: running the OPRF and the matching on two lists of items finds exactly
    the index pairs of equal items, provided truncated OPRF values of different items
    differ (a failure of the statistical security parameter) and none is 0. *)
Theorem C29_end_to_end :
  forall aes crh dm ro solve t malicious wr ws delta a b c avxR threadsR xs avxS threadsS ys p oR oS
    m bc cx cy ranges,
  (forall x, aes x < 2 ^ 128) -> (forall x, crh x < 2 ^ 128) ->
  table_ok t -> delta < 2 ^ 128 -> vole delta a b c -> (t_size t <= length b)%nat ->
  solve t xs (map (item_hash crh t) xs) = Ok p ->
  length p = t_size t -> Forall (fun v => v < 2 ^ 128) p ->
  (exists avx threads, decode_table aes avx threads t p xs = Ok (map (item_hash crh t) xs)) ->
  run_oprf aes crh dm ro solve t malicious wr ws delta a b c avxR threadsR xs avxS threadsS ys = Ok (oR, oS) ->
  (1 <= m <= 16)%nat -> length cx = length xs -> NoDup xs -> covers (length ys) ranges ->
  Forall (fun v => v < 2 ^ 128) oR -> Forall (fun v => v < 2 ^ 128) oS ->
  let trunc v := v mod 2 ^ (8 * N.of_nat m) in
  Forall (fun v => trunc v <> 0) oR -> Forall (fun v => trunc v <> 0) oS ->
  (forall i j x y u v, nth_error (xs ++ ys) i = Some x -> nth_error (oR ++ oS) i = Some u ->
     nth_error (xs ++ ys) j = Some y -> nth_error (oR ++ oS) j = Some v -> trunc u = trunc v -> x = y) ->
  exists r M, match_run m bc oR cx oS cy ranges = Ok r /\
    NoDup M /\ (forall i j, In (i, j) M <-> exists x, nth_error xs i = Some x /\ nth_error ys j = Some x) /\
    res_self r = map fst M /\
    res_peer_cnt r = map (fun q => nth (snd q) cy 0) M /\
    (if bc then res_sender r = map snd M /\ res_sender_cnt r = map (fun q => nth (fst q) cx 0) M
     else res_sender r = [] /\ res_sender_cnt r = []).
Proof.
  intros aes crh dm ro solve t mal wr ws delta a b c aR tR xs aS tS ys p oR oS m bc cx cy ranges
    Ha Hc Ht Hd HV HL Hs Lp Bp HD HR Hm Lx ND HC BR BS trunc ZR ZS Hinj.
  destruct (C27_same_function aes crh dm ro solve t mal wr ws delta a b c aR tR xs aS tS ys p) as (F & EF);
    try assumption.
  rewrite EF in HR. apply ok_pair_inj in HR. destruct HR as [<- <-].
  assert (Inj : forall x y, In x (xs ++ ys) -> In y (xs ++ ys) -> trunc (F x) = trunc (F y) -> x = y).
  { intros x y Ix Iy E. apply In_nth_error in Ix. apply In_nth_error in Iy.
    destruct Ix as (i & Ix), Iy as (j & Iy).
    eapply (Hinj i j x y (F x) (F y)); try assumption; rewrite <- map_app, nth_error_map.
    - rewrite Ix. reflexivity.
    - rewrite Iy. reflexivity. }
  assert (NDt : NoDup (map trunc (map F xs))).
  { rewrite map_map. clear - ND Inj. 
    assert (I' : forall x y, In x xs -> In y xs -> trunc (F x) = trunc (F y) -> x = y)
      by (intros; apply Inj; auto using in_or_app).
    clear Inj. induction xs as [|x r IH]; [constructor|]. apply NoDup_cons_iff in ND. destruct ND as [Hx ND].
    cbn [map]. constructor.
    - intros X. apply in_map_iff in X. destruct X as (y & E & Iy). apply Hx.
      rewrite (I' x y); auto; [left; reflexivity|right; exact Iy].
    - apply IH; [exact ND|]. intros. apply I'; auto; right; assumption. }
  destruct (C29_same_matches m bc (map F xs) cx (map F ys) cy ranges) as (r & M & E & [N1 N2] & R1 & R2 & R3);
    try assumption; rewrite ?map_length; auto.
  exists r, M. split; [exact E|]. split; [exact N1|]. split; [|auto].
  intros i j. rewrite N2. rewrite !nth_error_map. split.
  - intros (v & u & Ev & Eu & T). destruct (nth_error xs i) as [x|] eqn:Ex; [|discriminate].
    destruct (nth_error ys j) as [y|] eqn:Ey; [|discriminate].
    apply some_inj in Ev. apply some_inj in Eu. subst v u.
    exists x. split; [reflexivity|]. f_equal. symmetry. apply Inj; [| |exact T].
    + apply in_or_app. left. eapply nth_error_In; eauto.
    + apply in_or_app. right. eapply nth_error_In; eauto.
  - intros (x & -> & ->). exists (F x), (F x). auto.
Qed.
Print Assumptions C29_end_to_end.
