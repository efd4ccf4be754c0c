(** The messages of the two-server PIR (C85). *)
From Coq Require Import List NArith Bool Arith Lia Sorted.
From Verif Require Import Base BaseProofs StoreModel PpsModel PpsSpec PpsProps PpsWireModel PpsWireProofs.
Import ListNotations.

(** Reading back what was written. *)
Theorem C85_offline : forall k ds, (k < 2 ^ 128)%N -> (N.of_nat (length ds) < 2 ^ 64)%N -> StronglySorted N.lt ds -> Forall (fun d => (d < 2 ^ 64)%N) ds ->
  pw_rd_offline (pw_offline k ds) = Ok (k, ds).
Proof. exact offline_rt. Qed.
Print Assumptions C85_offline.
Theorem C85_online : forall pk, Forall (fun k => (k < 2 ^ 128)%N) (pk_ks pk) -> (N.of_nat (length (pk_ks pk)) < 2 ^ 59)%N ->
  (pk_pos pk < 2 ^ 64)%N -> (pk_delta pk < 2 ^ 64)%N -> pw_rd_online (pw_online pk) = Ok pk.
Proof. intros pk F L. apply online_rt; [exact F|]. change (2 ^ 59)%N with (N.succ pw_max) in L. lia. Qed.
Print Assumptions C85_online.
Theorem C85_offline_many : forall ck, Forall (fun c => (fst c < 2 ^ 128)%N /\ (snd c < 2 ^ 64)%N) ck -> (N.of_nat (length ck) < 2 ^ 58)%N ->
  pw_rd_offline_m (pw_offline_m ck) = Ok ck.
Proof. intros ck F L. apply offline_m_rt; [exact F|]. change (2 ^ 58)%N with (N.succ pw_max_m) in L. lia. Qed.
Print Assumptions C85_offline_many.

Example C85_messages_example :
  pw_rd_offline (pw_offline (2 ^ 64 + 3) [1; 2 ^ 63]%N) = Ok (2 ^ 64 + 3, [1; 2 ^ 63])%N /\
  pw_rd_online (pw_online (mk_ppk [5; 2 ^ 100] 1 7)%N) = Ok (mk_ppk [5; 2 ^ 100] 1 7)%N /\
  pw_rd_offline_m (pw_offline_m [(2 ^ 127, 4); (1, 0)]%N) = Ok [(2 ^ 127, 4); (1, 0)]%N /\
  firstn 9 (pw_offline (2 ^ 64 + 3) [])%N = [1; 0; 0; 0; 0; 0; 0; 0; 3]%N.
Proof. repeat split; vm_compute; reflexivity. Qed.

(** Retrieval over the messages is retrieval. *)
Theorem C85_single : forall prg n s walk keys lambda lnc bits words i r1 r2 b,
  prg_ok prg -> (0 < n < 2 ^ 64)%N -> (N.of_nat s < 2 ^ 59)%N ->
  (forall c, (keys c < 2 ^ 128)%N) -> (forall c, (words c < 2 ^ 64)%N) -> (i < 2 ^ 64)%N ->
  pw_single prg n s walk keys lambda lnc bits words i r1 r2 b = pp_single prg n s walk keys lambda lnc bits words i r1 r2 b.
Proof.
  intros prg n s walk keys lambda lnc bits words i r1 r2 b Hprg Hn Hs HK HW Hi. apply single_wire; try assumption.
  change (2 ^ 59)%N with (N.succ pw_max) in Hs. lia.
Qed.
Print Assumptions C85_single.
Theorem C85_multi : forall prg n s walk keys lambda lnc bits qs,
  prg_ok prg -> (N.of_nat s < 2 ^ 59)%N -> (forall c, (keys c < 2 ^ 128)%N) -> (pp_MM n s lnc < 2 ^ 58)%N ->
  Forall (fun q => (fst q < 2 ^ 64)%N) qs ->
  pw_multi prg n s walk keys lambda lnc bits qs = pp_multi prg n s walk keys lambda lnc bits qs.
Proof.
  intros prg n s walk keys lambda lnc bits qs Hprg Hs HK HM FQ. apply multi_wire; try assumption.
  - change (2 ^ 59)%N with (N.succ pw_max) in Hs. lia.
  - change (2 ^ 58)%N with (N.succ pw_max_m) in HM. lia.
Qed.
Print Assumptions C85_multi.

Example C85_run_example :
  prg_ok t_prg /\ (forall c, (t_keys c < 2 ^ 128)%N) /\ (forall c, (t_words c < 2 ^ 64)%N) /\ (pp_MM 4 2 2 < 2 ^ 58)%N /\
  Forall (fun q => (fst q < 2 ^ 64)%N) t_qs /\
  pw_single t_prg 4 2 t_walk t_keys 64 2 t_bits t_words 1 5 7 false = Ok (Some true) /\
  omap (fun r => fst (fst r)) (pw_multi t_prg 4 2 t_walk t_keys 64 2 t_bits t_qs) = Ok [Some true; None; Some false; Some false].
Proof.
  split; [exact t_prg_ok|]. split; [exact t_keys_lt|]. split; [exact t_words_lt|]. split; [vm_compute; reflexivity|].
  split; [repeat constructor|]. split; vm_compute; reflexivity.
Qed.

(** The readers trust the counts: any message cut short is read past its end. *)
Theorem C85_offline_cut_refuted : forall k ds c, (k < 2 ^ 128)%N -> (N.of_nat (length ds) < 2 ^ 64)%N -> Forall (fun d => (d < 2 ^ 64)%N) ds ->
  c < length (pw_offline k ds) -> pw_rd_offline (firstn c (pw_offline k ds)) = UB.
Proof. exact offline_cut. Qed.
Print Assumptions C85_offline_cut_refuted.
Theorem C85_online_cut_refuted : forall pk c, Forall (fun k => (k < 2 ^ 128)%N) (pk_ks pk) -> (N.of_nat (length (pk_ks pk)) < 2 ^ 59)%N ->
  (pk_pos pk < 2 ^ 64)%N -> (pk_delta pk < 2 ^ 64)%N -> c < length (pw_online pk) -> pw_rd_online (firstn c (pw_online pk)) = UB.
Proof. intros pk c F L. apply online_cut; [exact F|]. change (2 ^ 59)%N with (N.succ pw_max) in L. lia. Qed.
Print Assumptions C85_online_cut_refuted.
Example C85_cut_example : pw_rd_offline (firstn 39 (pw_offline 5 [1; 2]%N)) = UB /\ length (pw_offline 5 [1; 2]%N) = 40.
Proof. split; vm_compute; reflexivity. Qed.

(** The server trusts the key too: a position or a shift of the client's choice makes it read or write
    outside its memory, although the message is whole. *)
Theorem C85_position_refuted : forall prg n s bits pk, (2 ^ N.of_nat (S (pp_depth s)) <= pk_pos pk)%N -> 0 < pp_depth s ->
  pp_answer prg n s bits pk = UB.
Proof.
  intros prg n s bits pk H D. unfold pp_answer, pp_evalp. destruct (pp_depth s) as [|e] eqn:ED; [lia|]. cbn [pp_fill].
  destruct (pk_ks pk) as [|k r]; [reflexivity|]. cbn [pp_expand0 flat_map N.eqb app length].
  assert (G : (2 < N.lxor (N.shiftr (pk_pos pk) (N.of_nat e)) 1)%N).
  { assert (Q : (4 <= N.shiftr (pk_pos pk) (N.of_nat e))%N).
    { rewrite N.shiftr_div_pow2. apply N.div_le_lower_bound; [apply N.pow_nonzero; discriminate|].
      rewrite !Nat2N.inj_succ, !N.pow_succ_r' in H. lia. }
    rewrite N.lxor_comm. destruct (N.lt_ge_cases 2 (N.lxor 1 (N.shiftr (pk_pos pk) (N.of_nat e)))) as [L|L]; [exact L|]. exfalso.
    set (x := N.lxor 1 (N.shiftr (pk_pos pk) (N.of_nat e))) in *.
    assert (E : N.shiftr (pk_pos pk) (N.of_nat e) = N.lxor 1 x) by (unfold x; rewrite <- N.lxor_assoc, N.lxor_nilpotent; reflexivity).
    rewrite E in Q. assert (X : x = 0%N \/ x = 1%N \/ x = 2%N) by lia. destruct X as [X|[X|X]]; rewrite X in Q; cbn in Q; lia. }
  change (N.of_nat 2) with 2%N. destruct (N.ltb_spec (N.lxor (N.shiftr (pk_pos pk) (N.of_nat e)) 1) 2) as [L|L]; [lia|reflexivity].
Qed.
Print Assumptions C85_position_refuted.
Theorem C85_shift_refuted : exists prg n s bits pk, prg_ok prg /\ pp_ctor n s = Ok tt /\ N.to_nat n = length bits /\ (pk_pos pk < N.of_nat s)%N /\
  length (pk_ks pk) = pp_depth s /\ (pk_delta pk < 2 ^ 64)%N /\ pp_answer prg n s bits pk = UB.
Proof.
  exists t_prg, 4%N, 2, t_bits, (mk_ppk [5%N] 0 100). split; [exact t_prg_ok|]. repeat split; vm_compute; reflexivity.
Qed.
Print Assumptions C85_shift_refuted.
Example C85_position_example : (2 ^ N.of_nat (S (pp_depth 2)) <= pk_pos (mk_ppk [5%N] 4 0))%N /\ 0 < pp_depth 2.
Proof. split; vm_compute; [discriminate|lia]. Qed.
