(** Lemmas about the Paxos encoder: BackfillBinary, and the whole of Encode. *)
From Coq Require Import List Arith NArith Bool Lia Permutation.
From Verif Require Import Base BaseProofs StoreModel GfModel GfSpec GfProofs GfProofs2 OkvsModel OkvsSpec OkvsProofs OkvsProofs2 OkvsProofs4
  PaxEncModel PaxEncProofs PaxEncProofs2 PaxEncProofs3 PaxEncProofs4 PaxEncProofs5 PaxEncProofs6 PaxEncProofs7.
Import ListNotations.
Local Open Scope nat_scope.

Lemma dot_lt : forall m row v, (forall i, (v i < 2 ^ m)%N) -> (dot row v < 2 ^ m)%N.
Proof.
  intros m row v H. rewrite dot_xsum. apply xsum_lt. intros i _. destruct (nth i row false); [apply H|apply pow_pos].
Qed.
Lemma seq_nth_map : forall (A B : Type) (f : A -> B) (d : A) l, map (fun i => f (nth i l d)) (seq 0 (length l)) = map f l.
Proof.
  intros A B f d l. rewrite <- (map_map (fun i => nth i l d) f). rewrite seq_shift_nth. reflexivity.
Qed.

Section Bin.
Variables (w vw : N) (q : okvs_param) (hs values : list N).
Hypothesis Hq : param_ok w q.
Hypothesis Hsh : shape_ok vw q.
Hypothesis Hhs : Forall (fun h => (h < 2 ^ 128)%N) hs.
Hypothesis Hv : all_below vw values.
Local Notation s := (N.to_nat (ok_sparse q)).
Local Notation rows := (rows_of q hs).

Lemma bin_facts : forall gmax t p P, inv s rows hs t -> (forall r, r < length rows -> In r (map fst (t_main t)) \/ In r (map fst (t_gap t))) ->
  ok_dt q = DBinary -> length p = s + ok_dense q -> (forall i, at0 p i = 0%N) ->
  backfill_bin q gmax rows hs values (t_main t) (t_gap t) p = Ok P -> solved vw q hs values P.
Proof using Hq Hsh Hhs Hv.
  intros gmax t p P I HC Hdt Lp Zp H. unfold shape_ok in Hsh. rewrite Hdt in Hsh. destruct Hsh as [Hvw Hk].
  destruct (rows_of_ok w q hs Hq Hhs) as [HR HN].
  pose proof (v_lt vw values Hv) as VL.
  assert (MO : forall x, (x < 2 ^ vw)%N -> (x < 2 ^ 128)%N).
  { intros x Hx. assert (2 ^ vw <= 2 ^ 128)%N by (apply N.pow_le_mono_r; lia). lia. }
  unfold backfill_bin in H. apply enf_ok in H. destruct H as [_ H]. apply bind_ok in H. destruct H as ([cols p1] & E & H).
  assert (G : length p1 = s + ok_dense q /\ (forall i, i < s -> at0 p1 i = 0%N) /\ (forall i, (at0 p1 i < 2 ^ vw)%N) /\
     NoDup cols /\ (forall c, In c cols -> c < ok_dense q) /\ Forall (fun c => c < 64) cols /\
     (forall i, i < ok_dense q -> ~ In i cols -> at0 p1 (s + i) = 0%N) /\
     forall g, In g (t_gap t) -> fst g < length values /\ exists fc, fc_inv1 rows (s + ok_dense q) (t_main t) g = Ok fc /\
       xsum (at0 values) (fst g :: fc) = xsum (fun r => xsum (fun c => bitval (N.testbit (at0 hs r) (N.of_nat c)) (at0 p1 (s + c))) cols) (fst g :: fc)).
  { destruct (Nat.eqb_spec (length (t_gap t)) 0) as [EG|EG].
    - injection E as <- <-. apply length_zero_iff_nil in EG. rewrite EG. split; [assumption|]. split; [auto|].
      split; [intros; rewrite Zp; apply pow_pos|]. split; [constructor|]. split; [intros c []|]. split; [constructor|]. split; [intros; apply Zp|intros g []].
    - apply bind_ok in E. destruct E as (fcs & E1 & E). apply bind_ok in E. destruct E as (ds & E2 & E).
      apply bind_ok in E. destruct E as (cs & E3 & E). apply enf_ok in E. destruct E as [_ E]. apply bind_ok in E. destruct E as (xx & E4 & E).
      destruct (omapM_facts _ _ _ (0, 0) [] _ _ E1) as [L1 F1].
      assert (L0 : length (combine (t_gap t) fcs) = length (t_gap t)) by (rewrite combine_length; lia).
      destruct (omapM_facts _ _ _ ((0, 0), []) 0%N _ _ E2) as [L2 F2]. destruct (omapM_facts _ _ _ ((0, 0), []) 0%N _ _ E4) as [L4 F4].
      rewrite L0 in L2, L4, F2, F4. pose proof (gap_cols_len _ _ _ E3) as L3.
      destruct (bm_invert (length (t_gap t)) (e_prime cs ds)) as [iv|] eqn:EI; [|discriminate].
      apply bind_ok in E. destruct E as (p2 & E5 & E). destruct (forallb (fun c => c <? 64) cs) eqn:F64; [|discriminate]. injection E as <- <-.
      rewrite <- L2 in EI. pose proof (invert_nodup cs ds iv L3 EI) as ND.
      destruct (invert_facts _ _ _ (eprime_square cs ds L3) EI) as (SQ & Q). rewrite <- L3 in SQ.
      destruct (bin_solve_facts s cs iv xx p p2 SQ) as (A1 & A2 & A3 & A4); [lia|assumption|assumption|].
      assert (XL : forall j, (at0 xx j < 2 ^ vw)%N).
      { intros j. destruct (Nat.lt_ge_cases j (length xx)) as [Lj|Lj].
        - rewrite L4 in Lj. specialize (F4 j Lj). rewrite combine_nth2 in F4 by lia. cbn [fst snd] in F4. apply comb_facts in F4. destruct F4 as [F4 _].
          unfold at0. rewrite F4. apply xsum_lt. intros; apply VL.
        - unfold at0. rewrite nth_overflow by assumption. apply pow_pos. }
      split; [lia|]. split; [intros i Hi; rewrite A4; [apply Zp|intros; lia]|]. split; [|split; [assumption|]].
      { intros i. destruct (in_dec Nat.eq_dec i (map (fun c => s + c) cs)) as [X|X].
        - apply in_map_iff in X. destruct X as (c & <- & X). apply (In_nth _ _ 0) in X. destruct X as (k & Hk' & <-).
          rewrite A3 by assumption. apply lxor_lt; [rewrite Zp; apply pow_pos|]. apply dot_lt. exact XL.
        - rewrite A4; [rewrite Zp; apply pow_pos|]. intros c Hc ->. apply X. apply in_map_iff. eauto. }
      split; [intros c Hc; apply A2 in Hc; lia|]. split.
      { rewrite Forall_forall. rewrite forallb_forall in F64. intros c Hc. apply Nat.ltb_lt. auto. }
      split; [intros i Hi X; rewrite A4; [apply Zp|intros c Hc E; apply X; replace i with c by lia; assumption]|].
      intros g Hg. apply (In_nth _ _ (0, 0)) in Hg. destruct Hg as (k & Hk' & Eg).
      pose proof (F1 k Hk') as G1. rewrite Eg in G1. pose proof (F2 k Hk') as G2. pose proof (F4 k Hk') as G4.
      rewrite combine_nth2 in G2, G4 by lia. cbn [fst snd] in G2, G4. rewrite Eg in G2, G4.
      unfold comb_dense in G2. apply comb_facts in G2. destruct G2 as [G2 _]. apply comb_facts in G4. destruct G4 as [G4 Lg].
      split; [assumption|]. exists (nth k fcs []). split; [assumption|]. rewrite <- G4. rewrite xsum_swap.
      rewrite (xsum_ext _ _ (fun c => bitval (N.testbit (at0 ds k) (N.of_nat c)) (at0 p2 (s + c)))).
      2: { intros c _. rewrite xsum_bit. do 2 f_equal. symmetry. exact G2. }
      assert (X : dot (nth k (e_prime cs ds) []) (fun i => at0 p2 (s + nth i cs 0)) = at0 xx k).
      { apply (proj2 (Q (fun i => at0 p2 (s + nth i cs 0)) (at0 xx))); [|lia]. intros i Hi. rewrite A3 by lia. rewrite Zp. apply N.lxor_0_l. }
      rewrite eprime_dot in X by lia.
      etransitivity; [symmetry; exact X|]. rewrite <- (seq_shift_nth _ cs 0) at 2. rewrite xsum_map. reflexivity. }
  destruct G as (L1 & Z1 & B1 & ND & CB & C64 & DZ & G). cbn beta in H.
  assert (B1' : forall i, (at0 p1 i < 2 ^ 128)%N) by (intros; apply MO, B1).
  assert (DN : forall p0 h, (forall i, s <= i -> at0 p0 i = at0 p1 i) ->
     xsum (fun c => bitval (N.testbit h (N.of_nat c)) (at0 p0 (s + c))) cols = dn q p1 h).
  { intros p0 h E0. rewrite dn_bits by assumption. rewrite (xsum_subset _ (ok_dense q) cols); [|assumption|assumption|].
    - apply xsum_ext. intros c _. rewrite E0 by lia. reflexivity.
    - intros i Hi X. rewrite DZ by assumption. destruct (N.testbit h (N.of_nat i)); reflexivity. }
  assert (Hrc : length rows = length hs) by apply rows_of_len.
  assert (ST : forall rc p0 p', length p0 = s + ok_dense q -> (forall i, s <= i -> at0 p0 i = at0 p1 i) ->
     bin_backfill1 q rows hs values cols rc p0 = Ok p' ->
     fst rc < length values /\ p' = upd (snd rc) (fun _ => N.lxor (N.lxor (at0 values (fst rc)) (xsum (at0 p0) (rowi rows (fst rc)))) (dn q p1 (at0 hs (fst rc)))) p0).
  { intros [r c] p0 p' L0 D0 E0. unfold bin_backfill1 in E0. cbn [fst snd] in *.
    apply bind_ok in E0. destruct E0 as (y & E1 & E0). apply (vget_ok _ 0%N) in E1. destruct E1 as [Lr <-].
    apply bind_ok in E0. destruct E0 as (row & E1 & E0). apply (vget_ok _ []) in E1. destruct E1 as [_ <-].
    apply bind_ok in E0. destruct E0 as (y & E1 & E0). apply ofold_xor in E1. destruct E1 as [-> _]. apply enf_ok in E0. destruct E0 as [_ E0].
    apply bind_ok in E0. destruct E0 as (d & E1 & E0). apply (vget_ok _ 0%N) in E1. destruct E1 as [_ <-].
    apply bind_ok in E0. destruct E0 as (y & E1 & E0). apply bin_dense_facts in E1; [|assumption]. apply vset_ok in E0. destruct E0 as [_ ->].
    split; [assumption|]. f_equal. rewrite E1, DN by assumption. reflexivity. }
  destruct (back_facts s (s + ok_dense q) vw rows values (fun r => dn q p1 (at0 hs r)) (fun i => at0 p1 i) _ HR ltac:(lia) ST
     (t_main t) p1 P (i_tri _ _ _ _ I) (i_nd _ _ _ _ I) (i_lt _ _ _ _ I) L1) as (A1 & A2 & A3 & A4); auto.
  { intros c X. apply Z1. pose proof (i_lt _ _ _ _ I) as FL. rewrite Forall_forall in FL. auto. }
  assert (DP : forall h, dn q P h = dn q p1 h).
  { intros h. apply dn_ext. intros i Hi. apply A2. intros X. pose proof (i_lt _ _ _ _ I) as FL. rewrite Forall_forall in FL. apply FL in X. lia. }
  split; [assumption|]. split.
  - apply A4; [assumption|assumption|]. intros r _. rewrite dn_bits by assumption. apply xsum_lt. intros i _. apply bitval_lt, B1.
  - intros r Hr. rewrite key_val_dn, DP. rewrite <- rows_of_nth by assumption.
    apply (all_rows s (s + ok_dense q) rows hs t values (fun r => dn q p1 (at0 hs r)) P); auto; [lia| | |rewrite Hrc; assumption].
    + intros c Hc X. rewrite A2 by assumption. auto.
    + intros g Hg. destruct (G g Hg) as (X & fc & Y & Z). split; [assumption|]. exists fc. split; [assumption|]. rewrite Z.
      apply xsum_ext. intros r' _. apply DN. auto.
Qed.

Theorem solve_facts : forall avx gmax p P, (forall i, at0 p i = 0%N) ->
  paxos_solve avx q gmax rows hs values p = Ok P -> solved vw q hs values P.
Proof using Hq Hsh Hhs Hv.
  intros avx gmax p P Zp H. unfold paxos_solve in H. apply enf_ok in H. destruct H as [Lp H]. apply Nat.eqb_eq in Lp.
  apply bind_ok in H. destruct H as (t & E & H). destruct (rows_of_ok w q hs Hq Hhs) as [HR HN].
  assert (Hs : 0 < s) by (destruct Hq as (A & _ & _ & B); lia).
  destruct (triangulate_facts s rows hs HR t Hs HN E) as [I HC].
  destruct (ok_dt q) eqn:Hdt.
  - apply (bin_facts gmax t p P); assumption.
  - apply (gf_facts w vw avx q hs values Hq Hsh Hhs Hv t p P); assumption.
Qed.
End Bin.
