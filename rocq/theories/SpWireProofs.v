(** Round trips of keys, query and response. *)
From Coq Require Import List Arith NArith ZArith Bool Lia.
From Verif Require Import Base StoreModel StoreProofs PirPackModel PirPackProofs2 SpArithModel SpArithProofs SpArithProofs2 SpLoopModel SpLoopProofs
  SpGadgetModel SpGadgetSpec SpGadgetProofs SpDecodeModel SpDecodeSpec SpDecodeProofs2 SpRingModel SpRingSpec SpRingProofs SpRingProofs2
  SpSelModel NttModel NttSpec NttProofs NttProofs2 NttProofs3 NttProofs4 NttProofs5 SpSrvModel SpSrvSpec SpSrvProofs1 SpSrvProofs2 SpSrvProofs3 SpSrvProofs4 SpSrvProofs5
  SpSrvProofs6 SpSrvProofs7 SpSelProofs5 SpCliModel SpCliSpec SpCliProofs1 SpWireModel.
Import ListNotations.
Local Open Scope N_scope.
Local Notation zN := Z.of_N.

Lemma map_out_at : forall (A C : Type) (f : A -> outcome C) (R : nat -> C -> Prop) (d : A) (dc : C) l,
  (forall i, (i < length l)%nat -> exists y, f (nth i l d) = Ok y /\ R i y) ->
  exists l', map_out f l = Ok l' /\ length l' = length l /\ forall i, (i < length l)%nat -> R i (nth i l' dc).
Proof.
  intros A C f R d dc l. revert R. induction l as [|x l IH]; intros R H.
  - exists []. split; [reflexivity|]. split; [reflexivity|]. cbn. intros; lia.
  - destruct (H 0%nat ltac:(cbn; lia)) as (y & E & Hy). cbn [nth] in E.
    destruct (IH (fun i => R (S i))) as (l' & E' & L' & H'); [intros i Hi; apply (H (S i)); cbn; lia|].
    exists (y :: l'). cbn [map_out]. rewrite E. cbn [bind]. rewrite E'. cbn [bind]. split; [reflexivity|]. split; [cbn; lia|].
    intros [|i] Hi; [exact Hy|]. apply H'. cbn in Hi. lia.
Qed.

Section Wire.
Variables (avx : bool) (L : nat) (psi : nat -> Z) (NP : ntt_params) (P : sel_params) (inv : N -> N -> N).
Hypothesis HW : srv_ok L psi NP P inv.
Hypothesis Hml : (sp_ml P <= 62)%nat.
Local Notation n := (2 ^ L)%nat.
Local Notation q := (sp_q P).
Local Notation nttm := (nttm L psi NP).
Local Notation rawm := (rawm L).
Set Default Proof Using "avx L psi NP P inv HW Hml".

Lemma size_ok : forall rows cols data, length data = (rows * cols * n)%nat -> N.of_nat (rows * cols * n) < 2 ^ 64 ->
  size_matches NP (N.of_nat rows) (N.of_nat cols) data = true.
Proof.
  intros rows cols data Hl Hs. unfold size_matches. rewrite (len_n _ _ _ _ _ HW), Hl. apply N.eqb_eq. unfold u64.
  rewrite <- Nat2N.inj_mul, N.mul_mod_idemp_l, <- Nat2N.inj_mul by lia. apply N.mod_small, Hs.
Qed.

Lemma proto_back : forall rows cols m, sized n rows cols m -> N.of_nat (rows * cols * n) < 2 ^ 64 -> from_proto NP (to_proto m) = Ok m.
Proof.
  intros rows cols m (H1 & H2 & H3) Hs. unfold from_proto, to_proto. cbn [pr_rows pr_cols pr_data]. rewrite H1, H2, size_ok by assumption. cbn [enforce].
  rewrite !Nat2N.id. destruct m. cbn in *. subst. reflexivity.
Qed.

Lemma ntt_trip : forall rows cols m a, nttm rows cols m a -> N.of_nat (rows * cols * n) < 2 ^ 64 ->
  exists p, ntt_to_proto avx NP inv m = Ok p /\ exists m', ntt_from_proto avx NP p = Ok m' /\ nttm rows cols m' a.
Proof.
  intros rows cols m a Hm Hs. destruct (from_ntt_r avx _ _ _ _ _ HW _ _ _ _ Hm) as (r & Er & Hr). unfold ntt_to_proto. rewrite Er. cbn [bind].
  eexists. split; [reflexivity|]. unfold ntt_from_proto. rewrite (proto_back rows cols r (proj1 Hr) Hs). cbn [bind].
  pose proof (q_bounds _ _ _ _ _ HW) as QB.
  destruct (to_ntt_r avx _ _ _ _ _ HW _ _ _ _ Hr) as (m' & Em & Hm').
  { intros x c z _ _ _. pose proof (Z.mod_pos_bound (a x c z) q ltac:(lia)). lia. }
  exists m'. split; [exact Em|]. eapply (nttm_peq _ _ _ _ _ HW); [exact Hm'|]. intros x c _ _ z _. apply eqm_mod. lia.
Qed.

Lemma ntt_list_trip : forall rows cols (ms : list raw_mat) (a : nat -> nat -> nat -> nat -> Z), N.of_nat (rows * cols * n) < 2 ^ 64 ->
  (forall i, (i < length ms)%nat -> nttm rows cols (nth i ms no_mat) (a i)) ->
  exists ps, map_out (ntt_to_proto avx NP inv) ms = Ok ps /\ exists ms', map_out (ntt_from_proto avx NP) ps = Ok ms'
    /\ length ms' = length ms /\ forall i, (i < length ms)%nat -> nttm rows cols (nth i ms' no_mat) (a i).
Proof.
  intros rows cols ms a Hs H.
  destruct (map_out_at _ _ (ntt_to_proto avx NP inv) (fun i p => exists m', ntt_from_proto avx NP p = Ok m' /\ nttm rows cols m' (a i)) no_mat (MatProto 0 0 []) ms) as (ps & E1 & L1 & H1).
  { intros i Hi. exact (ntt_trip rows cols _ _ (H i Hi) Hs). }
  exists ps. split; [exact E1|].
  destruct (map_out_at _ _ (ntt_from_proto avx NP) (fun i m' => nttm rows cols m' (a i)) (MatProto 0 0 []) no_mat ps) as (ms' & E2 & L2 & H2).
  { intros i Hi. apply H1. lia. }
  exists ms'. split; [exact E2|]. split; [lia|]. intros i Hi. apply H2. lia.
Qed.

Lemma keys_trip : forall pks lr rr conv packing, shapes_fit L P -> keys_stand L (np_moduli NP) psi P pks lr rr conv packing -> length (pk_conv pks) = 1%nat ->
  exists kp, keys_to_proto avx NP inv pks = Ok kp /\ exists pks', keys_from_proto avx NP kp = Ok pks'
    /\ keys_stand L (np_moduli NP) psi P pks' lr rr conv packing /\ length (pk_conv pks') = 1%nat.
Proof.
  intros pks lr rr conv packing HF ((K1 & K2) & (K3 & K4) & (cw & K5 & K6) & K7 & K8) K9. unfold keys_to_proto.
  destruct (ntt_list_trip (sp_n P + 1) (sp_conv P) (pk_packing pks) (fun i r k => nth i packing (fun _ _ => pzero) k r)) as (a & Ea & a' & Fa & La & Ha).
  { apply HF. cbn; tauto. } { intros i Hi. rewrite K7 in Hi. apply (nttm_stands L psi NP P inv HW Hml). apply K8, Hi. }
  destruct (ntt_list_trip 2 (sp_left P) (pk_left pks) (fun i r k => ct_row (nth i lr (fun _ => ct_zero) k) r)) as (b & Eb & b' & Fb & Lb & Hb).
  { apply HF. cbn; tauto. } { intros i Hi. rewrite K1 in Hi. apply (nttm_stands L psi NP P inv HW Hml). apply K2, Hi. }
  destruct (ntt_list_trip 2 (sp_right P) (pk_right pks) (fun i r k => ct_row (nth i rr (fun _ => ct_zero) k) r)) as (c & Ec & c' & Fc & Lc & Hc).
  { apply HF. cbn; tauto. } { intros i Hi. rewrite K3 in Hi. apply (nttm_stands L psi NP P inv HW Hml). apply K4, Hi. }
  destruct (pk_conv pks) as [|cw0 [|]] eqn:Econv; try discriminate. cbn in K5. injection K5 as ->.
  destruct (ntt_list_trip 2 (2 * sp_conv P) [cw] (fun i r k => ct_row (conv k) r)) as (d & Ed & d' & Fd & Ld & Hd).
  { apply HF. cbn; tauto. } { intros i Hi. cbn in Hi. assert (i = 0%nat) by lia. subst i. apply (nttm_stands L psi NP P inv HW Hml). exact K6. }
  rewrite Ea. cbn [bind]. rewrite Eb. cbn [bind]. rewrite Ec. cbn [bind]. rewrite Ed. cbn [bind].
  eexists. split; [reflexivity|]. unfold keys_from_proto. cbn [kp_packing kp_left kp_right kp_conv]. rewrite Fa. cbn [bind]. rewrite Fb. cbn [bind]. rewrite Fc. cbn [bind]. rewrite Fd. cbn [bind].
  eexists. split; [reflexivity|]. split; [|exact Ld]. unfold keys_stand. cbn [pk_packing pk_left pk_right pk_conv].
  split; [split; [lia|]|split; [split; [lia|]|split; [|split; [lia|]]]].
  - intros i Hi. apply (stands_nttm L psi NP P inv HW Hml). apply Hb. lia.
  - intros i Hi. apply (stands_nttm L psi NP P inv HW Hml). apply Hc. lia.
  - destruct d' as [|cw' d']; [discriminate|]. exists cw'. split; [reflexivity|]. apply (stands_nttm L psi NP P inv HW Hml). apply (Hd 0%nat). cbn. lia.
  - intros i Hi. apply (stands_nttm L psi NP P inv HW Hml). apply Ha. lia.
Qed.

(** A query whose first row is minus the mask, rebuilt from the seed. *)
Lemma query_trip : forall m (c : ct) pub seed rng_of, shapes_fit L P -> words64 pub -> (forall i, rng_of seed i = pub i) ->
  (forall z, (z < n)%nat -> fst c z = (- mask L P pub 0 z)%Z) ->
  rawm 2 1 m (fun r _ z => (ct_row c r z mod q)%Z) ->
  exists p, query_to_proto NP m seed = Ok p /\ exists m', query_from_proto NP P rng_of p = Ok m'
    /\ stands_raw L q 2 1 m' (fun r _ => ct_row c r)
    /\ (forall z, (z < n)%nat -> nth z (rm_data m') 0 = w_modulus P - pub z mod w_modulus P)
    /\ forall z, (n <= z)%nat -> nth z (rm_data m') 0 = nth z (rm_data m) 0.
Proof.
  intros m c pub seed rng_of HF Hp Hrng Hc Hm. pose proof Hm as [(M1 & M2 & M3) M4]. pose proof (q_bounds _ _ _ _ _ HW) as QB.
  assert (Hn64 : N.of_nat (1 * 1 * n) < 2 ^ 64) by (pose proof (HF (2 * 1)%nat ltac:(cbn; tauto)); lia).
  unfold query_to_proto, to_proto_rng. rewrite M1, M2, (len_n _ _ _ _ _ HW), M3. cbn [Nat.ltb Nat.leb enforce].
  rewrite (proj2 (Nat.leb_le _ _)) by lia. cbn [bind]. eexists. split; [reflexivity|]. unfold query_from_proto, from_proto_rng. cbn [fst snd pr_rows pr_cols pr_data Nat.sub].
  rewrite size_ok; [|rewrite skipn_length, M3; lia|exact Hn64]. cbn [enforce]. eexists. split; [reflexivity|].
  replace (N.to_nat (u64 (N.of_nat 1 * N.of_nat (np_len NP)))) with n.
  2: { rewrite (len_n _ _ _ _ _ HW), <- Nat2N.inj_mul. unfold u64. rewrite N.mod_small by (exact Hn64 || lia). rewrite Nat2N.id. lia. }
  change (N.to_nat (u64 (N.of_nat 1 + 1))) with 2%nat. change (N.to_nat (N.of_nat 1)) with 1%nat. rewrite Nat.mul_1_l.
  set (row := map (fun i => sub_u64 (w_modulus P) (rng_of seed i mod w_modulus P)) (seq 0 n)).
  assert (Wz : zN (w_modulus P) = q) by (unfold w_modulus; apply Z2N.id; lia).
  assert (Lr : length row = n) by (unfold row; rewrite map_length, seq_length; reflexivity).
  assert (N1 : forall z, (z < n)%nat -> nth z (row ++ skipn n (rm_data m)) 0 = w_modulus P - pub z mod w_modulus P).
  { intros z Hz. rewrite app_nth1 by lia. unfold row. rewrite nth_seq_map by exact Hz. rewrite Hrng. pose proof (N.mod_lt (pub z) (w_modulus P) ltac:(lia)).
    apply sub_u64_small; lia. }
  assert (N2 : forall z, (n <= z)%nat -> nth z (row ++ skipn n (rm_data m)) 0 = nth z (rm_data m) 0).
  { intros z Hz. rewrite app_nth2 by lia. rewrite Lr, nth_skipn_add. f_equal. lia. }
  cbn [rm_data]. split; [|split; [exact N1|exact N2]].
  assert (B64 : forall k, nth k (row ++ skipn n (rm_data m)) 0 < 2 ^ 64).
  { intros k. destruct (Nat.lt_ge_cases k n) as [C|C]; [rewrite N1 by exact C; eapply N.le_lt_trans; [apply N.le_sub_l|lia]|]. rewrite N2 by exact C.
    destruct (Nat.lt_ge_cases k (2 * n)) as [C2|C2]; [|rewrite nth_overflow by lia; lia].
    pose proof (M4 1 0 (k - n) ltac:(lia) ltac:(lia) ltac:(lia))%nat as V. rewrite poly_at_nth in V by lia. rewrite M2 in V.
    replace ((1 * 1 + 0) * n + (k - n))%nat with k in V by lia. pose proof (Z.mod_pos_bound (ct_row c 1 (k - n)%nat) q ltac:(lia)). lia. }
  split; [reflexivity|]. split; [reflexivity|]. cbn [rm_data]. split; [rewrite app_length, Lr, skipn_length, M3; lia|]. split.
  - apply Forall_forall. intros x Hx. apply (In_nth _ _ 0) in Hx as (k & _ & <-). apply B64.
  - intros r k z Hr Hk Hz. assert (k = 0%nat) by lia. subst k. rewrite Nat.mul_1_r, Nat.add_0_r. destruct r as [|[|r]]; [| |lia].
    + cbn [Nat.mul Nat.add ct_row]. rewrite N1 by exact Hz. rewrite Hc by exact Hz. pose proof (N.mod_lt (pub z) (w_modulus P) ltac:(lia)).
      rewrite N2Z.inj_sub, N2Z.inj_mod, Wz by lia. unfold mask. cbn [Nat.mul Nat.add]. exists 1%Z. ring.
    + rewrite N2 by lia. pose proof (M4 1 0 z ltac:(lia) ltac:(lia) Hz)%nat as V. rewrite poly_at_nth in V by exact Hz. rewrite M2 in V.
      replace ((1 * 1 + 0) * n + z)%nat with (1 * n + z)%nat in V by lia. rewrite V. apply eqm_mod. lia.
Qed.
End Wire.
