(** The tables of NttModel, and the transform of one polynomial for one modulus. *)
From Coq Require Import List Arith NArith ZArith Bool Lia.
From Verif Require Import Base StoreModel PirPackModel PirPackProofs2 SpArithModel SpLoopModel SpLoopProofs
  SpDecodeSpec SpDecodeProofs2 SpRingProofs NttModel NttSpec NttProofs NttProofs2 NttProofs3.
Import ListNotations.
Local Open Scope N_scope.

Local Notation zN := Z.of_N.
Definition zof (v : list N) (k : nat) : Z := zN (nth k v 0).

Lemma pow_pos2 : forall k, (0 < 2 ^ k)%nat.
Proof. intros k. apply Nat.neq_0_lt_0, Nat.pow_nonzero. lia. Qed.

(** * Tables *)
Lemma powers_ok : forall root m lg, 1 < m -> root < m ->
  exists r, powers_of_root root m lg = Ok r /\ length r = (2 ^ lg)%nat
    /\ forall k, (k < 2 ^ lg)%nat -> nth k r 0 = root ^ N.of_nat (rev_bits lg k) mod m.
Proof.
  intros root m lg Hm Hr. unfold powers_of_root. pose proof (pow_pos2 lg) as Hp.
  destruct (put_ok 0 1 (repeat 0 (2 ^ lg))) as (r0 & -> & L0 & N0); [rewrite repeat_length; exact Hp|].
  rewrite repeat_length in L0. cbn [bind].
  destruct (loop_rule (list N * N) (2 ^ lg - 1) 1 (fun i '(r, power) =>
      do r <- put (rev_bits lg i) power r; Ok (r, (power * root) mod m))
    (fun i '(r, power) => length r = (2 ^ lg)%nat /\ power = root ^ N.of_nat i mod m
       /\ forall j, (j < i)%nat -> nth (rev_bits lg j) r 0 = root ^ N.of_nat j mod m) (r0, root)) as ([r p] & E & H).
  - split; [exact L0|]. split.
    + change (N.of_nat 1) with 1. rewrite N.pow_1_r. symmetry. apply N.mod_small. exact Hr.
    + intros j Hj. assert (j = 0)%nat by lia. subst j. rewrite N0.
      replace (rev_bits lg 0) with 0%nat.
      * cbn [Nat.eqb]. cbn [N.of_nat]. rewrite N.pow_0_r. symmetry. apply N.mod_small. exact Hm.
      * pose proof (rev_more 0 lg 0 ltac:(cbn; lia)) as R. cbn [Nat.add] in R. rewrite R. cbn [rev_bits]. lia.
  - intros i [r p] Hi (Hl & -> & H).
    destruct (put_ok (rev_bits lg i) (root ^ N.of_nat i mod m) r) as (r' & -> & L1 & N1).
    { rewrite Hl. apply rev_lt. }
    cbn [bind]. eexists. split; [reflexivity|]. split; [lia|]. split.
    + rewrite Nat.add_1_r, Nat2N.inj_succ, N.pow_succ_r', N.mul_mod_idemp_l by lia. f_equal. lia.
    + intros j Hj. rewrite N1. destruct (Nat.eqb_spec (rev_bits lg j) (rev_bits lg i)) as [e|e].
      * apply (f_equal (rev_bits lg)) in e. rewrite !rev_rev in e by lia. subst. reflexivity.
      * apply H. destruct (Nat.eq_dec j i); [subst; congruence|]. lia.
  - rewrite E. cbn [bind]. destruct H as (Hl & _ & H). exists r. split; [reflexivity|]. split; [exact Hl|].
    intros k Hk. rewrite <- (rev_rev lg k Hk) at 1. apply H. pose proof (rev_lt lg k). lia.
Qed.

Lemma nth_map_seq : forall n (g : nat -> N) k, (k < n)%nat -> nth k (map g (seq 0 n)) 0 = g k.
Proof.
  intros n g k Hk. rewrite (nth_indep _ 0 (g 0%nat)) by (rewrite map_length, seq_length; exact Hk).
  rewrite map_nth, seq_nth by exact Hk. reflexivity.
Qed.

Lemma scale_ok : forall q n l, 0 < q -> q < 2 ^ 30 -> (n <= length l)%nat -> (forall k, (k < n)%nat -> nth k l 0 < q) ->
  scale_powers q n l = Ok (map (fun k => nth k l 0 * 2 ^ 32 / q) (seq 0 n)).
Proof.
  intros q n l Hq Hq30 Hl Hb. unfold scale_powers. apply map_out_ok. intros k Hk. apply in_seq in Hk.
  rewrite get_nth by lia. cbn [bind]. rewrite (proj2 (N.eqb_neq q 0)) by lia.
  specialize (Hb k ltac:(lia)). rewrite u64_small.
  - rewrite u32_small; [reflexivity|]. apply quotient_lt; lia.
  - change (2 ^ 64) with (2 ^ 32 * 2 ^ 32). apply N.mul_lt_mono_pos_r; [reflexivity|]. change (2 ^ 30) with 1073741824 in Hq30.
    change (2 ^ 32) with 4294967296. lia.
Qed.

Lemma div2_ok : forall q x, N.odd q = true -> x < q -> div2_mod x q < q /\ eqm (zN q) (2 * zN (div2_mod x q)) (zN x).
Proof.
  intros q x Ho Hx. unfold div2_mod. apply N.odd_spec in Ho. destruct Ho as [h Hh].
  destruct (N.odd x) eqn:E.
  - apply N.odd_spec in E. destruct E as [y Hy]. subst x. replace (2 * y + 1 + q) with ((y + h + 1) * 2) by lia.
    rewrite N.div_mul by lia. split; [lia|]. exists 1%Z. lia.
  - assert (Ev : N.even x = true) by (rewrite <- N.negb_odd, E; reflexivity). apply N.even_spec in Ev. destruct Ev as [y Hy].
    subst x. replace (2 * y) with (y * 2) by lia. rewrite N.div_mul by lia. split; [lia|]. exists 0%Z. lia.
Qed.

(** The tables for modulus [q] and 2n-th root [psi], n = 2^L. *)
Definition table_ok (q : N) (L : nat) (psi : Z) (T : ntt_table) : Prop :=
  forall k, (k < 2 ^ L)%nat ->
    length (nt_fwd T) = (2 ^ L)%nat /\ length (nt_fwd' T) = (2 ^ L)%nat
    /\ length (nt_inv T) = (2 ^ L)%nat /\ length (nt_inv' T) = (2 ^ L)%nat
    /\ nth k (nt_fwd T) 0 < q /\ eqm (zN q) (zof (nt_fwd T) k) (psi ^ Z.of_nat (rev_bits L k))
    /\ nth k (nt_fwd' T) 0 = nth k (nt_fwd T) 0 * 2 ^ 32 / q
    /\ nth k (nt_inv T) 0 < q /\ eqm (zN q) (2 * zof (nt_inv T) k * psi ^ Z.of_nat (rev_bits L k)) 1
    /\ nth k (nt_inv' T) 0 = nth k (nt_inv T) 0 * 2 ^ 32 / q.

Lemma zN_pow_mod : forall q b k, q <> 0 -> eqm (zN q) (zN (b ^ N.of_nat k mod q)) (zN b ^ Z.of_nat k).
Proof.
  intros q b k Hq. rewrite N2Z.inj_mod, N2Z.inj_pow, nat_N_Z by exact Hq. apply eqm_mod. lia.
Qed.

Lemma build_ok : forall (min_root invert : N -> N -> option N) L q root inv,
  1 < q -> q < 2 ^ 30 -> N.odd q = true ->
  min_root (2 * N.of_nat (2 ^ L)) q = Some root -> 0 < root -> root < q ->
  invert root q = Some inv -> inv < q -> (root * inv) mod q = 1 ->
  exists T, build_table min_root invert (2 ^ L) q = Ok T /\ table_ok q L (zN root) T.
Proof.
  intros min_root invert L q root inv H1 H30 Ho Hr Hr0 Hrq Hi Hiq Hri.
  unfold build_table. cbv zeta. rewrite Hr. cbn [of_option bind]. rewrite (proj2 (N.ltb_lt 0 root)) by exact Hr0. cbn [enforce].
  rewrite Hi. cbn [of_option bind].
  rewrite Nat.log2_pow2 by lia.
  destruct (powers_ok root q L H1 Hrq) as (f & -> & Lf & Nf). cbn [bind].
  assert (Eq : u32 q = q) by (apply u32_small; change (2 ^ 30) with 1073741824 in H30; change (2 ^ 32) with 4294967296; lia).
  rewrite Eq.
  assert (Bf : forall k, (k < 2 ^ L)%nat -> nth k f 0 < q) by (intros k Hk; rewrite Nf by exact Hk; apply N.mod_lt; lia).
  rewrite scale_ok by (auto; lia). cbn [bind].
  destruct (powers_ok inv q L H1 Hiq) as (g & -> & Lg & Ng). cbn [bind].
  assert (Bg : forall k, (k < 2 ^ L)%nat -> nth k g 0 < q) by (intros k Hk; rewrite Ng by exact Hk; apply N.mod_lt; lia).
  rewrite (map_out_ok _ _ _ (fun j => div2_mod (nth j g 0) q)).
  2: { intros k Hk. apply in_seq in Hk. rewrite get_nth by lia. reflexivity. }
  cbn [bind].
  set (iv := map (fun j => div2_mod (nth j g 0) q) (seq 0 (2 ^ L))).
  assert (Liv : length iv = (2 ^ L)%nat) by (unfold iv; rewrite map_length, seq_length; reflexivity).
  assert (Niv : forall k, (k < 2 ^ L)%nat -> nth k iv 0 = div2_mod (nth k g 0) q) by (intros k Hk; unfold iv; apply (nth_map_seq _ (fun j => div2_mod (nth j g 0) q)); exact Hk).
  assert (Biv : forall k, (k < 2 ^ L)%nat -> nth k iv 0 < q) by (intros k Hk; rewrite Niv by exact Hk; apply div2_ok; auto).
  rewrite scale_ok by (auto; lia). cbn [bind]. eexists. split; [reflexivity|].
  intros k Hk. cbn [nt_fwd nt_fwd' nt_inv nt_inv']. rewrite !map_length, !seq_length.
  do 4 (split; [auto|]). split; [auto|]. split.
  { unfold zof. rewrite Nf by exact Hk. apply zN_pow_mod. lia. }
  split; [apply (nth_map_seq _ (fun k => nth k f 0 * 2 ^ 32 / q)); exact Hk|]. split; [auto|]. split.
  - unfold zof. rewrite Niv by exact Hk. destruct (div2_ok q (nth k g 0) Ho (Bg k Hk)) as [_ E].
    eapply eqm_trans; [apply eqm_mul; [exact E|apply eqm_refl]|]. rewrite Ng by exact Hk.
    eapply eqm_trans; [apply eqm_mul; [apply zN_pow_mod; lia|apply eqm_refl]|].
    rewrite <- Z.pow_mul_l. apply (eqm_trans _ _ (1 ^ Z.of_nat (rev_bits L k))).
    + apply eqm_pow. rewrite <- N2Z.inj_mul, N.mul_comm.
      apply (eqm_trans _ _ (zN ((root * inv) mod q))).
      * rewrite N2Z.inj_mod by lia. apply eqm_sym, eqm_mod. lia.
      * rewrite Hri. apply eqm_refl.
    + rewrite Z.pow_1_l by lia. apply eqm_refl.
  - apply (nth_map_seq _ (fun k => nth k iv 0 * 2 ^ 32 / q)); exact Hk.
Qed.

(** * One modulus *)
Section One.
Variables (q : N) (L : nat) (psi : Z) (T : ntt_table).
Hypothesis Hq0 : 0 < q.
Hypothesis Hq30 : q < 2 ^ 30.
Hypothesis Hodd : N.odd q = true.
Hypothesis HL : (2 <= L)%nat.
Hypothesis HT : table_ok q L psi T.
Hypothesis Hpsi : is_root (zN q) (2 ^ L) psi.

Definition below (k : N) (v : list N) : Prop := forall i, (i < length v)%nat -> nth i v 0 < k.

Lemma t_half : forall mm, (mm < L)%nat -> (2 ^ L / 2 ^ (mm + 1))%nat = half L mm.
Proof using.
  clear. intros mm H. unfold half. replace L with ((L - 1 - mm) + (mm + 1))%nat at 1 by lia.
  rewrite Nat.pow_add_r, Nat.div_mul; [reflexivity|]. apply Nat.pow_nonzero. lia.
Qed.
Lemma half_mod4 : forall mm, (4 <= half L mm)%nat -> (half L mm mod 4 = 0)%nat.
Proof using.
  clear. unfold half. intros mm H. destruct (L - 1 - mm)%nat as [|[|k]]; try (cbn in H; lia).
  cbn [Nat.pow]. replace (2 * (2 * 2 ^ k))%nat with (2 ^ k * 4)%nat by lia. apply Nat.mod_mul. lia.
Qed.

Lemma tab_index : forall mm i, (mm < L)%nat -> (i < 2 ^ mm)%nat -> (2 ^ mm + i < 2 ^ L)%nat /\ (2 * 2 ^ mm <= 2 ^ L)%nat.
Proof using.
  clear. intros mm i Hm Hi. assert (2 ^ (S mm) <= 2 ^ L)%nat by (apply Nat.pow_le_mono_r; lia). cbn [Nat.pow] in H. lia.
Qed.

(** A layer of forward butterflies, with results below [k']. *)
Lemma fwd_layer : forall (avx : bool) mm v k k', (mm < L)%nat -> length v = (2 ^ L)%nat -> below k v ->
  (forall w x y, w < q -> x < k -> y < k ->
     fwd_ok q w k' x y (fwd_bfly q w (w * 2 ^ 32 / q) x y)
     /\ (avx = true -> fwd_ok q w k' x y (fwd_bfly_avx q w (w * 2 ^ 32 / q) x y))) ->
  exists v', layer (fun t o w w' v => if avx && (4 <=? t)%nat then pairs4 true t o (fwd_bfly_avx q w w') v
                                      else pairs t o (fwd_bfly q w w') v)
               (nt_fwd T) (nt_fwd' T) (2 ^ mm) (2 ^ L / 2 ^ (mm + 1)) v = Ok v'
    /\ length v' = (2 ^ L)%nat /\ below k' v' /\ fwd_rel (zN q) L psi mm (zof v) (zof v').
Proof using HT HL Hq0 Hq30.
  intros avx mm v k k' Hm Hl Hb Hf. rewrite t_half by exact Hm. pose proof (half_split L mm Hm) as Hs.
  pose proof (half_pos L mm) as Hh. pose proof (half_mod4 mm) as H4. set (h := half L mm) in *.
  set (F := fun i => let w := nth (2 ^ mm + i) (nt_fwd T) 0 in let w' := nth (2 ^ mm + i) (nt_fwd' T) 0 in
     if avx && (4 <=? h)%nat then fwd_bfly_avx q w w' else fwd_bfly q w w').
  destruct (tab_index mm 0 Hm (pow_pos2 mm)) as [_ Htab].
  destruct (HT 0%nat (pow_pos2 L)) as (T1 & T2 & _).
  destruct (layer_ok (fun t o w w' v => if avx && (4 <=? t)%nat then pairs4 true t o (fwd_bfly_avx q w w') v
                                      else pairs t o (fwd_bfly q w w') v) (nt_fwd T) (nt_fwd' T) (2 ^ mm) h F v)
    as (v' & E & Lv & Nv).
  - lia.
  - lia.
  - lia.
  - intros i s Hi Hls. unfold F. cbv zeta.
    assert ((i + 1) * (2 * h) <= 2 ^ mm * (2 * h))%nat by (apply Nat.mul_le_mono_r; lia).
    destruct (avx && (4 <=? h)%nat) eqn:B.
    + apply andb_prop in B. destruct B as [_ B]. apply Nat.leb_le in B. apply pairs4_ok; [apply H4, B|]. lia.
    + apply pairs_ok. lia.
  - exists v'. split; [exact E|]. split; [lia|].
    assert (HF : forall i j, (i < 2 ^ mm)%nat -> (j < h)%nat ->
      fwd_ok q (nth (2 ^ mm + i) (nt_fwd T) 0) k' (nth (i * (2 * h) + j) v 0) (nth (i * (2 * h) + h + j) v 0)
        (nth (i * (2 * h) + j) v' 0, nth (i * (2 * h) + h + j) v' 0)).
    { intros i j Hi Hj. rewrite Nv by assumption. unfold F. cbv zeta.
      destruct (tab_index mm i Hm Hi) as [Hti _]. destruct (HT _ Hti) as (_ & _ & _ & _ & Hw & _ & -> & _).
      assert ((i + 1) * (2 * h) <= 2 ^ mm * (2 * h))%nat by (apply Nat.mul_le_mono_r; lia).
      destruct (Hf _ (nth (i * (2 * h) + j) v 0) (nth (i * (2 * h) + h + j) v 0) Hw) as [G1 G2]; [apply Hb; lia|apply Hb; lia|].
      destruct avx; [destruct (4 <=? h)%nat|]; cbn [andb]; auto. }
    split.
    + intros p Hp. destruct (half_index L mm p Hm ltac:(lia)) as (i & j & Hi & Hj & [-> | ->]);
        destruct (HF i j Hi Hj) as (A1 & A2 & _); assumption.
    + intros i j Hi Hj. destruct (HF i j Hi Hj) as (_ & _ & A3 & A4). cbn [fst snd] in A3, A4.
      destruct (tab_index mm i Hm Hi) as [Hti _]. destruct (HT _ Hti) as (_ & _ & _ & _ & _ & Hw & _).
      fold h. unfold zof in *. fold (wt L psi mm i) in Hw. split.
      * eapply eqm_trans; [exact A3|]. apply eqm_add; [apply eqm_refl|]. apply eqm_mul; [exact Hw|apply eqm_refl].
      * eapply eqm_trans; [exact A4|]. apply eqm_add; [apply eqm_refl|]. apply eqm_opp, eqm_mul; [exact Hw|apply eqm_refl].
Qed.

Lemma zeq_each : forall f v v' k, length v = (2 ^ L)%nat -> each_upd (2 ^ L) f v v' ->
  (forall x, x < k -> eqm (zN q) (zN (f x)) (zN x)) -> below k v -> zeq (zN q) L (zof v') (zof v).
Proof using.
  clear. intros f v v' k Hl [Hl' H] Hf Hb i Hi. unfold zof. rewrite H by exact Hi. apply Hf, Hb. lia.
Qed.

Theorem fwd_one_ok : forall avx v, length v = (2 ^ L)%nat -> below (4 * q) v ->
  exists v', fwd_one avx L q T v = Ok v' /\ length v' = (2 ^ L)%nat /\ below (if avx then q + 1 else q) v'
    /\ zeq (zN q) L (zof v') (ref L psi L (zof v)).
Proof using Hq0 Hq30 HL HT.
  intros avx v Hl Hb. unfold fwd_one. cbv zeta. destruct avx.
  - destruct (loop_rule (list N) L 0 (fun mm v =>
      do v <- layer (fun t o w w' v => if true && (4 <=? t)%nat then pairs4 true t o (fwd_bfly_avx q w w') v
                                      else pairs t o (fwd_bfly q w w') v)
               (nt_fwd T) (nt_fwd' T) (2 ^ mm) (2 ^ L / 2 ^ (mm + 1)) v; Ok v)
      (fun mm s => length s = (2 ^ L)%nat /\ below (4 * q + 1) s /\ zeq (zN q) L (zof s) (ref L psi mm (zof v))) v)
      as (v1 & E & L1 & B1 & Z1).
    + split; [exact Hl|]. split; [intros i Hi; specialize (Hb i Hi); lia|]. cbn [ref]. apply zeq_refl.
    + intros mm s Hm (Ls & Bs & Zs).
      destruct (fwd_layer true mm s (4 * q + 1) (4 * q + 1)) as (s' & -> & Ls' & Bs' & Rs); [lia|exact Ls|exact Bs| |].
      { intros w x y Hw Hx Hy. split; [apply fwd_bfly_le; auto; lia|]. intros _. apply fwd_bfly_avx_ok; auto; lia. }
      cbn [bind]. exists s'. split; [reflexivity|]. split; [exact Ls'|]. split; [exact Bs'|].
      rewrite Nat.add_1_r. eapply ref_step; [lia|exact Zs|exact Rs].
    + rewrite E. cbn [bind]. cbn [Nat.add] in Z1.
      destruct (each4_ok (2 ^ L) (fwd_reduce_avx q) v1) as (v2 & -> & U).
      { replace L with (2 + (L - 2))%nat by lia. rewrite Nat.pow_add_r, Nat.mul_comm. apply Nat.mod_mul. lia. }
      { lia. }
      exists v2. split; [reflexivity|]. split; [destruct U; lia|]. split.
      * intros i Hi. destruct U as [Lu U]. rewrite U by lia.
        destruct (fwd_reduce_avx_ok q Hq0 Hq30 (nth i v1 0)) as [R _]; [specialize (B1 i ltac:(lia)); lia|]. lia.
      * eapply zeq_trans; [|exact Z1]. eapply zeq_each; [exact L1|exact U| |exact B1].
        intros x Hx. apply (fwd_reduce_avx_ok q Hq0 Hq30). lia.
  - destruct (loop_rule (list N) L 0 (fun mm v =>
      do v <- layer (fun t o w w' v => if false && (4 <=? t)%nat then pairs4 true t o (fwd_bfly_avx q w w') v
                                      else pairs t o (fwd_bfly q w w') v)
               (nt_fwd T) (nt_fwd' T) (2 ^ mm) (2 ^ L / 2 ^ (mm + 1)) v; each (2 ^ L) (fwd_reduce q) v)
      (fun mm s => length s = (2 ^ L)%nat /\ below (if (mm =? 0)%nat then 4 * q else q) s
         /\ zeq (zN q) L (zof s) (ref L psi mm (zof v))) v)
      as (v1 & E & L1 & B1 & Z1).
    + split; [exact Hl|]. split; [exact Hb|]. cbn [ref]. apply zeq_refl.
    + intros mm s Hm (Ls & Bs & Zs).
      destruct (fwd_layer false mm s (4 * q) (4 * q)) as (s' & -> & Ls' & Bs' & Rs); [lia|exact Ls| | |].
      { intros i Hi. specialize (Bs i Hi). destruct (mm =? 0)%nat; lia. }
      { intros w x y Hw Hx Hy. split; [apply fwd_bfly_ok; auto; lia|]. discriminate. }
      cbn [bind]. destruct (each_ok (2 ^ L) (fwd_reduce q) s') as (s2 & -> & U); [lia|].
      exists s2. split; [reflexivity|]. split; [destruct U; lia|]. split.
      * intros i Hi. destruct U as [Lu U]. rewrite U by lia. rewrite (proj2 (Nat.eqb_neq (mm + 1) 0)) by lia.
        apply (fwd_reduce_ok q Hq0 Hq30). apply Bs'. lia.
      * rewrite Nat.add_1_r. eapply zeq_trans; [|eapply ref_step; [lia|exact Zs|exact Rs]].
        eapply zeq_each; [exact Ls'|exact U| |exact Bs']. intros x Hx. apply (fwd_reduce_ok q Hq0 Hq30). exact Hx.
    + rewrite E. cbn [bind]. cbn [Nat.add] in Z1, B1. exists v1. split; [reflexivity|]. split; [exact L1|]. split; [|exact Z1].
      rewrite (proj2 (Nat.eqb_neq L 0)) in B1 by lia. exact B1.
Qed.

Lemma inv_layer : forall (avx : bool) mm v, (mm < L)%nat -> length v = (2 ^ L)%nat -> below (2 * q + 1) v ->
  exists v', layer (fun t o w w' v => if avx && (4 <=? t)%nat then pairs4 false t o (inv_bfly_avx q w w') v
                                      else pairs t o (inv_bfly q w w') v)
               (nt_inv T) (nt_inv' T) (2 ^ mm) (2 ^ L / 2 ^ (mm + 1)) v = Ok v'
    /\ length v' = (2 ^ L)%nat /\ below (2 * q + 1) v' /\ inv_rel (zN q) L psi mm (zof v) (zof v').
Proof using HT HL Hq0 Hq30 Hodd.
  intros avx mm v Hm Hl Hb. rewrite t_half by exact Hm. pose proof (half_split L mm Hm) as Hs.
  pose proof (half_pos L mm) as Hh. pose proof (half_mod4 mm) as H4. set (h := half L mm) in *.
  set (F := fun i => let w := nth (2 ^ mm + i) (nt_inv T) 0 in let w' := nth (2 ^ mm + i) (nt_inv' T) 0 in
     if avx && (4 <=? h)%nat then inv_bfly_avx q w w' else inv_bfly q w w').
  destruct (tab_index mm 0 Hm (pow_pos2 mm)) as [_ Htab].
  destruct (HT 0%nat (pow_pos2 L)) as (_ & _ & T1 & T2 & _).
  destruct (layer_ok (fun t o w w' v => if avx && (4 <=? t)%nat then pairs4 false t o (inv_bfly_avx q w w') v
                                      else pairs t o (inv_bfly q w w') v) (nt_inv T) (nt_inv' T) (2 ^ mm) h F v)
    as (v' & E & Lv & Nv).
  - lia.
  - lia.
  - lia.
  - intros i s Hi Hls. unfold F. cbv zeta.
    assert ((i + 1) * (2 * h) <= 2 ^ mm * (2 * h))%nat by (apply Nat.mul_le_mono_r; lia).
    destruct (avx && (4 <=? h)%nat) eqn:B.
    + apply andb_prop in B. destruct B as [_ B]. apply Nat.leb_le in B. apply pairs4_ok; [apply H4, B|]. lia.
    + apply pairs_ok. lia.
  - exists v'. split; [exact E|]. split; [lia|].
    assert (HF : forall i j, (i < 2 ^ mm)%nat -> (j < h)%nat ->
      inv_ok q (nth (2 ^ mm + i) (nt_inv T) 0) (nth (i * (2 * h) + j) v 0) (nth (i * (2 * h) + h + j) v 0)
        (nth (i * (2 * h) + j) v' 0, nth (i * (2 * h) + h + j) v' 0)).
    { intros i j Hi Hj. rewrite Nv by assumption. unfold F. cbv zeta.
      destruct (tab_index mm i Hm Hi) as [Hti _]. destruct (HT _ Hti) as (_ & _ & _ & _ & _ & _ & _ & Hw & _ & ->).
      assert ((i + 1) * (2 * h) <= 2 ^ mm * (2 * h))%nat by (apply Nat.mul_le_mono_r; lia).
      assert (B1 : nth (i * (2 * h) + j) v 0 < 2 * q + 1) by (apply Hb; lia).
      assert (B2 : nth (i * (2 * h) + h + j) v 0 < 2 * q + 1) by (apply Hb; lia).
      destruct (avx && (4 <=? h)%nat); [apply inv_bfly_avx_ok|apply inv_bfly_ok]; auto; lia. }
    split.
    + intros p Hp. destruct (half_index L mm p Hm ltac:(lia)) as (i & j & Hi & Hj & [-> | ->]);
        destruct (HF i j Hi Hj) as (A1 & A2 & _); cbn [fst snd] in *; fold h; lia.
    + intros i j Hi Hj. destruct (HF i j Hi Hj) as (_ & _ & A3 & A4). cbn [fst snd] in A3, A4.
      destruct (tab_index mm i Hm Hi) as [Hti _]. destruct (HT _ Hti) as (_ & _ & _ & _ & _ & _ & _ & _ & Hw & _).
      fold h. unfold zof in *. fold (wt L psi mm i) in Hw. split; [exact A3|].
      eexists. split; [exact Hw|exact A4].
Qed.

Theorem inv_one_ok : forall avx v, length v = (2 ^ L)%nat -> below (2 * q + 1) v ->
  exists v', inv_one avx (2 ^ L) L q T v = Ok v' /\ length v' = (2 ^ L)%nat /\ below q v'
    /\ zeq (zN q) L (zof v) (ref L psi L (zof v')).
Proof using Hq0 Hq30 HL HT Hodd.
  intros avx v Hl Hb. unfold inv_one. cbv zeta.
  assert (Hodd' : exists h, zN q = (2 * h + 1)%Z).
  { apply N.odd_spec in Hodd. destruct Hodd as [h Hh]. exists (zN h). lia. }
  destruct (loop_rule (list N) L 0 (fun k v =>
      layer (fun t o w w' v => if avx && (4 <=? t)%nat then pairs4 false t o (inv_bfly_avx q w w') v
                                      else pairs t o (inv_bfly q w w') v)
               (nt_inv T) (nt_inv' T) (2 ^ (L - 1 - k)) (2 ^ L / 2 ^ (L - 1 - k + 1)) v)
      (fun k s => length s = (2 ^ L)%nat /\ below (2 * q + 1) s /\ zeq (zN q) L (zof v) (refs L psi (L - k) k (zof s))) v)
      as (v1 & E & L1 & B1 & Z1).
  - split; [exact Hl|]. split; [exact Hb|]. cbn [refs]. apply zeq_refl.
  - intros k s Hk (Ls & Bs & Zs).
    destruct (inv_layer avx (L - 1 - k) s) as (s' & Es & Ls' & Bs' & Rs); [lia|exact Ls|exact Bs|].
    exists s'. split; [exact Es|]. split; [exact Ls'|]. split; [exact Bs'|].
    replace (L - (k + 1))%nat with (L - 1 - k)%nat by lia. rewrite Nat.add_1_r.
    eapply refs_back; [exact Hodd'|lia| |exact Rs]. replace (S (L - 1 - k)) with (L - k)%nat by lia. exact Zs.
  - rewrite E. cbn [bind]. cbn [Nat.add] in Z1. rewrite Nat.sub_diag in Z1.
    destruct (each_ok (2 ^ L) (inv_reduce q) v1) as (v2 & -> & U); [lia|].
    exists v2. split; [reflexivity|]. split; [destruct U; lia|]. split.
    + intros i Hi. destruct U as [Lu U]. rewrite U by lia. apply (inv_reduce_ok q Hq0 Hq30). specialize (B1 i ltac:(lia)). lia.
    + pose proof (refs_ref L psi L 0 (zof v1)) as R. cbn [ref Nat.add] in R. rewrite R in Z1.
      eapply zeq_trans; [exact Z1|]. apply ref_ext; [lia|]. apply zeq_sym. eapply zeq_each; [exact L1|exact U| |exact B1].
      intros x Hx. apply (inv_reduce_ok q Hq0 Hq30). lia.
Qed.

Lemma wt_unit : forall mm i, (i < 2 ^ mm)%nat -> (mm < L)%nat -> exists w', eqm (zN q) (2 * w' * wt L psi mm i) 1.
Proof using HT HL Hq0 Hq30.
  intros mm i Hi Hm. destruct (tab_index mm i Hm Hi) as [Hti _]. destruct (HT _ Hti) as (_ & _ & _ & _ & _ & _ & _ & _ & Hw & _).
  eexists. exact Hw.
Qed.

(** A vector below q whose values at the points are given is unique. *)
Lemma ref_unique : forall a b, zeq (zN q) L (ref L psi L a) (ref L psi L b) -> zeq (zN q) L a b.
Proof using HT HL Hq0 Hq30 Hodd.
  intros a b H. apply (ref_inj (zN q) L psi) with (mm := L); [|apply wt_unit|lia|exact H].
  apply N.odd_spec in Hodd. destruct Hodd as [h Hh]. exists (zN h). lia.
Qed.
End One.
