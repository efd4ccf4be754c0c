(** The packed words of the database and of the first dimension. *)
From Coq Require Import List Arith NArith ZArith Bool Lia.
From Verif Require Import Base StoreModel StoreProofs PirPackModel PirPackProofs2 SpArithModel SpArithProofs SpArithProofs2 SpLoopModel SpLoopProofs
  SpGadgetModel SpGadgetSpec SpGadgetProofs SpDecodeModel SpDecodeSpec SpDecodeProofs2 SpRingModel SpRingSpec SpRingProofs SpRingProofs2
  SpSelModel NttModel NttSpec NttProofs NttProofs2 NttProofs3 NttProofs4 NttProofs5 SpSrvModel SpSrvSpec SpSrvProofs1 SpSrvProofs2 SpSrvProofs3 SpSrvProofs4.
Import ListNotations.
Local Open Scope N_scope.
Local Notation zN := Z.of_N.

(** A loop that writes words: the words of S i are written in iteration i. *)
Lemma scatter : forall (n len : nat) body (S : nat -> nat -> bool) (Q : nat -> N -> Prop) s, length s = len ->
  (forall i s, (i < n)%nat -> length s = len -> exists s', body i s = Ok s' /\ length s' = len
     /\ (forall k, S i k = true -> Q k (nth k s' 0)) /\ forall k, S i k = false -> nth k s' 0 = nth k s 0) ->
  exists s', loop n 0 body s = Ok s' /\ length s' = len
    /\ (forall k, existsb (fun i => S i k) (seq 0 n) = true -> Q k (nth k s' 0))
    /\ forall k, existsb (fun i => S i k) (seq 0 n) = false -> nth k s' 0 = nth k s 0.
Proof.
  intros n len body S Q s Ls H.
  destruct (loop_rule (list N) n 0 body (fun i s' => length s' = len
    /\ (forall k, existsb (fun i => S i k) (seq 0 i) = true -> Q k (nth k s' 0))
    /\ forall k, existsb (fun i => S i k) (seq 0 i) = false -> nth k s' 0 = nth k s 0) s) as (s' & E & R).
  - split; [exact Ls|]. split; [intros k; discriminate|reflexivity].
  - intros i t Hi (Lt & T1 & T2). destruct (H i t ltac:(lia) Lt) as (t' & E & Lt' & U1 & U2). exists t'. split; [exact E|].
    split; [exact Lt'|]. rewrite Nat.add_1_r, seq_S, Nat.add_0_l. split; intros k; rewrite existsb_app; cbn [existsb]; rewrite orb_false_r; intros Hk.
    + destruct (S i k) eqn:ES; [apply U1, ES|]. rewrite orb_false_r in Hk. rewrite (U2 k ES). apply T1, Hk.
    + apply orb_false_iff in Hk as [K1 K2]. rewrite (U2 k K2). apply T2, K1.
  - exists s'. split; [exact E|exact R].
Qed.
Lemma existsb_at : forall (f : nat -> bool) n i, (i < n)%nat -> f i = true -> existsb f (seq 0 n) = true.
Proof. intros f n i Hi Hf. apply existsb_exists. exists i. split; [apply in_seq; lia|exact Hf]. Qed.

Lemma halves : forall a b, a < 2 ^ 32 -> b < 2 ^ 32 -> half 0 (N.lor a (u64 (b * 2 ^ 32))) = a /\ half 1 (N.lor a (u64 (b * 2 ^ 32))) = b.
Proof.
  intros a b Ha Hb. assert (E : u64 (b * 2 ^ 32) = b * 2 ^ 32).
  { apply u64_small. change (2 ^ 64) with (2 ^ 32 * 2 ^ 32). apply N.mul_lt_mono_pos_r; [reflexivity|exact Hb]. }
  rewrite E. assert (K : N.land a (N.shiftl b 32) = 0).
  { apply N.bits_inj_0. intros k. rewrite N.land_spec. destruct (N.lt_ge_cases k 32) as [Hk|Hk].
    - rewrite N.shiftl_spec_low by exact Hk. apply andb_false_r.
    - destruct (N.eq_dec a 0) as [->|Hz]; [rewrite N.bits_0; reflexivity|].
      rewrite (N.bits_above_log2 a k); [reflexivity|]. apply N.log2_lt_pow2 in Ha; [lia|lia]. }
  assert (E2 : N.lor a (b * 2 ^ 32) = a + b * 2 ^ 32).
  { rewrite <- N.shiftl_mul_pow2. rewrite (N.add_nocarry_lxor _ _ K). symmetry. apply N.lxor_lor, K. }
  rewrite E2. unfold half. cbn [Nat.eqb]. split.
  - change (u32 (a + b * 2 ^ 32)) with ((a + b * 2 ^ 32) mod 2 ^ 32). rewrite N.mod_add by discriminate. apply N.mod_small, Ha.
  - rewrite N.div_add by discriminate. rewrite N.div_small by exact Ha. reflexivity.
Qed.

Section Words.
Variables (avx : bool) (L : nat) (psi : nat -> Z) (NP : ntt_params) (P : sel_params) (inv : N -> N -> N).
Hypothesis HW : srv_ok L psi NP P inv.
Hypothesis Hml : (sp_ml P <= 62)%nat.
Set Default Proof Using "L psi NP P inv HW Hml".
Local Notation n := (2 ^ L)%nat.
Local Notation q := (sp_q P).
Local Notation W := (length (np_moduli NP) * np_len NP)%nat.
Local Notation hasp := (has L psi NP).
Local Notation nttm := (nttm L psi NP).
Local Notation rawm := (rawm L).
Local Notation ctm := (ctm L psi NP).
Local Notation vecm := (vecm L psi NP).
Local Notation dim0 := (2 ^ sp_v1 P)%nat.
Local Notation num_per := (2 ^ sp_v2 P)%nat.
Local Notation qk := (fun k => nth k (np_moduli NP) 0).

(** The halves of x hold the values of a at point z. *)
Definition holds (x : N) (a : poly) (z : nat) : Prop :=
  forall k, (k < 2)%nat -> half k x <= qk k /\ eqm (zN (qk k)) (zN (half k x)) (peval n a (ntt_point (psi k) L z)).
Definition firstm (l : list N) (reg : nat -> ct) : Prop :=
  forall z j r, (z < n)%nat -> (j < dim0)%nat -> (r < 2)%nat ->
    exists x, get (z * (dim0 * 2) + j * 2 + r) l = Ok x /\ holds x (crow (reg j) r) z.
Definition dbm (db : list N) (start : nat) (pol : nat -> poly) : Prop :=
  forall z i j, (z < n)%nat -> (i < num_per)%nat -> (j < dim0)%nat ->
    exists x, get (start + z * (num_per * dim0) + i * dim0 + j) db = Ok x /\ holds x (pol (j * num_per + i)%nat) z.

Lemma q_lt32 : forall k, (k < 2)%nat -> qk k < 2 ^ 32.
Proof. intros k Hk. destruct (mod_bounds _ _ _ _ _ HW k Hk) as [_ H]. eapply N.lt_trans; [exact H|reflexivity]. Qed.
Lemma holds_pack : forall (w0 w1 : N) (a : poly) z, w0 <= qk 0%nat -> w1 <= qk 1%nat ->
  eqm (zN (qk 0%nat)) (zN w0) (peval n a (ntt_point (psi 0%nat) L z)) -> eqm (zN (qk 1%nat)) (zN w1) (peval n a (ntt_point (psi 1%nat) L z)) ->
  holds (N.lor w0 (u64 (w1 * 2 ^ 32))) a z.
Proof.
  intros w0 w1 a z H0 H1 E0 E1. pose proof (q_lt32 0 ltac:(lia)). pose proof (q_lt32 1 ltac:(lia)). cbv beta in *.
  destruct (halves w0 w1) as [X Y]; [lia|lia|]. intros k Hk. destruct k as [|[|k]]; [rewrite X; auto|rewrite Y; auto|lia].
Qed.

Lemma put_word : forall (p : nat) (w : N) s len, length s = len -> (p < len)%nat ->
  exists s', put p w s = Ok s' /\ length s' = len /\ (forall k, (k =? p)%nat = true -> nth k s' 0 = w) /\ forall k, (k =? p)%nat = false -> nth k s' 0 = nth k s 0.
Proof.
  intros p w s len Ls Hp. destruct (put_lt N 0 p w s) as (s' & E & L' & N'); [lia|]. exists s'. split; [exact E|]. split; [lia|].
  split; intros k Hk; rewrite N', Hk; reflexivity.
Qed.

Lemma modulus_at_r : forall k, (k < 2)%nat -> modulus_at NP k = Ok (qk k).
Proof. intros k Hk. unfold modulus_at. apply get_nth. rewrite (Hcrt _ _ _ _ _ HW). exact Hk. Qed.

Lemma reorient_reg_r : forall v reg, vecm dim0 v reg -> exists l, reorient_reg NP P v = Ok l /\ firstm l reg.
Proof.
  intros v reg [Lv Hv]. unfold reorient_reg. rewrite (Hcrt _ _ _ _ _ HW), Nat.eqb_refl. cbn [enforce].
  pose proof (n_pos (sp_v1 P)) as D0. pose proof (n_pos L) as N0. pose proof (len_n _ _ _ _ _ HW) as En. pose proof (W_n _ _ _ _ _ HW) as EW.
  rewrite (modulus_at_r 0) by lia. cbn [bind]. pose proof (q_lt32 0 ltac:(lia)) as Q0. pose proof (q_lt32 1 ltac:(lia)) as Q1. cbv beta in Q0, Q1.
  destruct (mod_bounds _ _ _ _ _ HW 0 ltac:(lia)) as [B0 B0']. destruct (mod_bounds _ _ _ _ _ HW 1 ltac:(lia)) as [B1 B1'].
  replace (N.log2 (nth 0 (np_moduli NP) 0) <=? 32) with true.
  2:{ symmetry. apply N.leb_le. apply N.log2_lt_pow2 in Q0; lia. }
  cbn [enforce]. rewrite (get_lt _ no_mat 0 v) by lia. cbn [bind]. pose proof (Hv 0%nat ltac:(lia)) as [(S1 & S2 & _) _].
  unfold has_shape. rewrite S1, S2. cbn [Nat.eqb andb enforce]. rewrite (modulus_at_r 1) by lia. cbn [bind]. rewrite En.
  set (idx := fun z j r => (z * (dim0 * 2) + j * 2 + r)%nat).
  assert (Inj : forall z j r z' j' r', (j < dim0)%nat -> (r < 2)%nat -> (j' < dim0)%nat -> (r' < 2)%nat -> idx z j r = idx z' j' r' ->
    z = z' /\ j = j' /\ r = r').
  { intros z j r z' j' r' Hj Hr Hj' Hr' E. unfold idx in E.
    destruct (div_mod_unique2 z (dim0 * 2) (j * 2 + r)) as [A1 A2]; [lia|]. destruct (div_mod_unique2 z' (dim0 * 2) (j' * 2 + r')) as [C1 C2]; [lia|].
    rewrite !Nat.add_assoc in *. rewrite E in A1, A2. assert (z = z') by congruence. assert (j * 2 + r = j' * 2 + r')%nat by congruence. lia. }
  set (Q := fun k x => forall z j r, (z < n)%nat -> (j < dim0)%nat -> (r < 2)%nat -> k = idx z j r -> holds x (crow (reg j) r) z).
  set (len := (dim0 * 2 * n)%nat).
  assert (Inner : forall j r s, (j < dim0)%nat -> (r < 2)%nat -> length s = len -> exists s',
    loop n 0 (fun z out => do f <- get j v; do a <- get (r * (2 * n) + z) (rm_data f); do b <- get (r * (2 * n) + n + z) (rm_data f);
        put (z * (dim0 * 2) + j * 2 + r) (N.lor (a mod nth 0 (np_moduli NP) 0) (u64 (b mod nth 1 (np_moduli NP) 0 * 2 ^ 32))) out) s = Ok s' /\ length s' = len
    /\ (forall k, existsb (fun z => (k =? idx z j r)%nat) (seq 0 n) = true -> Q k (nth k s' 0))
    /\ forall k, existsb (fun z => (k =? idx z j r)%nat) (seq 0 n) = false -> nth k s' 0 = nth k s 0).
  { intros j r s Hj Hr Ls. apply scatter; [exact Ls|]. intros z t Hz Lt. rewrite (get_lt _ no_mat j v) by lia. cbn [bind].
    destruct (word_of _ _ _ _ _ HW Hml (nth j v no_mat) (reg j) r 0 z (Hv j Hj) Hr ltac:(lia) Hz) as (G0 & L0 & E0).
    destruct (word_of _ _ _ _ _ HW Hml (nth j v no_mat) (reg j) r 1 z (Hv j Hj) Hr ltac:(lia) Hz) as (G1 & L1 & E1).
    rewrite EW in G0, L0, E0, G1, L1, E1. rewrite Nat.mul_0_l, Nat.add_0_l in G0, L0, E0. rewrite Nat.mul_1_l, Nat.add_assoc in G1, L1, E1.
    rewrite G0. cbn [bind]. rewrite G1. cbn [bind].
    match goal with |- context [put _ ?w t] => set (wd := w) end.
    destruct (put_word (idx z j r) wd t len Lt) as (t' & Et & Lt' & P1 & P2).
    { unfold idx, len. clear - Hz Hj Hr. nia. }
    exists t'. split; [exact Et|]. split; [exact Lt'|]. split; [|exact P2]. intros k Hk. rewrite (P1 k Hk). apply Nat.eqb_eq in Hk.
    intros z' j' r' Hz' Hj' Hr' Ek. rewrite Hk in Ek. destruct (Inj _ _ _ _ _ _ Hj Hr Hj' Hr' Ek) as (-> & -> & ->).
    apply holds_pack.
    - apply N.lt_le_incl, N.mod_lt. lia.
    - apply N.lt_le_incl, N.mod_lt. lia.
    - rewrite N2Z.inj_mod. eapply eqm_trans; [apply eqm_mod; lia|exact E0].
    - rewrite N2Z.inj_mod. eapply eqm_trans; [apply eqm_mod; lia|exact E1]. }
  destruct (scatter dim0 len (fun j out => loop 2 0 (fun r out => loop n 0 (fun z out => do f <- get j v; do a <- get (r * (2 * n) + z) (rm_data f); do b <- get (r * (2 * n) + n + z) (rm_data f);
        put (z * (dim0 * 2) + j * 2 + r) (N.lor (a mod nth 0 (np_moduli NP) 0) (u64 (b mod nth 1 (np_moduli NP) 0 * 2 ^ 32))) out) out) out)
      (fun j k => existsb (fun r => existsb (fun z => (k =? idx z j r)%nat) (seq 0 n)) (seq 0 2)) Q (repeat 0 len)) as (l & E & Ll & Hl & _).
  - apply repeat_length.
  - intros j s Hj Ls. apply (scatter 2 len _ (fun r k => existsb (fun z => (k =? idx z j r)%nat) (seq 0 n)) Q s Ls).
    intros r t Hr Lt. apply Inner; assumption.
  - exists l. split; [exact E|]. intros z j r Hz Hj Hr. exists (nth (idx z j r) l 0). split.
    + apply get_nth. rewrite Ll. unfold idx, len. clear - Hz Hj Hr. nia.
    + apply (Hl (idx z j r)); [|assumption|assumption|assumption|reflexivity].
      apply (existsb_at _ dim0 j Hj). apply (existsb_at _ 2 r Hr). apply (existsb_at _ n z Hz). apply Nat.eqb_refl.
Qed.

Local Notation pt_of := (pt_of L).
Local Notation db_ok := (db_ok L P).

Lemma nth_window : forall (l : list N) a len z, (z < len)%nat -> nth z (firstn len (skipn a l)) 0 = nth (a + z) l 0.
Proof. intros l a len z Hz. rewrite nth_firstn_lt by exact Hz. apply nth_skipn_add. Qed.

Hypothesis Hp : (0 < sp_p P <= q)%Z.

Lemma item_r : forall database trial item, db_ok database -> (trial < sp_n P * sp_n P)%nat -> (item < dim0 * num_per)%nat ->
  exists m, (do it <- get item database;
      do coeffs <- (if (trial * n + n <=? length it)%nat then Ok (firstn n (skipn (trial * n) it)) else UB);
      do coeffs <- map_out (fun c => recenter_mod c (Z.to_N (sp_p P)) (w_modulus P)) coeffs;
      to_ntt avx NP (RawMat 1 1 coeffs)) = Ok m /\ nttm 1 1 m (fun _ _ => db_poly P (pt_of database) trial item).
Proof using L psi NP P inv HW Hml Hp.
  intros database trial item [D1 D2] Ht Hi. destruct (D2 item Hi) as [I1 I2]. pose proof (q_bounds _ _ _ _ _ HW) as QB.
  assert (HT : (trial * n + n <= sp_n P * sp_n P * n)%nat) by (clear - Ht; nia).
  rewrite (get_lt _ [] item database) by lia. cbn [bind]. rewrite (proj2 (Nat.leb_le _ _)) by lia. cbn [bind].
  set (cs := firstn n (skipn (trial * n) (nth item database []))).
  assert (Lc : length cs = n) by (unfold cs; rewrite firstn_length, skipn_length; lia).
  assert (R : forall c, c < Z.to_N (sp_p P) -> exists r, recenter_mod c (Z.to_N (sp_p P)) (w_modulus P) = Ok r /\ r < Z.to_N q).
  { intros c Hc. destruct (recenter_mod_exact c (Z.to_N (sp_p P)) (Z.to_N q)) as (_ & r & _ & E & Hr & _); try lia. exists r. split; [exact E|exact Hr]. }
  assert (Hn : forall z, (z < n)%nat -> nth z cs 0 = pt_of database trial item z) by (intros z Hz; apply nth_window, Hz).
  assert (Hlt : forall z, (z < n)%nat -> pt_of database trial item z < Z.to_N (sp_p P)) by (intros z Hz; apply I2; lia).
  rewrite (map_out_ok _ _ _ (fun c => match recenter_mod c (Z.to_N (sp_p P)) (w_modulus P) with Ok v => v | _ => 0 end) cs).
  2:{ intros c Hc. apply (In_nth _ _ 0) in Hc as (z & Hz & <-). rewrite Lc in Hz. destruct (R (nth z cs 0)) as (r & -> & _); [|reflexivity].
      rewrite (Hn z Hz). apply Hlt, Hz. }
  cbn [bind]. destruct (to_ntt_r avx _ _ _ _ _ HW 1 1 (RawMat 1 1 (map (fun c => match recenter_mod c (Z.to_N (sp_p P)) (w_modulus P) with Ok v => v | _ => 0 end) cs))
     (fun _ _ => db_poly P (pt_of database) trial item)) as (m & E & Hm).
  - split; [split; [reflexivity|]; split; [reflexivity|]; cbn [rm_data]; rewrite map_length; lia|]. intros r c z Hr Hc Hz.
    rewrite poly_at_nth by exact Hz. cbn [rm_cols rm_data]. replace ((r * 1 + c) * n + z)%nat with z by nia.
    set (g := fun c0 => match recenter_mod c0 (Z.to_N (sp_p P)) (w_modulus P) with Ok v => v | _ => 0 end).
    rewrite (nth_indep (map g cs) 0 (g 0)) by (rewrite map_length; lia). rewrite map_nth, (Hn z Hz). unfold g, db_poly, w_modulus.
    destruct (recenter_mod _ _ _); reflexivity.
  - intros r c z Hr Hc Hz. unfold db_poly. destruct (R _ (Hlt z Hz)) as (v & E & Hv). unfold w_modulus in E. rewrite E. lia.
  - exists m. split; [exact E|exact Hm].
Qed.

Lemma reorient_database_r : forall database, db_ok database -> exists db, reorient_database avx NP P database = Ok db
  /\ length db = (sp_n P * sp_n P * (dim0 * num_per) * n)%nat
  /\ forall trial, (trial < sp_n P * sp_n P)%nat -> dbm db (trial * (dim0 * num_per * n)) (db_poly P (pt_of database) trial).
Proof using L psi NP P inv HW Hml Hp.
  intros database Hd. unfold reorient_database. rewrite (len_n _ _ _ _ _ HW).
  set (T := (sp_n P * sp_n P)%nat). set (len := (T * (dim0 * num_per) * n)%nat).
  pose proof (n_pos (sp_v1 P)) as D0. pose proof (n_pos (sp_v2 P)) as M0. pose proof (n_pos L) as N0.
  set (idx := fun t z ii j => (((t * n + z) * num_per + ii) * dim0 + j)%nat).
  assert (Inj : forall t z ii j t' z' ii' j', (z < n)%nat -> (ii < num_per)%nat -> (j < dim0)%nat -> (z' < n)%nat -> (ii' < num_per)%nat -> (j' < dim0)%nat ->
    idx t z ii j = idx t' z' ii' j' -> t = t' /\ z = z' /\ ii = ii' /\ j = j').
  { intros t z ii j t' z' ii' j' A1 A2 A3 B1 B2 B3 E. unfold idx in E.
    pose proof (div_mod_unique2 ((t * n + z) * num_per + ii) dim0 j A3) as [C1 C2]. pose proof (div_mod_unique2 ((t' * n + z') * num_per + ii') dim0 j' B3) as [C1' C2'].
    rewrite E in C1, C2. rewrite C1' in C1. rewrite C2' in C2.
    pose proof (div_mod_unique2 (t * n + z) num_per ii A2) as [F1 F2]. pose proof (div_mod_unique2 (t' * n + z') num_per ii' B2) as [F1' F2'].
    rewrite <- C1 in F1, F2. rewrite F1' in F1. rewrite F2' in F2.
    pose proof (div_mod_unique2 t n z A1) as [G1 G2]. pose proof (div_mod_unique2 t' n z' B1) as [G1' G2'].
    rewrite <- F1 in G1, G2. repeat split; congruence. }
  set (Q := fun k x => forall t z ii j, (t < T)%nat -> (z < n)%nat -> (ii < num_per)%nat -> (j < dim0)%nat -> k = idx t z ii j ->
     holds x (db_poly P (pt_of database) t (j * num_per + ii)) z).
  set (body := fun trial i v =>
      do item <- get i database;
      do coeffs <- (if (trial * n + n <=? length item)%nat then Ok (firstn n (skipn (trial * n) item)) else UB);
      do coeffs <- map_out (fun c => recenter_mod c (Z.to_N (sp_p P)) (w_modulus P)) coeffs;
      do item_ntt <- to_ntt avx NP (RawMat 1 1 coeffs);
      loop n 0 (fun z v =>
        do lo <- get z (rm_data item_ntt);
        do hi <- get (n + z) (rm_data item_ntt);
        put (idx trial z (i mod num_per) (i / num_per))%nat (N.lor lo (u64 (hi * 2 ^ 32))) v) v).
  assert (Inner : forall t i s, (t < T)%nat -> (i < dim0 * num_per)%nat -> length s = len -> exists s',
    body t i s = Ok s' /\ length s' = len
    /\ (forall k, existsb (fun z => (k =? idx t z (i mod num_per) (i / num_per))%nat) (seq 0 n) = true -> Q k (nth k s' 0))
    /\ forall k, existsb (fun z => (k =? idx t z (i mod num_per) (i / num_per))%nat) (seq 0 n) = false -> nth k s' 0 = nth k s 0).
  { intros t i s Ht Hi Ls. destruct (item_r database t i Hd Ht Hi) as (m & Em & Hm).
    assert (Eb : body t i s = bind (do it <- get i database;
      do coeffs <- (if (t * n + n <=? length it)%nat then Ok (firstn n (skipn (t * n) it)) else UB);
      do coeffs <- map_out (fun c => recenter_mod c (Z.to_N (sp_p P)) (w_modulus P)) coeffs;
      to_ntt avx NP (RawMat 1 1 coeffs)) (fun item_ntt => loop n 0 (fun z v =>
        do lo <- get z (rm_data item_ntt);
        do hi <- get (n + z) (rm_data item_ntt);
        put (idx t z (i mod num_per) (i / num_per))%nat (N.lor lo (u64 (hi * 2 ^ 32))) v) s)).
    { unfold body. destruct (get i database); try reflexivity. cbn [bind]. destruct (_ <=? _)%nat; [|reflexivity]. cbn [bind].
      destruct (map_out _ _); reflexivity. }
    rewrite Eb, Em. cbn [bind]. clear Eb Em.
    assert (Hii : (i mod num_per < num_per)%nat) by (apply Nat.mod_upper_bound; lia).
    assert (Hj : (i / num_per < dim0)%nat) by (apply Nat.div_lt_upper_bound; lia).
    apply scatter; [exact Ls|]. intros z v Hz Lv. destruct Hm as [(M1 & M2 & M3) Hm].
    pose proof (W_n _ _ _ _ _ HW) as EW. rewrite EW in M3.
    pose proof (Hm 0%nat 0%nat ltac:(lia) ltac:(lia)) as Hh.
    assert (ES : forall k, (k < 2)%nat -> slot L (poly_at W m 0 0) k z = nth (k * n + z) (rm_data m) 0).
    { intros k Hk. unfold slot. rewrite poly_at_nth by (rewrite EW; nia). rewrite M2. reflexivity. }
    destruct (Hh 0%nat z ltac:(rewrite (Hcrt _ _ _ _ _ HW); lia) Hz) as [A1 A2]. destruct (Hh 1%nat z ltac:(rewrite (Hcrt _ _ _ _ _ HW); lia) Hz) as [B1 B2].
    unfold zslot in A2, B2. rewrite ES in A1, A2, B1, B2 by lia. rewrite Nat.mul_0_l, Nat.add_0_l in A1, A2. rewrite Nat.mul_1_l in B1, B2.
    rewrite !get_nth by lia. cbn [bind].
    match goal with |- context [put _ ?w v] => set (wd := w) end.
    destruct (put_word (idx t z (i mod num_per) (i / num_per))%nat wd v len Lv) as (v' & Ev & Lv' & P1 & P2).
    { unfold idx, len. clear - Hz Hj Hii Ht. set (a := (i mod num_per)%nat) in *. set (b := (i / num_per)%nat) in *.
      assert (t * n + z < T * n)%nat by nia. assert ((t * n + z) * num_per + a < T * n * num_per)%nat by nia. nia. }
    exists v'. split; [exact Ev|]. split; [exact Lv'|]. split; [|exact P2]. intros k Hk. rewrite (P1 k Hk). apply Nat.eqb_eq in Hk.
    intros t' z' ii' j' Ht' Hz' Hii' Hj' Ek. rewrite Hk in Ek. destruct (Inj _ _ _ _ _ _ _ _ Hz Hii Hj Hz' Hii' Hj' Ek) as (<- & <- & <- & <-).
    replace (i / num_per * num_per + i mod num_per)%nat with i by (rewrite Nat.mul_comm; apply Nat.div_mod; lia).
    apply holds_pack; assumption. }
  destruct (scatter T len (fun t v => loop (dim0 * num_per) 0 (fun i v => body t i v) v)
     (fun t k => existsb (fun i => existsb (fun z => (k =? idx t z (i mod num_per) (i / num_per))%nat) (seq 0 n)) (seq 0 (dim0 * num_per))) Q (repeat 0 len)) as (l & E & Ll & Hl & _).
  - apply repeat_length.
  - intros t s Ht Ls. apply (scatter (dim0 * num_per) len _ (fun i k => existsb (fun z => (k =? idx t z (i mod num_per) (i / num_per))%nat) (seq 0 n)) Q s Ls).
    intros i s' Hi Ls'. apply Inner; assumption.
  - exists l. split; [exact E|]. split; [exact Ll|]. intros t Ht z i j Hz Hi Hj.
    assert (EI : (t * (dim0 * num_per * n) + z * (num_per * dim0) + i * dim0 + j)%nat = idx t z i j) by (unfold idx; ring).
    rewrite EI. exists (nth (idx t z i j) l 0). split.
    + apply get_nth. rewrite Ll. unfold idx, len. clear - Hz Hi Hj Ht.
      assert (t * n + z < T * n)%nat by nia. assert ((t * n + z) * num_per + i < T * n * num_per)%nat by nia. nia.
    + assert (Hit : (j * num_per + i < dim0 * num_per)%nat) by (clear - Hi Hj; nia).
      destruct (div_mod_unique2 j num_per i Hi) as [X Y].
      apply (Hl (idx t z i j)); try assumption; [|reflexivity].
      apply (existsb_at _ T t Ht). apply (existsb_at _ _ (j * num_per + i)%nat Hit). apply (existsb_at _ n z Hz). rewrite X, Y. apply Nat.eqb_refl.
Qed.

(** The first dimension. *)
Lemma db_word_r : forall db first start i row c z pol reg, (sp_v1 P <= 64)%nat -> firstm first reg -> dbm db start pol ->
  (i < num_per)%nat -> (row < 2)%nat -> (c < 2)%nat -> (z < n)%nat ->
  exists v, db_word NP P db first start i row c z = Ok v /\ v <= qk c
    /\ eqm (zN (qk c)) (zN v) (peval n (crow (first_dim P pol reg i) row) (ntt_point (psi c) L z)).
Proof.
  intros db first start i row c z pol reg Hv1 Hf Hd Hi Hr Hc Hz. unfold db_word.
  destruct (mod_bounds _ _ _ _ _ HW c Hc) as [B1 B2]. set (x := ntt_point (psi c) L z).
  destruct (loop_rule N dim0 0 (fun jm sum =>
      do b <- get (start + z * (num_per * dim0) + i * dim0 + jm) db;
      do a <- get (z * (dim0 * 2) + jm * 2 + row) first;
      Ok (u128 (sum + u64 (half c a * half c b))))
    (fun j sum => sum <= N.of_nat j * 2 ^ 60
       /\ eqm (zN (qk c)) (zN sum) (zsum j (fun k => peval n (crow (reg k) row) x * peval n (pol (k * num_per + i)%nat) x))%Z) 0) as (sum & E & S1 & S2).
  - split; [reflexivity|apply eqm_refl].
  - intros j s Hj [S1 S2]. destruct (Hd z i j Hz Hi ltac:(lia)) as (b & Eb & Hb). destruct (Hf z j row Hz ltac:(lia) Hr) as (a & Ea & Ha).
    rewrite Eb. cbn [bind]. rewrite Ea. cbn [bind]. destruct (Ha c Hc) as [A1 A2]. destruct (Hb c Hc) as [C1 C2].
    assert (K : half c a * half c b <= 2 ^ 60).
    { change (2 ^ 60) with (2 ^ 30 * 2 ^ 30). apply N.mul_le_mono; lia. }
    assert (K2 : s + half c a * half c b <= N.of_nat (j + 1) * 2 ^ 60) by (clear - S1 K; lia).
    assert (K3 : N.of_nat (j + 1) * 2 ^ 60 < 2 ^ 128).
    { assert (N.of_nat (j + 1) <= 2 ^ 64).
      { transitivity (N.of_nat dim0); [lia|]. rewrite Nat2N.inj_pow. apply N.pow_le_mono_r; [discriminate|lia]. }
      eapply N.le_lt_trans; [apply N.mul_le_mono_r, H|reflexivity]. }
    rewrite u64_small by (eapply N.le_lt_trans; [exact K|reflexivity]).
    assert (EU : u128 (s + half c a * half c b) = s + half c a * half c b) by (apply N.mod_small; eapply N.le_lt_trans; eassumption).
    rewrite EU. eexists. split; [reflexivity|]. split; [exact K2|].
    rewrite Nat.add_1_r, zsum_S, N2Z.inj_add, N2Z.inj_mul. apply eqm_add; [exact S2|]. apply eqm_mul; assumption.
  - rewrite E. cbn [bind]. rewrite (modulus_at_r c Hc). cbn [bind].
    destruct (get_barrett_crs (nth c (np_moduli NP) 0)) as [[cr0 cr1]| | |] eqn:EG;
      try (exfalso; revert EG; unfold get_barrett_crs; destruct (N.eqb_spec (nth c (np_moduli NP) 0) 0); [lia|]; discriminate).
    cbn [bind]. rewrite (barrett_u128_exact (nth c (np_moduli NP) 0) cr0 cr1); [| | |exact EG].
    + eexists. split; [reflexivity|]. split; [apply N.lt_le_incl, N.mod_lt; lia|].
      rewrite N2Z.inj_mod. eapply eqm_trans; [apply eqm_mod; lia|]. eapply eqm_trans; [exact S2|]. rewrite Nat.add_0_l.
      unfold first_dim, lincomb.
      assert (EP : eqm (zN (qk c)) (zsum dim0 (fun k => peval n (crow (reg k) row) x * peval n (pol (k * num_per + i)%nat) x))%Z
         (peval n (psum dim0 (fun k => pmul n (crow (reg k) row) (pol (k * num_per + i)%nat))) x)).
      { eapply eqm_trans; [|apply eqm_sym, peval_eqm; intros z' _; apply eqm_eq, psum_zsum].
        rewrite peval_zsum. apply zsum_eqm. intros k Hk. apply eqm_sym, peval_negacyclic. apply point_root.
        destruct (tables_get L psi NP (HP _ _ _ _ _ HW) c ltac:(rewrite (Hcrt _ _ _ _ _ HW); exact Hc)) as (T & _ & _ & _ & _ & _ & _ & HR). exact HR. }
      eapply eqm_trans; [exact EP|]. apply eqm_eq. rewrite (Hlen _ _ _ _ _ HW). destruct row as [|[|row]]; [reflexivity|reflexivity|lia].
    + split; [lia|]. eapply N.le_trans; [apply N.lt_le_incl, B2|discriminate].
    + rewrite Nat.add_0_l in S1. eapply N.le_lt_trans; [exact S1|].
      assert (N.of_nat dim0 <= 2 ^ 64). { rewrite Nat2N.inj_pow. apply N.pow_le_mono_r; [discriminate|lia]. }
      eapply N.le_lt_trans; [apply N.mul_le_mono_r, H|reflexivity].
Qed.

Lemma first_dim_r : forall db first start pol reg, (sp_v1 P <= 64)%nat -> firstm first reg -> dbm db start pol ->
  exists l, multiply_reg_by_database NP P db first start = Ok l /\ vecm num_per l (first_dim P pol reg).
Proof.
  intros db first start pol reg Hv1 Hf Hd. unfold multiply_reg_by_database. rewrite (len_n _ _ _ _ _ HW).
  pose proof (W_n _ _ _ _ _ HW) as EW.
  apply (map_out_seq_nth raw_mat _ (fun i m => ctm m (first_dim P pol reg i)) num_per no_mat).
  intros i Hi. destruct (words_r _ _ _ _ _ HW Hml (fun p => db_word NP P db first start i (p / (2 * n)) ((p / n) mod 2) (p mod n)) (crow (first_dim P pol reg i))) as (d & E & Hdm).
  - intros r c z Hr Hc Hz. destruct (word_index _ _ _ _ _ HW Hml r c z Hc Hz) as (X1 & _ & _ & X4). rewrite EW in X1, X4. rewrite EW. rewrite X1, X4.
    replace (r * (2 * n) + (c * n + z))%nat with ((r * 2 + c) * n + z)%nat by ring. destruct (div_mod_unique2 (r * 2 + c) n z Hz) as [X5 _]. rewrite X5.
    destruct (div_mod_unique2 r 2 c Hc) as [_ X6]. rewrite X6. apply (db_word_r db first start i r c z pol reg); assumption.
  - rewrite EW in E. rewrite E. cbn [bind]. eexists. split; [reflexivity|exact Hdm].
Qed.
End Words.
