(** Proofs about SpDecodeModel: modulus switch followed by decoding. *)
From Coq Require Import List Arith NArith ZArith Bool Lia.
From Verif Require Import Base PirPackModel SpArithModel SpArithSpec SpArithProofs SpArithProofs2
  SpLoopModel SpLoopProofs SpGadgetModel SpGadgetSpec SpDecodeModel SpDecodeSpec SpDecodeProofs SpDecodeProofs2.
Import ListNotations.
Local Open Scope Z_scope.

Lemma around_unique : forall c s v q, 1 < Z.of_N q -> around_zero c v q -> eqm (Z.of_N q) s (Z.of_N v) ->
  4 * Z.abs s < Z.of_N q -> c = s.
Proof.
  intros c s v q Hq [Hm Hb] [k Hk] Hs. apply eqm_of_mod in Hm; [|lia]. destruct Hm as [k' Hk'].
  set (Q := Z.of_N q) in *. clearbody Q. set (V := Z.of_N v) in *. clearbody V.
  assert (E : c - s = (k' - k) * Q) by lia. assert (Hd : - Q < c - s < Q) by lia.
  assert (k' - k < 1) by nia. assert (-1 < k' - k) by nia. assert (k' - k = 0) by lia. nia.
Qed.

Lemma switch_ok : forall pl ct q p q2, (1 <= pl)%nat -> (2 <= rm_rows ct)%nat ->
  length (rm_data ct) = (rm_rows ct * rm_cols ct * pl)%nat -> (1 <= rm_cols ct)%nat ->
  (0 < q)%N -> (q <= 2 ^ 60)%N -> (1 <= p)%N -> (1 <= q2)%N -> (8 * p * q2 < 2 ^ 62)%N ->
  Forall (fun v => (v < q)%N) (rm_data ct) ->
  exists d, mod_switch pl ct q p q2 = Ok (RawMat (rm_rows ct) (rm_cols ct) d)
    /\ length d = length (rm_data ct)
    /\ (forall c z, (c < rm_cols ct)%nat -> (z < pl)%nat ->
        exists C Y, around_zero C (coeff pl (rm_cols ct) (rm_data ct) 0 c z) q
          /\ nearest Y C (Z.of_N q) (Z.of_N q2)
          /\ Z.of_N (coeff pl (rm_cols ct) d 0 c z) = Y mod Z.of_N q2)
    /\ (forall r c z, (1 <= r < rm_rows ct)%nat -> (c < rm_cols ct)%nat -> (z < pl)%nat ->
        exists C Y, around_zero C (coeff pl (rm_cols ct) (rm_data ct) r c z) q
          /\ nearest Y C (Z.of_N q) (4 * Z.of_N p)
          /\ Z.of_N (coeff pl (rm_cols ct) d r c z) = Y mod (4 * Z.of_N p)).
Proof.
  intros pl ct q p q2 Hpl Hrows Hl Hcols Hq Hq60 Hp Hq2 Hpq Hv.
  change (2 ^ 60)%N with 1152921504606846976%N in *. change (2 ^ 62)%N with 4611686018427387904%N in *.
  assert (Hp60 : (8 * p < 4611686018427387904)%N) by nia. assert (Hq260 : (8 * q2 < 4611686018427387904)%N) by nia.
  unfold mod_switch. rewrite u64_id by (change (2 ^ 64)%N with 18446744073709551616%N; lia).
  destruct (rescale_rows_ok pl ct 0 1 q q2) as (d1 & E1 & L1 & P1); auto;
    try (change (2 ^ 62)%N with 4611686018427387904%N; lia); try lia.
  rewrite E1. cbn [bind rm_rows].
  destruct (rescale_rows_ok pl (RawMat (rm_rows ct) (rm_cols ct) d1) 1 (rm_rows ct) q (4 * p))
    as (d2 & E2 & L2 & P2); cbn [rm_rows rm_cols rm_data]; auto;
    try (change (2 ^ 62)%N with 4611686018427387904%N; lia); try lia.
  cbn [rm_rows rm_cols rm_data] in *. exists d2. split; [exact E2|]. split; [lia|].
  set (C := rm_cols ct) in *. set (W := (C * pl)%nat) in *.
  assert (Hidx : forall r c z, (c < C)%nat -> (z < pl)%nat ->
    (r * W <= (r * C + c) * pl + z < (r + 1) * W)%nat).
  { intros r c z H1 H2. unfold W. assert (c * pl + z < C * pl)%nat by nia. nia. }
  assert (Hlen : forall r c z, (r < rm_rows ct)%nat -> (c < C)%nat -> (z < pl)%nat ->
    ((r * C + c) * pl + z < length (rm_data ct))%nat).
  { intros r c z H1 H2 H3. rewrite Hl. pose proof (Hidx r c z H2 H3). unfold W in *. nia. }
  assert (Hsm : forall i, (i < length (rm_data ct))%nat -> (nth i (rm_data ct) 0 mod q = nth i (rm_data ct) 0)%N).
  { intros i Hi. apply N.mod_small. rewrite Forall_forall in Hv. apply Hv, nth_In, Hi. }
  split.
  - intros c z H1 H2. pose proof (Hidx 0%nat c z H1 H2) as Hi. pose proof (Hlen 0%nat c z ltac:(lia) H1 H2) as Hi2.
    unfold coeff. set (i := ((0 * C + c) * pl + z)%nat) in *. clearbody i.
    specialize (P1 i ltac:(lia)). specialize (P2 i ltac:(lia)).
    rewrite (proj2 (Nat.leb_le _ _)), (proj2 (Nat.ltb_lt _ _)) in P1 by lia. cbn [andb] in P1.
    rewrite (proj2 (Nat.leb_gt _ _)) in P2 by lia. cbn [andb] in P2.
    destruct P1 as (c0 & y & A & B & D). rewrite Hsm in A by lia. exists c0, y. rewrite P2. auto.
  - intros r c z Hr H1 H2. pose proof (Hidx r c z H1 H2) as Hi. pose proof (Hlen r c z ltac:(lia) H1 H2) as Hi2.
    unfold coeff. set (i := ((r * C + c) * pl + z)%nat) in *. clearbody i.
    assert (Hi3 : (1 * W <= i < rm_rows ct * W)%nat) by nia.
    specialize (P1 i ltac:(lia)). specialize (P2 i ltac:(lia)).
    rewrite (proj2 (Nat.ltb_ge _ _)), andb_false_r in P1 by lia.
    rewrite (proj2 (Nat.leb_le _ _)), (proj2 (Nat.ltb_lt _ _)) in P2 by lia. cbn [andb] in P2.
    destruct P2 as (c0 & y & A & B & D). rewrite P1, Hsm in A by lia. exists c0, y.
    rewrite N2Z.inj_mul in B, D. auto.
Qed.

(** A family of integers chosen coefficient by coefficient. *)
Lemma choose_fun : forall n (P : nat -> Z -> Z -> Prop),
  (forall i, (i < n)%nat -> exists a b, P i a b) -> exists f g, forall i, (i < n)%nat -> P i (f i) (g i).
Proof.
  induction n as [|n IH]; intros P H; [exists (fun _ => 0), (fun _ => 0); lia|].
  destruct (IH P) as (f & g & Hf); [auto|]. destruct (H n) as (a & b & Hab); [lia|].
  exists (fun i => if (i =? n)%nat then a else f i), (fun i => if (i =? n)%nat then b else g i).
  intros i Hi. destruct (Nat.eqb_spec i n) as [->|]; [exact Hab|apply Hf; lia].
Qed.

Section Whole.
Variables (pl n : nat) (q p q2 : N).
Variable mul_q2 : raw_mat -> raw_mat -> raw_mat.
Hypothesis Hpl : (1 <= pl)%nat.
Hypothesis Hn : (1 <= n)%nat.
Hypothesis Hp : (1 <= p)%N.
Hypothesis Hq2 : (2 <= q2)%N.
Hypothesis Hq2q : (q2 <= q)%N.
Hypothesis Hq60 : (q <= 2 ^ 60)%N.
Hypothesis Hpq : (8 * p * q2 < 2 ^ 62)%N.
Hypothesis Hmul : forall a b, length a = (n * pl)%nat -> length b = (n * pl)%nat ->
  Forall (fun v => (v < q2)%N) a -> Forall (fun v => (v < q2)%N) b ->
  length (rm_data (mul_q2 (RawMat n 1 a) (RawMat 1 n b))) = (n * n * pl)%nat
  /\ forall r c z, (r < n)%nat -> (c < n)%nat -> (z < pl)%nat ->
     Z.of_N (coeff pl n (rm_data (mul_q2 (RawMat n 1 a) (RawMat 1 n b))) r c z)
     = negacyclic pl (fun i => Z.of_N (coeff pl 1 a r 0 i)) (fun i => Z.of_N (coeff pl n b 0 c i)) z mod Z.of_N q2.

Lemma switch_decode : forall (S : nat -> nat -> Z) h sk ct (m : nat -> nat -> nat -> N) (e : nat -> nat -> nat -> Z) E,
  length (rm_data sk) = (n * pl)%nat -> Forall (fun v => (v < q)%N) (rm_data sk) ->
  (forall r i, (r < n)%nat -> (i < pl)%nat ->
     eqm (Z.of_N q) (S r i) (Z.of_N (coeff pl 1 (rm_data sk) r 0 i)) /\ 4 * Z.abs (S r i) < Z.of_N q) ->
  (forall r, (r < n)%nat -> zsum pl (fun i => Z.abs (S r i)) <= h) ->
  rm_rows ct = (n + 1)%nat -> rm_cols ct = n -> length (rm_data ct) = ((n + 1) * n * pl)%nat ->
  Forall (fun v => (v < q)%N) (rm_data ct) ->
  (forall r c z, (r < n)%nat -> (c < n)%nat -> (z < pl)%nat ->
     (m r c z < p)%N /\ Z.abs (e r c z) <= E /\
     eqm (Z.of_N q)
       (negacyclic pl (S r) (fun i => Z.of_N (coeff pl n (rm_data ct) 0 c i)) z
        + Z.of_N (coeff pl n (rm_data ct) (r + 1) c z))
       (Z.of_N q / Z.of_N p * Z.of_N (m r c z) + e r c z)) ->
  2 * E * (4 * Z.of_N p * Z.of_N q2) + 8 * (Z.of_N p - 1) * (Z.of_N q mod Z.of_N p) * Z.of_N q2
    + 4 * Z.of_N p * h * Z.of_N q + Z.of_N q2 * Z.of_N q < 4 * Z.of_N q2 * Z.of_N q ->
  exists resp d, mod_switch pl ct q p q2 = Ok resp
    /\ decode_response pl mul_q2 n q p q2 sk resp = Ok (RawMat n n d)
    /\ length d = (n * n * pl)%nat
    /\ forall r c z, (r < n)%nat -> (c < n)%nat -> (z < pl)%nat ->
       coeff pl n d r c z = ((m r c z + 4 * q2 / p) mod p)%N.
Proof using Hpl Hn Hp Hq2 Hq2q Hq60 Hpq Hmul. clear - Hpl Hn Hp Hq2 Hq2q Hq60 Hpq Hmul.
  intros S h sk ct m e E Lsk Vsk HS Hh Hrows Hcols Lct Vct Hph Hb.
  destruct (switch_ok pl ct q p q2) as (dr & Er & Lr & P0 & P1); auto; try lia; try (rewrite ?Hrows, ?Hcols; lia).
  rewrite Hrows, Hcols in Er. rewrite Hcols in P0, P1. rewrite Hrows in P1.
  exists (RawMat (n + 1) n dr).
  (* the key *)
  assert (Esk : exists sd, map_out (fun i => do v <- get i (rm_data sk); recenter v q q2) (seq 0 (pl * n)) = Ok sd
    /\ length sd = (pl * n)%nat /\ forall i, (i < pl * n)%nat ->
       exists c, around_zero c (nth i (rm_data sk) 0%N) q /\ Z.of_N (nth i sd 0%N) = c mod Z.of_N q2).
  { apply (map_out_seq_nth N _ (fun i y => exists c, around_zero c (nth i (rm_data sk) 0%N) q /\ Z.of_N y = c mod Z.of_N q2)).
    intros i Hi. rewrite get_nth by lia. cbn [bind].
    destruct (recenter_exact (nth i (rm_data sk) 0%N) q q2) as (c & r & A & B & D); [lia|auto|auto| |].
    - rewrite Forall_forall in Vsk. apply Vsk, nth_In. lia.
    - exists r. split; [exact B|]. exists c. auto. }
  destruct Esk as (sd & Esd & Lsd & Psd). unfold decode_response. rewrite Esd. cbn [bind rm_cols rm_rows].
  destruct (sub_matrix_ok pl (RawMat (n + 1) n dr) 0 1) as (fd & Ef & Lf & Pf); cbn [rm_rows rm_cols rm_data]; auto; try lia.
  cbn [rm_rows rm_cols rm_data] in *. rewrite Ef. cbn [bind].
  destruct (sub_matrix_ok pl (RawMat (n + 1) n dr) 1 n) as (rd & Ed & Ld & Pd); cbn [rm_rows rm_cols rm_data]; auto; try lia.
  cbn [rm_rows rm_cols rm_data] in *. replace (n + 1 - 1)%nat with n by lia. rewrite Ed. cbn [bind].
  assert (Bsd : Forall (fun v => (v < q2)%N) sd).
  { apply Forall_forall. intros v Hv. destruct (In_nth _ _ 0%N Hv) as (i & Hi & <-).
    destruct (Psd i ltac:(lia)) as (c & _ & Ec). pose proof (Z.mod_pos_bound c (Z.of_N q2) ltac:(lia)). lia. }
  assert (Bfd : Forall (fun v => (v < q2)%N) fd).
  { apply Forall_forall. intros v Hv. destruct (In_nth _ _ 0%N Hv) as (i & Hi & <-).
    pose proof (Nat.div_mod i pl ltac:(lia)) as D. pose proof (Nat.mod_upper_bound i pl ltac:(lia)) as Dm.
    assert (Hc : (i / pl < n)%nat) by (apply Nat.div_lt_upper_bound; lia).
    specialize (Pf 0%nat (i / pl)%nat (i mod pl)%nat ltac:(lia) Hc Dm).
    destruct (P0 (i / pl)%nat (i mod pl)%nat Hc Dm) as (C & Y & _ & _ & EY).
    unfold coeff in Pf, EY. cbn [Nat.add Nat.mul] in Pf, EY.
    replace (i / pl * pl + i mod pl)%nat with i in Pf, EY by lia. rewrite Pf.
    pose proof (Z.mod_pos_bound Y (Z.of_N q2) ltac:(lia)). lia. }
  destruct (Hmul sd fd) as [Lp Pp]; [lia|lia|exact Bsd|exact Bfd|].
  cbv zeta. set (prod := rm_data (mul_q2 (RawMat n 1 sd) (RawMat 1 n fd))) in *. clearbody prod.
  cbn [rm_data]. destruct (map_out_seq_nth N (fun i => do a <- get i prod; do b <- get i (rm_data (RawMat n n rd)); decode_coeff p q2 a b)
     (fun i y => y = ((m (i / pl / n)%nat ((i / pl) mod n)%nat (i mod pl)%nat + 4 * q2 / p) mod p)%N) (n * n * pl)%nat 0%N)
     as (ys & Ey & Ly & Py).
  - intros i Hi. cbn [rm_data]. rewrite !get_nth by lia. cbn [bind].
    set (z := (i mod pl)%nat). set (x := (i / pl)%nat). set (c := (x mod n)%nat). set (r := (x / n)%nat).
    assert (Hz : (z < pl)%nat) by (apply Nat.mod_upper_bound; lia).
    assert (Hx : (x < n * n)%nat) by (apply Nat.div_lt_upper_bound; lia).
    assert (Hc : (c < n)%nat) by (apply Nat.mod_upper_bound; lia).
    assert (Hr : (r < n)%nat) by (apply Nat.div_lt_upper_bound; lia).
    assert (Ei : i = ((r * n + c) * pl + z)%nat).
    { pose proof (Nat.div_mod i pl ltac:(lia)). pose proof (Nat.div_mod x n ltac:(lia)).
      fold x z in H. fold r c in H0. rewrite H, H0. ring. }
    clearbody z x c r. subst i.
    change (nth ((r * n + c) * pl + z) prod 0%N) with (coeff pl n prod r c z).
    change (nth ((r * n + c) * pl + z) rd 0%N) with (coeff pl n rd r c z).
    rewrite (Pd r c z) by auto.
    destruct (choose_fun pl (fun i C Y => around_zero C (coeff pl n (rm_data ct) 0 c i) q
          /\ nearest Y C (Z.of_N q) (Z.of_N q2) /\ Z.of_N (coeff pl n dr 0 c i) = Y mod Z.of_N q2)) as (C1 & Y1 & H1).
    { intros i Hi'. apply P0; auto. }
    destruct (P1 (1 + r)%nat c z) as (C2 & Y2 & A2 & N2 & D2); [lia|auto|auto|].
    destruct (Hph r c z Hr Hc Hz) as (Hm & He & Hphase).
    pose proof (Pp r c z Hr Hc Hz) as Hprod.
    set (a := coeff pl n prod r c z) in *. clearbody a.
    set (b := coeff pl n dr (1 + r) c z) in *. clearbody b.
    assert (Hqz : Z.of_N q2 <> 0) by lia.
    assert (Ea : eqm (Z.of_N q2) (Z.of_N a) (negacyclic pl (S r) Y1 z)).
    { rewrite Hprod. eapply eqm_trans; [apply eqm_mod; auto|]. apply negacyclic_eqm; auto.
      - intros i Hi'. destruct (Psd ((r * 1 + 0) * pl + i)%nat) as (c' & A & B); [assert ((r + 1) * pl <= n * pl)%nat by (apply Nat.mul_le_mono_r; lia); lia|].
        unfold coeff. rewrite B. destruct (HS r i Hr Hi') as [HS1 HS2].
        rewrite (around_unique c' (S r i) _ q ltac:(lia) A HS1 HS2). apply eqm_mod; auto.
      - intros i Hi'. rewrite Pf by lia. cbn [Nat.add]. destruct (H1 i Hi') as (_ & _ & ->). apply eqm_mod; auto. }
    destruct Ea as [ka Ea].
    assert (Eb : eqm (4 * Z.of_N p) (Z.of_N b) Y2) by (rewrite D2; apply eqm_mod; lia).
    destruct Eb as [kb Eb].
    assert (Ephase : eqm (Z.of_N q) (negacyclic pl (S r) C1 z + C2) (Z.of_N q / Z.of_N p * Z.of_N (m r c z) + e r c z)).
    { eapply eqm_trans; [|exact Hphase]. apply eqm_add.
      - apply negacyclic_eqm; auto; [intros; apply eqm_refl|]. intros i Hi'. destruct (H1 i Hi') as ([HC _] & _ & _).
        apply eqm_of_mod in HC; [auto|lia].
      - destruct A2 as [HC _]. apply eqm_of_mod in HC; [|lia]. rewrite (Nat.add_comm r 1). exact HC. }
    destruct Ephase as [kq Ephase].
    destruct (switch_noise pl (S r) C1 Y1 C2 Y2 (Z.of_N q) (Z.of_N p) (Z.of_N q2) (Z.of_N (m r c z)) (e r c z) z h kq)
      as (e' & Ee & Hee); auto; try lia.
    { intros i Hi'. apply (H1 i Hi'). }
    { clear Ephase Eb Ea Hprod Hphase H1 A2 N2 D2 Hmul Pp Pd Pf Psd P0 P1 HS.
      assert (HM : 8 * Z.of_N (m r c z) * (Z.of_N q mod Z.of_N p) * Z.of_N q2
                   <= 8 * (Z.of_N p - 1) * (Z.of_N q mod Z.of_N p) * Z.of_N q2).
      { pose proof (Z.mod_pos_bound (Z.of_N q) (Z.of_N p) ltac:(lia)).
        apply Z.mul_le_mono_nonneg_r; [lia|]. apply Z.mul_le_mono_nonneg_r; lia. }
      assert (HE : 2 * Z.abs (e r c z) * (4 * Z.of_N p * Z.of_N q2) <= 2 * E * (4 * Z.of_N p * Z.of_N q2)).
      { apply Z.mul_le_mono_nonneg_r; [|lia]. assert (0 <= Z.of_N p * Z.of_N q2) by nia. lia. }
      lia. }
    exists (Z.to_N ((Z.of_N (m r c z) + Z.of_N (4 * q2 / p)) mod Z.of_N p)). split.
    + apply (decode_coeff_exact p q2 a b (Z.of_N (m r c z)) e' (kq + ka + kb)); auto; [lia| | |].
      * pose proof (Z.mod_pos_bound (negacyclic pl (fun i => Z.of_N (coeff pl 1 sd r 0 i)) (fun i => Z.of_N (coeff pl n fd 0 c i)) z) (Z.of_N q2) ltac:(lia)). lia.
      * pose proof (Z.mod_pos_bound Y2 (4 * Z.of_N p) ltac:(lia)). lia.
      * rewrite Ea, Eb.
        replace ((negacyclic pl (S r) Y1 z + ka * Z.of_N q2) * (4 * Z.of_N p) + (Y2 + kb * (4 * Z.of_N p)) * Z.of_N q2)
          with (negacyclic pl (S r) Y1 z * (4 * Z.of_N p) + Y2 * Z.of_N q2 + (ka + kb) * (4 * Z.of_N p * Z.of_N q2)) by ring.
        rewrite Ee. ring.
    + rewrite <- N2Z.inj_add, <- N2Z.inj_mod, N2Z.id by lia. reflexivity.
  - exists ys. cbn [rm_data] in Ey. setoid_rewrite Ey. cbn [bind]. split; [exact Er|]. split; [reflexivity|]. split; [exact Ly|].
    intros r c z Hr Hc Hz. unfold coeff. rewrite Py.
    + destruct (div_mod_unique2 (r * n + c) pl z Hz) as [-> ->].
      destruct (div_mod_unique2 r n c Hc) as [-> ->]. reflexivity.
    + assert (r * n + c + 1 <= n * n)%nat by nia. nia.
Qed.
End Whole.
