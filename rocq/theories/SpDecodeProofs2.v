(** Proofs about SpDecodeModel: sums, noise, and the whole matrix. *)
From Coq Require Import List Arith NArith ZArith Bool Lia.
From Verif Require Import Base PirPackModel PirPackProofs2 PirPackProofs3 SpArithModel SpArithSpec SpArithProofs SpArithProofs2
  SpLoopModel SpLoopProofs SpGadgetModel SpGadgetSpec SpDecodeModel SpDecodeSpec SpDecodeProofs.
Import ListNotations.
Local Open Scope Z_scope.

Lemma zsum_S : forall n f, zsum (S n) f = zsum n f + f n.
Proof.
  intros n f. unfold zsum. rewrite seq_S, map_app, fold_right_app. cbn [map fold_right Nat.add].
  generalize (map f (seq 0 n)) as l. intros l. induction l as [|x l IH]; cbn [fold_right]; lia.
Qed.
Lemma zsum_ext : forall n f g, (forall i, (i < n)%nat -> f i = g i) -> zsum n f = zsum n g.
Proof. induction n as [|n IH]; intros f g H; [reflexivity|]. rewrite !zsum_S, (IH f g), H; auto. Qed.
Lemma zsum_add : forall n f g, zsum n (fun i => f i + g i) = zsum n f + zsum n g.
Proof. induction n as [|n IH]; intros f g; [reflexivity|]. rewrite !zsum_S, IH. lia. Qed.
Lemma zsum_scale : forall n f k, zsum n (fun i => k * f i) = k * zsum n f.
Proof. induction n as [|n IH]; intros f k; [cbn; lia|]. rewrite !zsum_S, IH. lia. Qed.
Lemma zsum_eqm : forall n f g m, (forall i, (i < n)%nat -> eqm m (f i) (g i)) -> eqm m (zsum n f) (zsum n g).
Proof.
  induction n as [|n IH]; intros f g m H; [exists 0; reflexivity|]. rewrite !zsum_S.
  destruct (IH f g m) as [k Hk]; [auto|]. destruct (H n) as [k' Hk']; [lia|]. exists (k + k'). lia.
Qed.
Lemma zsum_abs : forall n f g, (forall i, (i < n)%nat -> Z.abs (f i) <= g i) -> Z.abs (zsum n f) <= zsum n g.
Proof.
  induction n as [|n IH]; intros f g H; [cbn; lia|]. rewrite !zsum_S.
  pose proof (IH f g ltac:(auto)). pose proof (H n ltac:(lia)). lia.
Qed.

Lemma eqm_refl : forall m a, eqm m a a. Proof. intros m a. exists 0. lia. Qed.
Lemma eqm_sym : forall m a b, eqm m a b -> eqm m b a. Proof. intros m a b [k H]. exists (- k). lia. Qed.
Lemma eqm_trans : forall m a b c, eqm m a b -> eqm m b c -> eqm m a c.
Proof. intros m a b c [k H] [k' H']. exists (k + k'). lia. Qed.
Lemma eqm_mul : forall m a b c d, eqm m a b -> eqm m c d -> eqm m (a * c) (b * d).
Proof. intros m a b c d [k H] [k' H']. exists (b * k' + k * d + k * k' * m). subst. ring. Qed.
Lemma eqm_add : forall m a b c d, eqm m a b -> eqm m c d -> eqm m (a + c) (b + d).
Proof. intros m a b c d [k H] [k' H']. exists (k + k'). subst. ring. Qed.
Lemma eqm_opp : forall m a b, eqm m a b -> eqm m (- a) (- b).
Proof. intros m a b [k H]. exists (- k). subst. ring. Qed.
Lemma eqm_mod : forall m a, m <> 0 -> eqm m (a mod m) a.
Proof. intros m a H. exists (- (a / m)). pose proof (Z.div_mod a m H). lia. Qed.
Lemma eqm_of_mod : forall m a b, m <> 0 -> (a - b) mod m = 0 -> eqm m a b.
Proof. intros m a b H E. exists ((a - b) / m). pose proof (Z.div_mod (a - b) m H). lia. Qed.

Lemma negacyclic_eqm : forall n s s' c c' z m, (z < n)%nat ->
  (forall i, (i < n)%nat -> eqm m (s i) (s' i)) -> (forall i, (i < n)%nat -> eqm m (c i) (c' i)) ->
  eqm m (negacyclic n s c z) (negacyclic n s' c' z).
Proof.
  intros n s s' c c' z m Hz Hs Hc. unfold negacyclic. apply zsum_eqm. intros i Hi.
  destruct (Nat.leb_spec i z); [|apply eqm_opp]; apply eqm_mul; auto; apply Hc; lia.
Qed.
Lemma negacyclic_lin : forall n s c d z k, negacyclic n s (fun i => k * c i + d i) z
  = k * negacyclic n s c z + negacyclic n s d z.
Proof.
  intros n s c d z k. unfold negacyclic. rewrite <- zsum_scale, <- zsum_add. apply zsum_ext.
  intros i Hi. destruct (Nat.leb_spec i z); ring.
Qed.
Lemma negacyclic_scale : forall n s c z k, negacyclic n s (fun i => c i * k) z = k * negacyclic n s c z.
Proof.
  intros n s c z k. unfold negacyclic. rewrite <- zsum_scale. apply zsum_ext.
  intros i Hi. destruct (Nat.leb_spec i z); ring.
Qed.
Lemma negacyclic_ext : forall n s c c' z, (z < n)%nat -> (forall i, (i < n)%nat -> c i = c' i) ->
  negacyclic n s c z = negacyclic n s c' z.
Proof.
  intros n s c c' z Hz H. unfold negacyclic. apply zsum_ext. intros i Hi.
  destruct (Nat.leb_spec i z); rewrite H by lia; reflexivity.
Qed.
Lemma negacyclic_bound : forall n s d z B, (z < n)%nat -> (forall i, (i < n)%nat -> 2 * Z.abs (d i) <= B) ->
  2 * Z.abs (negacyclic n s d z) <= B * zsum n (fun i => Z.abs (s i)).
Proof.
  intros n s d z B Hz H. unfold negacyclic.
  set (f := fun i => if (i <=? z)%nat then s i * d (z - i)%nat else - (s i * d (n + z - i)%nat)).
  assert (H1 : Z.abs (zsum n (fun i => 2 * f i)) <= zsum n (fun i => B * Z.abs (s i))).
  { apply zsum_abs. intros i Hi. unfold f.
    assert (Hd : forall j, (j < n)%nat -> Z.abs (2 * (s i * d j)) <= B * Z.abs (s i)).
    { intros j Hj. specialize (H j Hj). rewrite !Z.abs_mul. change (Z.abs 2) with 2.
      pose proof (Z.abs_nonneg (s i)). nia. }
    destruct (Nat.leb_spec i z); [apply Hd; lia|].
    replace (2 * - (s i * d (n + z - i)%nat)) with (- (2 * (s i * d (n + z - i)%nat))) by ring.
    rewrite Z.abs_opp. apply Hd. lia. }
  rewrite !zsum_scale in H1. rewrite Z.abs_mul in H1. exact H1.
Qed.

(** Modulus switching and decoding of one coefficient, over the integers. *)
Lemma abs4 : forall a b c d, Z.abs (a - b + c + d) <= Z.abs a + Z.abs b + Z.abs c + Z.abs d.
Proof. intros. lia. Qed.

Lemma switch_noise : forall n (S C1 Y1 : nat -> Z) C2 Y2 q p q2 m e z h kq,
  0 < q -> 1 <= p -> 1 <= q2 -> 0 <= m < p -> (z < n)%nat ->
  (forall i, (i < n)%nat -> nearest (Y1 i) (C1 i) q q2) -> nearest Y2 C2 q (4 * p) ->
  zsum n (fun i => Z.abs (S i)) <= h ->
  negacyclic n S C1 z + C2 = q / p * m + e + kq * q ->
  2 * Z.abs e * (4 * p * q2) + 8 * m * (q mod p) * q2 + 4 * p * h * q + q2 * q < 4 * q2 * q ->
  exists e' , negacyclic n S Y1 z * (4 * p) + Y2 * q2 = 4 * q2 * m + e' + kq * (4 * p * q2)
    /\ Z.abs e' < 2 * q2.
Proof.
  intros n S C1 Y1 C2 Y2 q p q2 m e z h kq Hq Hp Hq2 Hm Hz H1 H2 Hh Hph Hb.
  set (d1 := fun i => Y1 i * q - C1 i * q2). set (d2 := Y2 * q - C2 * (4 * p)).
  assert (D1 : forall i, (i < n)%nat -> 2 * Z.abs (d1 i) <= q) by (intros i Hi; apply H1; auto).
  assert (D2 : 2 * Z.abs d2 <= q) by exact H2.
  pose proof (negacyclic_bound n S d1 z q Hz D1) as HN.
  assert (HN' : 2 * Z.abs (negacyclic n S d1 z) <= q * h) by nia. clear HN.
  assert (EY : q * negacyclic n S Y1 z = q2 * negacyclic n S C1 z + negacyclic n S d1 z).
  { rewrite <- negacyclic_scale, <- negacyclic_lin. apply negacyclic_ext; auto. intros i _. unfold d1. ring. }
  assert (E2 : q * Y2 = C2 * (4 * p) + d2) by (unfold d2; ring).
  pose proof (Z.div_mod q p ltac:(lia)) as Dq. pose proof (Z.mod_pos_bound q p ltac:(lia)) as Rq.
  set (N1 := negacyclic n S d1 z) in *. set (NY := negacyclic n S Y1 z) in *. set (NC := negacyclic n S C1 z) in *.
  set (D := q / p) in *. set (R := q mod p) in *. clearbody N1 NY NC D R d2.
  exists (NY * (4 * p) + Y2 * q2 - 4 * q2 * m - kq * (4 * p * q2)). split; [ring|].
  set (e' := NY * (4 * p) + Y2 * q2 - 4 * q2 * m - kq * (4 * p * q2)).
  assert (Ee : q * e' = 4 * p * q2 * e - 4 * q2 * m * R + 4 * p * N1 + q2 * d2).
  { unfold e'.
    replace (q * (NY * (4 * p) + Y2 * q2 - 4 * q2 * m - kq * (4 * p * q2)))
      with ((q * NY) * (4 * p) + (q * Y2) * q2 - q * (4 * q2 * m) - kq * q * (4 * p * q2)) by ring.
    rewrite EY, E2.
    replace ((q2 * NC + N1) * (4 * p) + (C2 * (4 * p) + d2) * q2)
      with (4 * p * q2 * (NC + C2) + 4 * p * N1 + q2 * d2) by ring.
    rewrite Hph. rewrite Dq at 2. ring. }
  clearbody e'. clear Hph EY E2 Dq H1 H2 D1.
  assert (Hab : q * Z.abs e' <= 4 * p * q2 * Z.abs e + 4 * q2 * m * R + 4 * p * Z.abs N1 + q2 * Z.abs d2).
  { assert (A1 : q * Z.abs e' = Z.abs (q * e')) by (rewrite Z.abs_mul, (Z.abs_eq q) by lia; reflexivity).
    rewrite A1, Ee.
    assert (A2 : Z.abs (4 * p * q2 * e) = 4 * p * q2 * Z.abs e) by (rewrite Z.abs_mul, (Z.abs_eq (4 * p * q2)) by nia; reflexivity).
    assert (A3 : Z.abs (4 * q2 * m * R) = 4 * q2 * m * R) by (apply Z.abs_eq; assert (0 <= m * R) by nia; nia).
    assert (A4 : Z.abs (4 * p * N1) = 4 * p * Z.abs N1) by (rewrite Z.abs_mul, (Z.abs_eq (4 * p)) by lia; reflexivity).
    assert (A5 : Z.abs (q2 * d2) = q2 * Z.abs d2) by (rewrite Z.abs_mul, (Z.abs_eq q2) by lia; reflexivity).
    pose proof (abs4 (4 * p * q2 * e) (4 * q2 * m * R) (4 * p * N1) (q2 * d2)) as A6. rewrite A2, A3, A4, A5 in A6. exact A6. }
  assert (B1 : 4 * p * (2 * Z.abs N1) <= 4 * p * (q * h)) by (apply Z.mul_le_mono_nonneg_l; lia).
  assert (B2 : q2 * (2 * Z.abs d2) <= q2 * q) by (apply Z.mul_le_mono_nonneg_l; lia).
  assert (Hfin : 2 * (q * Z.abs e') < 4 * q2 * q).
  { replace (4 * p * h * q) with (4 * p * (q * h)) in Hb by ring.
    replace (2 * Z.abs e * (4 * p * q2)) with (2 * (4 * p * q2 * Z.abs e)) in Hb by ring.
    replace (8 * m * R * q2) with (2 * (4 * q2 * m * R)) in Hb by ring. lia. }
  nia.
Qed.

(** The matrices. *)
Lemma map_out_seq_nth : forall (A : Type) (f : nat -> outcome A) (P : nat -> A -> Prop) n d,
  (forall i, (i < n)%nat -> exists y, f i = Ok y /\ P i y) ->
  exists ys, map_out f (seq 0 n) = Ok ys /\ length ys = n /\ forall i, (i < n)%nat -> P i (nth i ys d).
Proof.
  intros A f P n d H. destruct (map_out_forall _ _ f P (seq 0 n)) as (ys & E & F).
  - intros x Hx. apply H. apply in_seq in Hx. lia.
  - exists ys. split; [exact E|].
    assert (L : length (seq 0 n) = length ys) by (clear -F; induction F; cbn [length]; auto). rewrite seq_length in L.
    split; [auto|]. intros i Hi.
    assert (Hg : forall l ys k, Forall2 P l ys -> (k < length l)%nat -> P (nth k l 0%nat) (nth k ys d)).
    { intros l ys0 k HF. revert k. induction HF as [|x y l0 l1 Hxy HF IH]; intros k Hk; cbn [length] in Hk; [lia|].
      destruct k; cbn [nth]; [exact Hxy|]. apply IH. lia. }
    specialize (Hg (seq 0 n) ys i F). rewrite seq_length in Hg. rewrite seq_nth in Hg by lia. apply Hg. exact Hi.
Qed.

Lemma get_nth : forall p (l : list N), (p < length l)%nat -> get p l = Ok (nth p l 0%N).
Proof.
  intros p l H. unfold get. destruct (nth_error l p) as [v|] eqn:E.
  - rewrite (nth_error_nth _ _ _ E). reflexivity.
  - apply nth_error_None in E. lia.
Qed.

Lemma rescale_rows_ok : forall pl m a b im om,
  (0 < im)%N -> (im <= 2 ^ 62)%N -> (0 < om)%N -> (om <= 2 ^ 62)%N ->
  (a < b)%nat -> (b <= rm_rows m)%nat -> length (rm_data m) = (rm_rows m * rm_cols m * pl)%nat ->
  exists d, rescale_rows pl m a b im om = Ok (RawMat (rm_rows m) (rm_cols m) d)
    /\ length d = length (rm_data m)
    /\ forall i, (i < length d)%nat ->
       if ((a * (rm_cols m * pl) <=? i) && (i <? b * (rm_cols m * pl)))%nat
       then exists c y, around_zero c (nth i (rm_data m) 0%N mod im) im /\ nearest y c (Z.of_N im) (Z.of_N om)
            /\ Z.of_N (nth i d 0%N) = y mod Z.of_N om
       else nth i d 0%N = nth i (rm_data m) 0%N.
Proof.
  intros pl m a b im om H1 H2 H3 H4 Hab Hb Hl. unfold rescale_rows.
  rewrite (proj2 (Nat.ltb_lt _ _)), (proj2 (Nat.leb_le _ _)) by lia. cbn [enforce].
  destruct (map_out_seq_nth N (fun p => do v <- get p (rm_data m);
     if ((a * (rm_cols m * pl) <=? p) && (p <? b * (rm_cols m * pl)))%nat then rescale v im om else Ok v)
     (fun i y => if ((a * (rm_cols m * pl) <=? i) && (i <? b * (rm_cols m * pl)))%nat
       then exists c yy, around_zero c (nth i (rm_data m) 0%N mod im) im /\ nearest yy c (Z.of_N im) (Z.of_N om)
            /\ Z.of_N y = yy mod Z.of_N om
       else y = nth i (rm_data m) 0%N) (length (rm_data m)) 0%N) as (ys & E & L & P).
  - intros i Hi. rewrite get_nth by auto. cbn [bind].
    destruct ((a * (rm_cols m * pl) <=? i) && (i <? b * (rm_cols m * pl)))%nat.
    + destruct (rescale_exact (nth i (rm_data m) 0%N) im om H1 H2 H3 H4) as (c & y & r & A & B & C & D).
      exists r. split; [exact C|]. exists c, y. auto.
    + eexists. split; reflexivity.
  - exists ys. rewrite E. cbn [bind]. split; [reflexivity|]. split; [exact L|]. rewrite L. exact P.
Qed.

Lemma sub_matrix_ok : forall pl m row rows,
  (1 <= pl)%nat -> (1 <= rm_cols m)%nat -> (1 <= rows)%nat -> (row + rows <= rm_rows m)%nat ->
  length (rm_data m) = (rm_rows m * rm_cols m * pl)%nat ->
  exists d, sub_matrix pl m row 0 rows (rm_cols m) = Ok (RawMat rows (rm_cols m) d)
    /\ length d = (rows * rm_cols m * pl)%nat
    /\ forall r c z, (r < rows)%nat -> (c < rm_cols m)%nat -> (z < pl)%nat ->
       coeff pl (rm_cols m) d r c z = coeff pl (rm_cols m) (rm_data m) (row + r) c z.
Proof.
  intros pl m row rows Hpl Hc Hr Hrr Hl. unfold sub_matrix.
  rewrite !(proj2 (Nat.ltb_lt _ _)), !(proj2 (Nat.leb_le _ _)) by lia. cbn [andb enforce Nat.add].
  destruct (map_out_seq_nth N (fun p =>
      get (poly_start pl m (row + p / pl / rm_cols m) (0 + (p / pl) mod rm_cols m) + p mod pl) (rm_data m))
     (fun i y => y = nth (row * rm_cols m * pl + i) (rm_data m) 0%N) (rows * rm_cols m * pl)%nat 0%N) as (ys & E & L & P).
  - intros i Hi.
    assert (Ei : (poly_start pl m (row + i / pl / rm_cols m) (0 + (i / pl) mod rm_cols m) + i mod pl
                  = row * rm_cols m * pl + i)%nat).
    { unfold poly_start. pose proof (Nat.div_mod i pl ltac:(lia)) as D1.
      pose proof (Nat.div_mod (i / pl) (rm_cols m) ltac:(lia)) as D2.
      set (x := (i / pl)%nat) in *. set (u := (x / rm_cols m)%nat) in *. set (v := (x mod rm_cols m)%nat) in *.
      set (w := (i mod pl)%nat) in *. clearbody x u v w. subst x. subst i. ring. }
    rewrite Ei. rewrite get_nth; [eexists; split; reflexivity|]. rewrite Hl. nia.
  - cbn [Nat.add] in E. rewrite E. cbn [bind]. exists ys. split; [reflexivity|]. split; [exact L|].
    intros r c z H1 H2 H3. unfold coeff. rewrite P.
    + f_equal. ring.
    + assert (r * rm_cols m + c + 1 <= rows * rm_cols m)%nat by nia. nia.
Qed.
