From Coq Require Import List ZArith NArith Bool Arith Lia.
From Verif Require Import Base BaseProofs Text Rr22MatchModel Rr22MatchProofs OkvsModel OkvsProofs SpDecodeSpec SpDecodeProofs2 SpRingProofs SpRingProofs2 SimPirModel.
Import ListNotations.
Local Open Scope Z_scope.

Definition ipv (row col : list Z) (q : Z) : Z :=
  fold_left (fun result rc => w128 (result + fst rc * snd rc)) (combine row col) 0 mod q.
Lemma inner_ok : forall row col q, length row = length col -> 0 < q -> inner_modq row col q = Ok (ipv row col q).
Proof.
  intros row col q L Q. unfold inner_modq. rewrite L, Nat.eqb_refl. cbn [enforce].
  rewrite (proj2 (Z.ltb_lt 0 q) Q). reflexivity.
Qed.
Lemma eqm_w : forall q k x, 0 < q -> (q | 2 ^ 64) -> 64 <= k -> eqm q (x mod 2 ^ k) x.
Proof.
  intros q k x Q [d D] K. assert (P : 0 < 2 ^ k) by (apply Z.pow_pos_nonneg; lia).
  exists (- (x / 2 ^ k) * (d * 2 ^ (k - 64))).
  pose proof (Z.div_mod x (2 ^ k) ltac:(lia)) as E.
  assert (E2 : 2 ^ k = 2 ^ 64 * 2 ^ (k - 64)) by (rewrite <- Z.pow_add_r by lia; f_equal; lia).
  replace (- (x / 2 ^ k) * (d * 2 ^ (k - 64)) * q) with (- (x / 2 ^ k) * (d * q * 2 ^ (k - 64))) by ring.
  rewrite <- D, <- E2. lia.
Qed.
Lemma fold_eqm : forall q row col acc, 0 < q -> (q | 2 ^ 64) -> length row = length col ->
  eqm q (fold_left (fun result rc => w128 (result + fst rc * snd rc)) (combine row col) acc)
        (acc + zsum (length row) (fun i => nth i row 0 * nth i col 0)).
Proof.
  intros q row. induction row as [|x r IH]; intros [|y c] acc Q D L; try discriminate L.
  - cbn. exists 0. lia.
  - cbn [combine fold_left fst snd length]. eapply eqm_trans; [apply IH; auto|].
    rewrite zsum_front. cbn [nth]. rewrite Z.add_assoc. apply eqm_add; [|apply eqm_refl].
    apply eqm_w; [exact Q|exact D|lia].
Qed.
Lemma ipv_eqm : forall q row col, 0 < q -> (q | 2 ^ 64) -> length row = length col ->
  eqm q (ipv row col q) (zsum (length row) (fun i => nth i row 0 * nth i col 0)).
Proof.
  intros q row col Q D L. unfold ipv. eapply eqm_trans; [apply eqm_mod; lia|].
  eapply eqm_trans; [apply fold_eqm; assumption|]. exists 0. lia.
Qed.
Lemma ipv_range : forall row col q, 0 < q -> 0 <= ipv row col q < q.
Proof. intros. unfold ipv. apply Z.mod_pos_bound. assumption. Qed.

Lemma nth_map_seq : forall {A} (f : nat -> A) n i d, (i < n)%nat -> nth i (map f (seq 0 n)) d = f i.
Proof.
  intros A f n i d H. rewrite (nth_indep _ d (f 0%nat)) by (rewrite map_length, seq_length; exact H).
  rewrite map_nth, seq_nth by exact H. reflexivity.
Qed.
Lemma nth_concat_rows : forall {A} (f : nat -> nat -> A) w h i j d, (i < h)%nat -> (j < w)%nat ->
  nth (i * w + j) (concat (map (fun i => map (f i) (seq 0 w)) (seq 0 h))) d = f i j.
Proof.
  intros A f w h i j d Hi Hj. revert i Hi f. induction h as [|h IH]; intros i Hi f; [lia|].
  cbn [seq map concat]. rewrite <- seq_shift, map_map. destruct i as [|i].
  - rewrite app_nth1 by (rewrite map_length, seq_length; lia). cbn [Nat.mul Nat.add]. apply nth_map_seq, Hj.
  - rewrite app_nth2 by (rewrite map_length, seq_length; lia). rewrite map_length, seq_length.
    replace (S i * w + j - w)%nat with (i * w + j)%nat by lia.
    apply (IH i ltac:(lia) (fun k => f (S k))).
Qed.
Lemma concat_rows_len : forall {A} (f : nat -> nat -> A) w h,
  length (concat (map (fun i => map (f i) (seq 0 w)) (seq 0 h))) = (h * w)%nat.
Proof.
  intros A f w h. revert f. induction h as [|h IH]; intros f; [reflexivity|]. cbn [seq map concat].
  rewrite app_length, map_length, seq_length, <- seq_shift, map_map. rewrite (IH (fun k => f (S k))). lia.
Qed.

Lemma set_database_ok : forall s db m, (0 < m)%nat -> Nat.sqrt (ss_n s) = m -> length db = m -> (forall r, In r db -> length r = m) ->
  set_database s db = Ok {| ss_dim := ss_dim s; ss_q := ss_q s; ss_n := ss_n s; ss_db := db; ss_a := ss_a s |}.
Proof.
  intros s db m Hm E L R. unfold set_database. rewrite E. destruct db as [|r0 rest]; [cbn in L; lia|].
  rewrite L, Nat.eqb_refl, (R r0 (or_introl eq_refl)), Nat.eqb_refl. reflexivity.
Qed.

Section P.
Set Default Proof Using "All".
Variables (dim m : nat) (q p : Z) (rv : list Z) (db : list (list Z)).
Hypothesis Hdim : (0 < dim)%nat.
Hypothesis Hm : (0 < m)%nat.
Hypothesis Hq : 1 < q.
Hypothesis Dq : (q | 2 ^ 64).
Hypothesis Hp : 0 < p.
Hypothesis Ldb : length db = m.
Hypothesis Lrow : forall r, In r db -> length r = m.

Definition row (i : nat) : list Z := nth i db [].
Lemma row_len : forall i, (i < m)%nat -> length (row i) = m.
Proof. intros i H. apply Lrow. unfold row. apply nth_In. lia. Qed.

Definition at_ (i j : nat) : Z := nth (i * m + j) rv 0 mod q.      (* the server's A *)
Definition arow (i : nat) : list Z := map (fun j => at_ i j) (seq 0 m).
Definition hv (i j : nat) : Z := ipv (row i) (arow j) q.

Definition server : sim_server :=
  {| ss_dim := dim; ss_q := q; ss_n := m * m; ss_db := db; ss_a := map arow (seq 0 dim) |}.
Definition client (r : nat) (s : list Z) : sim_client :=
  {| sc_dim := dim; sc_q := q; sc_n := m * m; sc_p := p; sc_delta := q / p; sc_row := r; sc_s := s;
     sc_hint := map (fun i => map (hv i) (seq 0 dim)) (seq 0 m);
     sc_a := map (fun i => map (fun j => at_ j i) (seq 0 dim)) (seq 0 m) |}.

Lemma sqrt_mm : Nat.sqrt (m * m) = m.
Proof using. apply Nat.sqrt_square. Qed.
Lemma params_good : params_ok dim q (m * m) p = true.
Proof.
  unfold params_ok. rewrite sqrt_mm, Nat.eqb_refl, (proj2 (Nat.ltb_lt 0 (m * m))) by nia.
  rewrite (proj2 (Nat.ltb_lt 0 dim)) by assumption. rewrite (proj2 (Z.ltb_lt 0 q)) by lia.
  rewrite (proj2 (Z.ltb_lt 0 p)) by lia. reflexivity.
Qed.

Lemma offline_ok : sim_offline dim q (m * m) p rv db = Ok (server, client 0 []).
Proof.
  unfold sim_offline, sim_server_new. rewrite params_good. cbn [enforce bind].
  rewrite (set_database_ok _ db m); [|exact Hm|exact sqrt_mm|exact Ldb|exact Lrow]. cbn [bind ss_dim ss_q ss_n ss_a].
  unfold lwe_matrix. cbn [ss_n ss_q ss_dim ss_db]. rewrite sqrt_mm.
  unfold get_hint. cbn [ss_n ss_q ss_dim ss_db ss_a]. rewrite sqrt_mm.
  rewrite (omapM_ok _ _ _ (fun i => map (hv i) (seq 0 dim))).
  - cbn [bind]. unfold sim_client_new. rewrite params_good. cbn [enforce bind].
    unfold sim_setup. cbn [sc_n sc_dim sc_q sc_p sc_delta sc_row sc_s]. rewrite sqrt_mm, concat_rows_len, Nat.ltb_irrefl.
    cbn [bind]. unfold server, client, arow, at_. do 3 f_equal.
    apply map_ext_in. intros i Hi. apply in_seq in Hi. apply map_ext_in. intros j Hj. apply in_seq in Hj.
    apply nth_concat_rows; lia.
  - intros i Hi. apply in_seq in Hi. apply omapM_ok. intros j Hj. apply in_seq in Hj.
    rewrite nth_map_seq by lia. apply inner_ok; [|lia]. fold (row i). rewrite row_len by lia.
    rewrite map_length, seq_length. reflexivity.
Qed.

(** One round, up to the number the client rounds. *)
Variables (secret errs : list Z) (idx : nat).
Hypothesis Hidx : (idx < m * m)%nat.

Definition sv : list Z := map (fun i => nth i secret 0 mod q) (seq 0 dim).
Definition quv (i : nat) : Z :=
  w64 (w64 (ipv (map (fun j => at_ j i) (seq 0 dim)) sv q + (if Nat.eqb i (Nat.modulo idx m) then q / p else 0)) + w64 (nth i errs 0)) mod q.
Definition qul : list Z := map quv (seq 0 m).
Definition av : Z := ipv (row (Nat.div idx m)) qul q.
Definition hsv : Z := ipv (map (hv (Nat.div idx m)) (seq 0 dim)) sv q.
Definition datum : Z := nth (Nat.modulo idx m) (nth (Nat.div idx m) db []) 0.
Definition noise : Z := zsum m (fun i => nth i (nth (Nat.div idx m) db []) 0 * nth i errs 0).

Lemma div_lt : (Nat.div idx m < m)%nat.
Proof. apply Nat.div_lt_upper_bound; lia. Qed.
Lemma mod_lt : (Nat.modulo idx m < m)%nat.
Proof. apply Nat.mod_upper_bound. lia. Qed.

Lemma quv_eqm : forall i, (i < m)%nat ->
  eqm q (quv i) (zsum dim (fun j => at_ j i * nth j sv 0) + (if Nat.eqb i (Nat.modulo idx m) then q / p else 0) + nth i errs 0).
Proof.
  intros i Hi. unfold quv. eapply eqm_trans; [apply eqm_mod; lia|].
  eapply eqm_trans; [apply eqm_w; (exact Dq || lia)|]. apply eqm_add; [|apply eqm_w; (exact Dq || lia)].
  eapply eqm_trans; [apply eqm_w; (exact Dq || lia)|]. apply eqm_add; [|apply eqm_refl].
  eapply eqm_trans; [apply ipv_eqm; [lia|exact Dq|]|].
  - unfold sv. rewrite !map_length. reflexivity.
  - rewrite map_length, seq_length. erewrite zsum_ext; [apply eqm_refl|]. intros j Hj. cbv beta.
    rewrite nth_map_seq by exact Hj. reflexivity.
Qed.

Lemma phase_eqm : eqm q (av - hsv) (q / p * datum + noise).
Proof.
  set (r := nth (Nat.div idx m) db []).
  assert (Lr : length r = m) by (apply row_len, div_lt).
  assert (EA : eqm q av (zsum m (fun i => zsum dim (fun j => nth i r 0 * (at_ j i * nth j sv 0))) + (q / p * datum + noise))).
  { unfold av. eapply eqm_trans; [apply ipv_eqm; [lia|exact Dq|]|].
    - fold r. unfold row. fold r. rewrite Lr. unfold qul. rewrite map_length, seq_length. reflexivity.
    - unfold row. fold r. rewrite Lr.
      eapply eqm_trans.
      + apply zsum_eqm. intros i Hi. cbv beta. unfold qul. rewrite nth_map_seq by exact Hi.
        apply eqm_mul; [apply eqm_refl|]. apply quv_eqm, Hi.
      + rewrite (zsum_ext m _ (fun i => (zsum dim (fun j => nth i r 0 * (at_ j i * nth j sv 0)) +
               (if Nat.eqb i (Nat.modulo idx m) then 1 else 0) * (q / p * nth i r 0)) + nth i r 0 * nth i errs 0)).
        * rewrite !zsum_add. rewrite zsum_delta by apply mod_lt. unfold datum, noise. fold r. exists 0. ring.
        * intros i Hi. rewrite zsum_scale. destruct (Nat.eqb i (Nat.modulo idx m)); ring. }
  assert (EH : eqm q hsv (zsum m (fun i => zsum dim (fun j => nth i r 0 * (at_ j i * nth j sv 0))))).
  { unfold hsv. eapply eqm_trans; [apply ipv_eqm; [lia|exact Dq|]|].
    - unfold sv. rewrite !map_length. reflexivity.
    - rewrite map_length, seq_length. eapply eqm_trans.
      + apply zsum_eqm. intros j Hj. cbv beta. rewrite nth_map_seq by exact Hj. apply eqm_mul; [|apply eqm_refl].
        unfold hv. apply ipv_eqm; [lia|exact Dq|]. unfold row, arow. fold r. rewrite Lr, map_length, seq_length. reflexivity.
      + unfold row. fold r. rewrite Lr.
        rewrite (zsum_ext dim _ (fun j => zsum m (fun i => nth i r 0 * (at_ j i * nth j sv 0)))).
        * rewrite zsum_swap. apply eqm_refl.
        * intros j Hj. rewrite Z.mul_comm, <- zsum_scale. apply zsum_ext. intros i Hi. unfold arow. rewrite nth_map_seq by exact Hi. ring. }
  pose proof (eqm_add q _ _ _ _ EA (eqm_opp q _ _ EH)) as E. destruct E as [k E]. exists k.
  replace (av - hsv) with (av + - hsv) by ring. rewrite E. ring.
Qed.

Definition rounded (phase : Z) : Z :=
  (if phase mod (q / p) >=? q / p / 2 then w64 (phase / (q / p) + 1) else phase / (q / p)) mod p.

Lemma round_ok : forall r s, 0 < q / p ->
  sim_round server (client r s) secret errs idx =
  Ok (client (Nat.div idx m) sv, rounded (w64 (av - hsv))).
Proof.
  intros r s HD. unfold sim_round, sim_query. cbn [sc_n sc_dim sc_q client]. rewrite (proj2 (Nat.ltb_lt idx (m * m))) by exact Hidx.
  rewrite (proj2 (Nat.ltb_lt 0 dim)) by exact Hdim. rewrite (proj2 (Z.ltb_lt 1 q)) by exact Hq. cbn [enforce].
  fold sv. rewrite sqrt_mm.
  rewrite (omapM_ok _ _ _ quv).
  2:{ intros i Hi. apply in_seq in Hi. cbn [client sc_a]. rewrite nth_map_seq by lia.
      rewrite inner_ok; [reflexivity| |lia]. unfold sv. rewrite !map_length. reflexivity. }
  cbn [bind]. unfold sim_answer. cbn [server ss_n ss_db ss_q]. rewrite sqrt_mm. fold qul.
  rewrite (omapM_ok _ _ _ (fun i => ipv (row i) qul q)).
  2:{ intros i Hi. apply in_seq in Hi. fold (row i). apply inner_ok; [|lia]. rewrite row_len by lia. unfold qul. rewrite map_length, seq_length. reflexivity. }
  cbn [bind]. unfold sim_recover. cbn [sc_row sc_hint sc_q sc_s sc_p sc_delta client].
  pose proof div_lt as DL.
  rewrite (nth_error_nth' _ 0) by (rewrite map_length, seq_length; exact DL).
  rewrite (nth_error_nth' _ []) by (rewrite map_length, seq_length; exact DL).
  rewrite !nth_map_seq by exact DL. fold av.
  rewrite inner_ok by (try lia; unfold sv; rewrite !map_length; reflexivity). fold hsv. cbn [bind].
  rewrite (proj2 (Z.eqb_neq (q / p) 0)) by lia. reflexivity.
Qed.

Lemma value_ok : sim_value server idx = Ok datum.
Proof.
  unfold sim_value. cbn [server ss_n ss_db]. rewrite (proj2 (Nat.ltb_lt idx (m * m))) by exact Hidx.
  rewrite sqrt_mm. reflexivity.
Qed.

(** Rounding. *)
Definition quiet : Prop := - (q / p - q / p / 2) <= noise < q / p / 2.

Lemma round_multiple : forall D k E, 0 < D -> - (D - D / 2) <= E < D / 2 -> 0 <= D * k + E ->
  (if (D * k + E) mod D >=? D / 2 then (D * k + E) / D + 1 else (D * k + E) / D) = k.
Proof using.
  clear. intros D k E HD HE HP. assert (HH : 0 <= D / 2 <= D) by (pose proof (Z.div_pos D 2); pose proof (Z.div_le_upper_bound D 2 D); lia).
  destruct (Z_lt_le_dec E 0) as [N|N].
  - assert (Q : (D * k + E) / D = k - 1) by (symmetry; apply (Z.div_unique_pos _ _ _ (D + E)); nia).
    assert (R : (D * k + E) mod D = D + E) by (symmetry; apply (Z.mod_unique_pos _ _ (k - 1)); nia).
    rewrite Q, R. replace (D + E >=? D / 2) with true by (symmetry; apply Z.geb_le; lia). lia.
  - assert (Q : (D * k + E) / D = k) by (symmetry; apply (Z.div_unique_pos _ _ _ E); nia).
    assert (R : (D * k + E) mod D = E) by (symmetry; apply (Z.mod_unique_pos _ _ k); nia).
    rewrite Q, R. replace (E >=? D / 2) with false; [reflexivity|]. symmetry. rewrite Z.geb_leb. apply Z.leb_gt. lia.
Qed.

Lemma w64_range : forall x, 0 <= w64 x < 2 ^ 64.
Proof using. clear. intros x. apply Z.mod_pos_bound. lia. Qed.

Lemma rounded_value : forall k E, 2 <= q / p -> - (q / p - q / p / 2) <= E < q / p / 2 ->
  0 <= q / p * k + E < 2 ^ 64 -> rounded (q / p * k + E) = k mod p.
Proof using.
  intros k E HD HE HP. clear - HD HE HP. unfold rounded. set (D := q / p) in *.
  pose proof (round_multiple D k E ltac:(lia) HE ltac:(lia)) as R.
  destruct (((D * k + E) mod D) >=? D / 2).
  - rewrite R. unfold w64. rewrite (Z.mod_small k (2 ^ 64)); [reflexivity|].
    assert (0 <= (D * k + E) / D) by (apply Z.div_pos; lia).
    assert ((D * k + E) / D <= (2 ^ 64 - 1) / 2).
    { apply Z.le_trans with ((D * k + E) / 2); [apply Z.div_le_compat_l; lia | apply Z.div_le_mono; lia]. }
    change ((2 ^ 64 - 1) / 2) with 9223372036854775807 in *. lia.
  - rewrite R. reflexivity.
Qed.

End P.

(** The numbers behind Recover: what is rounded is delta (d + p j) plus a small rest. *)
Lemma phase_shape : forall M q p d E a h k : Z,
  0 < p -> 2 * p <= q -> q <= M -> 0 <= d < p -> 0 <= a < q -> 0 <= h < q ->
  a - h = q / p * d + E + k * q ->
  - (q / p - q / p / 2) <= E -> E + q mod p + (M - q) mod (q / p * p) < q / p / 2 ->
  exists j E', (if a - h <? 0 then M + (a - h) else a - h) = q / p * (d + p * j) + E' /\
    - (q / p - q / p / 2) <= E' < q / p / 2.
Proof.
  intros M q p d E a h k Hp H2 HM Hd Ha Hh Ek HL HU.
  pose proof (Z.div_mod q p ltac:(lia)) as Eq. pose proof (Z.mod_pos_bound q p Hp) as Hr.
  assert (D2 : 2 <= q / p) by (apply Z.div_le_lower_bound; lia).
  set (D := q / p) in *. set (r := q mod p) in *.
  assert (HDp : 0 < D * p) by (apply Z.mul_pos_pos; lia).
  pose proof (Z.mod_pos_bound (M - q) (D * p) HDp) as HW.
  pose proof (Z.div_mod (M - q) (D * p) ltac:(lia)) as EW.
  set (W := (M - q) mod (D * p)) in *. set (K := (M - q) / (D * p)) in *.
  assert (HH : 0 <= D / 2 <= D) by (split; [apply Z.div_pos; lia | apply Z.div_le_upper_bound; lia]).
  clearbody D r W K.
  assert (U1 : D * d <= D * (p - 1)) by (apply Z.mul_le_mono_nonneg_l; lia).
  assert (U0 : 0 <= D * d) by (apply Z.mul_nonneg_nonneg; lia).
  assert (U2 : D * (p - 1) = D * p - D) by ring.
  assert (E1 : q = D * p + r) by (rewrite Eq; ring).
  assert (P1 : D <= D * p) by (rewrite <- (Z.mul_1_r D) at 1; apply Z.mul_le_mono_nonneg_l; lia).
  assert (XL : - q < D * d + E) by lia. assert (XU : D * d + E < q) by lia.
  clear Eq U1 U2 P1. assert (Q0 : 0 < q) by lia.
  destruct (Z.ltb_spec (a - h) 0) as [N|N].
  - assert (k < 1). { destruct (Z_lt_le_dec k 1) as [|G]; [assumption|]. assert (1 * q <= k * q) by (apply Z.mul_le_mono_nonneg_r; lia). lia. }
    assert (-2 < k). { destruct (Z_lt_le_dec (-2) k) as [|G]; [assumption|]. assert (k * q <= -2 * q) by (apply Z.mul_le_mono_nonneg_r; lia). lia. }
    assert (C : k = 0 \/ k = -1) by lia. destruct C; subst k.
    + exists (K + 1), (E + r + W). split; [|lia]. replace (D * (d + p * (K + 1))) with (D * d + D * p * K + D * p) by ring. lia.
    + exists K, (E + W). split; [|lia]. replace (D * (d + p * K)) with (D * d + D * p * K) by ring. lia.
  - assert (k < 2). { destruct (Z_lt_le_dec k 2) as [|G]; [assumption|]. assert (2 * q <= k * q) by (apply Z.mul_le_mono_nonneg_r; lia). lia. }
    assert (-1 < k). { destruct (Z_lt_le_dec (-1) k) as [|G]; [assumption|]. assert (k * q <= -1 * q) by (apply Z.mul_le_mono_nonneg_r; lia). lia. }
    assert (C : k = 0 \/ k = 1) by lia. destruct C; subst k.
    + exists 0, E. split; [|lia]. replace (D * (d + p * 0)) with (D * d) by ring. lia.
    + exists 1, (E + r). split; [|lia]. replace (D * (d + p * 1)) with (D * d + D * p) by ring. lia.
Qed.

Lemma w64_sub : forall q a h, q <= 2 ^ 64 -> 0 <= a < q -> 0 <= h < q ->
  w64 (a - h) = if a - h <? 0 then 2 ^ 64 + (a - h) else a - h.
Proof.
  intros q a h Q Ha Hh. unfold w64. destruct (Z.ltb_spec (a - h) 0).
  - symmetry. apply (Z.mod_unique_pos _ _ (-1)); lia.
  - apply Z.mod_small. lia.
Qed.

Lemma recover_value : forall dim m q p rv db, (0 < dim)%nat -> (0 < m)%nat -> 1 < q -> (q | 2 ^ 64) -> 0 < p ->
  length db = m -> (forall r, In r db -> length r = m) ->
  forall secret errs idx, (idx < m * m)%nat ->
  0 <= datum m db idx < p -> 2 * p <= q ->
  - (q / p - q / p / 2) <= noise m db errs idx ->
  noise m db errs idx + q mod p + (2 ^ 64 - q) mod (q / p * p) < q / p / 2 ->
  rounded q p (w64 (av dim m q p rv db secret errs idx - hsv dim m q rv db secret idx)) = datum m db idx.
Proof.
  intros dim m q p rv db Hdim Hm Hq Dq Hp Ldb Lrow secret errs idx Hidx Hd H2 HL HU.
  destruct (phase_eqm dim m q p rv db Hdim Hm Hq Dq Hp Ldb Lrow secret errs idx Hidx) as [k Ek].
  pose proof (ipv_range (row db (Nat.div idx m)) (qul dim m q p rv secret errs idx) q ltac:(lia)) as RA.
  pose proof (ipv_range (map (hv m q rv db (Nat.div idx m)) (seq 0 dim)) (sv dim q secret) q ltac:(lia)) as RH.
  fold (av dim m q p rv db secret errs idx) in RA. fold (hsv dim m q rv db secret idx) in RH.
  assert (Q64 : q <= 2 ^ 64) by (apply Z.divide_pos_le; [lia|exact Dq]).
  set (a := av dim m q p rv db secret errs idx) in *. set (h := hsv dim m q rv db secret idx) in *.
  set (d := datum m db idx) in *. set (E := noise m db errs idx) in *.
  destruct (phase_shape (2 ^ 64) q p d E a h k Hp H2 Q64 Hd RA RH Ek HL HU) as (j & E' & EJ & HE').
  pose proof (w64_range (a - h)) as RW. rewrite (w64_sub q a h Q64 RA RH), EJ in *.
  assert (D2 : 2 <= q / p) by (apply Z.div_le_lower_bound; lia).
  rewrite rounded_value by assumption. rewrite Z.mul_comm, Z.mod_add by lia. apply Z.mod_small. exact Hd.
Qed.
