(** The transform for all moduli, and matrices in transformed form. *)
From Coq Require Import List Arith NArith ZArith Bool Lia.
From Verif Require Import Base StoreModel PirPackModel PirPackProofs2 SpArithModel SpArithProofs SpLoopModel SpLoopProofs
  SpGadgetModel SpGadgetSpec SpDecodeSpec SpDecodeProofs2 SpRingProofs NttModel NttSpec NttProofs NttProofs2 NttProofs3 NttProofs4.
Import ListNotations.
Local Open Scope N_scope.

Local Notation zN := Z.of_N.

(** * Lists *)
Lemma nth_firstn_lt : forall n i (l : list N), (i < n)%nat -> nth i (firstn n l) 0 = nth i l 0.
Proof.
  induction n as [|n IH]; intros i l H; [lia|]. destruct l as [|x l]; [reflexivity|]. destruct i; [reflexivity|].
  cbn [firstn nth]. apply IH. lia.
Qed.
Lemma nth_skipn_add : forall p i (l : list N), nth i (skipn p l) 0 = nth (p + i) l 0.
Proof.
  induction p as [|p IH]; intros i l; [reflexivity|]. destruct l as [|x l]; [destruct i; reflexivity|]. cbn [skipn Nat.add nth]. apply IH.
Qed.
Lemma slice_length : forall pos len (v : list N), (pos + len <= length v)%nat -> length (firstn len (skipn pos v)) = len.
Proof. intros pos len v H. rewrite firstn_length, skipn_length. lia. Qed.
Lemma slice_nth : forall pos len i (v : list N), (i < len)%nat -> nth i (firstn len (skipn pos v)) 0 = nth (pos + i) v 0.
Proof. intros pos len i v H. rewrite nth_firstn_lt by exact H. apply nth_skipn_add. Qed.

Lemma on_span_ok : forall pos len f v s', (pos + len <= length v)%nat -> f (firstn len (skipn pos v)) = Ok s' -> length s' = len ->
  exists v', on_span pos len f v = Ok v' /\ length v' = length v
    /\ forall k, nth k v' 0 = if ((pos <=? k) && (k <? pos + len))%nat then nth (k - pos) s' 0 else nth k v 0.
Proof.
  intros pos len f v s' H E Hs. unfold on_span. rewrite (proj2 (Nat.leb_le _ _)) by lia. cbn [enforce]. rewrite E. cbn [bind].
  rewrite slice_length by exact H. eexists. split; [reflexivity|].
  assert (L1 : length (firstn pos v) = pos) by (rewrite firstn_length; lia). split.
  - rewrite !app_length, skipn_length, L1, Hs. lia.
  - intros k. destruct (le_lt_dec pos k) as [Hk|Hk].
    + rewrite app_nth2, L1 by lia. destruct (le_lt_dec (pos + len) k) as [Hk2|Hk2].
      * rewrite app_nth2, nth_skipn_add, Hs by lia. rewrite (proj2 (Nat.ltb_ge k _)), andb_false_r by lia. f_equal. lia.
      * rewrite app_nth1 by lia. rewrite (proj2 (Nat.leb_le pos k)), (proj2 (Nat.ltb_lt k _)) by lia. reflexivity.
    + rewrite app_nth1 by lia. rewrite (proj2 (Nat.leb_gt pos k)) by lia. cbn [andb]. apply nth_firstn_lt. exact Hk.
Qed.

Lemma concat_length : forall W (ps : list (list N)), (forall p, In p ps -> length p = W) -> length (concat ps) = (length ps * W)%nat.
Proof.
  induction ps as [|p ps IH]; intros H; [reflexivity|]. cbn [concat length]. rewrite app_length, IH by (intros; apply H; right; auto).
  rewrite (H p) by (left; auto). lia.
Qed.
Lemma concat_slice : forall W (ps : list (list N)) k, (forall p, In p ps -> length p = W) -> (k < length ps)%nat ->
  firstn W (skipn (k * W) (concat ps)) = nth k ps [].
Proof.
  intros W ps. induction ps as [|p ps IH]; intros k H Hk; [cbn in Hk; lia|]. cbn [concat].
  assert (Hp : length p = W) by (apply H; left; auto).
  destruct k as [|k]; cbn [nth].
  - cbn [Nat.mul skipn]. rewrite <- Hp. rewrite firstn_app, Nat.sub_diag, firstn_all. cbn [firstn]. apply app_nil_r.
  - rewrite skipn_app, Hp. rewrite skipn_all2 by (rewrite Hp; cbn [Nat.mul]; lia).
    replace (S k * W - W)%nat with (k * W)%nat by (cbn [Nat.mul]; lia). cbn [app].
    apply IH; [intros; apply H; right; auto|]. cbn [length] in Hk. lia.
Qed.

Lemma fill_ok : forall rows cols W (f : nat -> nat -> outcome (list N)) (Q : nat -> nat -> list N -> Prop),
  (forall r c, (r < rows)%nat -> (c < cols)%nat -> exists p, f r c = Ok p /\ length p = W /\ Q r c p) ->
  exists m, fill_mat rows cols f = Ok m /\ rm_rows m = rows /\ rm_cols m = cols /\ length (rm_data m) = (rows * cols * W)%nat
    /\ forall r c, (r < rows)%nat -> (c < cols)%nat -> Q r c (poly_at W m r c).
Proof.
  intros rows cols W f Q H. unfold fill_mat.
  destruct (map_out_seq_nth (list N) (fun k => f (k / cols)%nat (k mod cols)%nat)
     (fun k p => length p = W /\ Q (k / cols)%nat (k mod cols)%nat p) (rows * cols) []) as (ps & E & Lp & Hp).
  - intros k Hk. assert (cols <> 0)%nat by (intros ->; lia). apply H.
    + apply Nat.div_lt_upper_bound; lia.
    + apply Nat.mod_upper_bound. assumption.
  - rewrite E. cbn [bind]. eexists. split; [reflexivity|]. cbn [rm_rows rm_cols rm_data].
    assert (Hin : forall p, In p ps -> length p = W).
    { intros p Hi. destruct (In_nth _ _ [] Hi) as (k & Hk & <-). apply Hp. lia. }
    do 2 (split; [reflexivity|]). split; [rewrite (concat_length W ps Hin), Lp; reflexivity|].
    intros r c Hr Hc. unfold poly_at. cbn [rm_cols rm_data].
    assert (Hk : (r * cols + c < rows * cols)%nat).
    { assert ((r + 1) * cols <= rows * cols)%nat by (apply Nat.mul_le_mono_r; lia). lia. }
    rewrite concat_slice by (auto; lia). destruct (Hp _ Hk) as [_ HQ].
    replace ((r * cols + c) / cols)%nat with r in HQ by (rewrite Nat.div_add_l, Nat.div_small by lia; lia).
    replace ((r * cols + c) mod cols)%nat with c in HQ by (rewrite Nat.add_comm, Nat.mod_add, Nat.mod_small by lia; reflexivity).
    exact HQ.
Qed.

(** * All moduli *)
Definition params_ok (L : nat) (psi : nat -> Z) (P : ntt_params) : Prop :=
  np_len P = (2 ^ L)%nat /\ (2 <= L)%nat /\ length (np_tables P) = length (np_moduli P)
  /\ forall c, (c < length (np_moduli P))%nat ->
       let q := nth c (np_moduli P) 0 in
       2 < q /\ q < 2 ^ 30 /\ N.odd q = true /\ is_root (zN q) (2 ^ L) (psi c)
       /\ exists T, nth_error (np_tables P) c = Some T /\ table_ok q L (psi c) T.

Section All.
Variables (L : nat) (psi : nat -> Z) (P : ntt_params).
Hypothesis HP : params_ok L psi P.
Let n := (2 ^ L)%nat.
Let crt := length (np_moduli P).
Definition qc (c : nat) : N := nth c (np_moduli P) 0.

(** The words of modulus c. *)
Definition slot (v : list N) (c i : nat) : N := nth (c * n + i) v 0.
Definition zslot (v : list N) (c i : nat) : Z := zN (slot v c i).

Lemma np_n : np_len P = n. Proof using HP. apply HP. Qed.
Lemma n_pos : (0 < n)%nat. Proof using. apply pow_pos2. Qed.
Lemma log_n : Nat.log2 (np_len P) = L. Proof using HP. rewrite np_n. apply Nat.log2_pow2. lia. Qed.

(** Going through the moduli one by one, each changing its own words. *)
Lemma spans_ok : forall (step : nat -> list N -> outcome (list N)) (B1 : nat -> N -> Prop) (Q : nat -> list N -> list N -> Prop) v,
  length v = (crt * n)%nat ->
  (forall c i, (c < crt)%nat -> (i < n)%nat -> B1 c (slot v c i)) ->
  (forall c s, (c < crt)%nat -> length s = (crt * n)%nat -> (forall i, (i < n)%nat -> B1 c (slot s c i)) ->
     exists f s', step c s = on_span (c * n) n f s /\ f (firstn n (skipn (c * n) s)) = Ok s' /\ length s' = n
       /\ Q c (firstn n (skipn (c * n) s)) s') ->
  exists v', loop crt 0 step v = Ok v' /\ length v' = (crt * n)%nat
    /\ forall c, (c < crt)%nat -> Q c (firstn n (skipn (c * n) v)) (firstn n (skipn (c * n) v')).
Proof using psi P L.
  clear HP. intros step B1 Q v Hl HB Hstep.
  destruct (loop_rule (list N) crt 0 step (fun c s => length s = (crt * n)%nat
     /\ (forall c', (c' < c)%nat -> Q c' (firstn n (skipn (c' * n) v)) (firstn n (skipn (c' * n) s)))
     /\ forall k, (c * n <= k)%nat -> nth k s 0 = nth k v 0) v) as (v' & E & L1 & H1 & _).
  - split; [exact Hl|]. split; [intros; lia|reflexivity].
  - intros c s Hc (Ls & H1 & H2).
    assert (Hcn : (c * n + n <= crt * n)%nat).
    { replace (c * n + n)%nat with (S c * n)%nat by lia. apply Nat.mul_le_mono_r. lia. }
    destruct (Hstep c s ltac:(lia) Ls) as (f & s' & Es & Ef & Lf & HQ).
    { intros i Hi. unfold slot. rewrite H2 by lia. apply HB; lia. }
    destruct (on_span_ok (c * n) n f s s') as (s2 & E2 & L2 & N2); [lia|exact Ef|exact Lf|].
    exists s2. rewrite Es. split; [exact E2|]. split; [lia|]. split.
    + intros c' Hc'.
      assert (Hsl : forall l1 l2 : list N, length l1 = n -> length l2 = n -> (forall i, (i < n)%nat -> nth i l1 0 = nth i l2 0) -> l1 = l2).
      { intros l1 l2 A B C. apply (nth_ext _ _ 0 0); [lia|]. intros i Hi. apply C. lia. }
      destruct (Nat.eq_dec c' c) as [->|Hne].
      * replace (firstn n (skipn (c * n) s2)) with s'.
        2: { apply Hsl; [exact Lf|apply slice_length; lia|]. intros i Hi. rewrite slice_nth, N2 by exact Hi.
             rewrite (proj2 (Nat.leb_le _ _)), (proj2 (Nat.ltb_lt _ _)) by lia. cbn [andb]. f_equal. lia. }
        replace (firstn n (skipn (c * n) v)) with (firstn n (skipn (c * n) s)); [exact HQ|].
        apply Hsl; [apply slice_length; lia|apply slice_length; lia|]. intros i Hi. rewrite !slice_nth by exact Hi. apply H2. lia.
      * assert (c' * n + n <= c * n)%nat.
        { replace (c' * n + n)%nat with (S c' * n)%nat by lia. apply Nat.mul_le_mono_r. lia. }
        replace (firstn n (skipn (c' * n) s2)) with (firstn n (skipn (c' * n) s)); [apply H1; lia|].
        apply Hsl; [apply slice_length; lia|apply slice_length; lia|]. intros i Hi. rewrite !slice_nth, N2 by exact Hi.
        rewrite (proj2 (Nat.leb_gt _ _)) by lia. reflexivity.
    + intros k Hk. rewrite N2. rewrite (proj2 (Nat.ltb_ge k _)), andb_false_r by lia. apply H2. lia.
  - exists v'. split; [exact E|]. split; [exact L1|]. exact H1.
Qed.

Lemma tables_get : forall c, (c < crt)%nat -> exists T, get c (np_tables P) = Ok T /\ get c (np_moduli P) = Ok (qc c)
  /\ table_ok (qc c) L (psi c) T /\ 2 < qc c /\ qc c < 2 ^ 30 /\ N.odd (qc c) = true /\ is_root (zN (qc c)) (2 ^ L) (psi c).
Proof using HP.
  intros c Hc. destruct HP as (_ & _ & _ & H). destruct (H c Hc) as (H1 & H2 & H3 & H4 & T & E & HT).
  exists T. unfold get. rewrite E. split; [reflexivity|]. split.
  - rewrite (nth_error_nth' _ 0 Hc). reflexivity.
  - auto.
Qed.

Lemma zeq_slice : forall M A B A' B', (forall i, (i < n)%nat -> A i = A' i) -> (forall i, (i < n)%nat -> B i = B' i) ->
  zeq M L A B -> zeq M L A' B'.
Proof using. clear HP. intros M A B A' B' H1 H2 H i Hi. rewrite <- H1, <- H2 by exact Hi. apply H, Hi. Qed.

Lemma ref_slice : forall M c v, zeq M L (ref L (psi c) L (zof (firstn n (skipn (c * n) v)))) (ref L (psi c) L (zslot v c)).
Proof using psi P L.
  clear HP. intros M c v. apply ref_ext; [lia|]. intros i Hi. unfold zof, zslot, slot. rewrite slice_nth by exact Hi. apply eqm_refl.
Qed.

Theorem forward_ok : forall avx v, length v = (crt * n)%nat ->
  (forall c i, (c < crt)%nat -> (i < n)%nat -> slot v c i < 4 * qc c) ->
  exists v', ntt_forward avx P v = Ok v' /\ length v' = (crt * n)%nat
    /\ forall c, (c < crt)%nat -> (forall i, (i < n)%nat -> slot v' c i < if avx then qc c + 1 else qc c)
         /\ zeq (zN (qc c)) L (zslot v' c) (ref L (psi c) L (zslot v c)).
Proof using HP.
  intros avx v Hl Hb. unfold ntt_forward. rewrite log_n. fold n.
  fold crt. rewrite (proj2 (Nat.leb_le (crt * n) (length v))) by lia. rewrite orb_true_r. cbn [enforce].
  destruct (spans_ok (fun c v => do T <- get c (np_tables P); do q <- modulus_at P c; on_span (c * n) n (fwd_one avx L q T) v)
     (fun c x => x < 4 * qc c)
     (fun c s s' => length s = n -> length s' = n -> below (if avx then qc c + 1 else qc c) s' /\ zeq (zN (qc c)) L (zof s') (ref L (psi c) L (zof s))) v)
    as (v' & E & Lv & H).
  - exact Hl.
  - exact Hb.
  - intros c s Hc Ls Bs. destruct (tables_get c Hc) as (T & E1 & E2 & HT & Q1 & Q2 & Q3 & Q4).
    assert (Hcn : (c * n + n <= crt * n)%nat).
    { replace (c * n + n)%nat with (S c * n)%nat by lia. apply Nat.mul_le_mono_r. lia. }
    destruct (fwd_one_ok (qc c) L (psi c) T ltac:(lia) Q2 (proj1 (proj2 HP)) HT avx (firstn n (skipn (c * n) s))) as (s' & F1 & F2 & F3 & F4).
    + apply slice_length. lia.
    + intros i Hi. rewrite slice_length in Hi by lia. rewrite slice_nth by exact Hi. apply Bs. exact Hi.
    + exists (fwd_one avx L (qc c) T), s'. unfold modulus_at. rewrite E1. cbn [bind]. rewrite E2. cbn [bind].
      split; [reflexivity|]. split; [exact F1|]. split; [exact F2|]. intros _ _. split; [exact F3|exact F4].
  - exists v'. split; [exact E|]. split; [exact Lv|]. intros c Hc.
    assert (Hcn : (c * n + n <= crt * n)%nat).
    { replace (c * n + n)%nat with (S c * n)%nat by lia. apply Nat.mul_le_mono_r. lia. }
    destruct (H c Hc) as [H1 H2]; [apply slice_length; lia|apply slice_length; lia|]. split.
    + intros i Hi. specialize (H1 i). rewrite slice_length, slice_nth in H1 by lia. apply H1. exact Hi.
    + intros i Hi. eapply eqm_trans; [|eapply eqm_trans; [apply (H2 i Hi)|apply (ref_slice _ c v i Hi)]].
      unfold zslot, slot, zof. rewrite slice_nth by exact Hi. apply eqm_refl.
Qed.

Theorem inverse_ok : forall avx v, length v = (crt * n)%nat ->
  (forall c i, (c < crt)%nat -> (i < n)%nat -> slot v c i <= 2 * qc c) ->
  exists v', ntt_inverse avx P v = Ok v' /\ length v' = (crt * n)%nat
    /\ forall c, (c < crt)%nat -> (forall i, (i < n)%nat -> slot v' c i < qc c)
         /\ zeq (zN (qc c)) L (zslot v c) (ref L (psi c) L (zslot v' c)).
Proof using HP.
  intros avx v Hl Hb. unfold ntt_inverse. rewrite log_n, np_n. fold crt.
  destruct (spans_ok (fun c v => do T <- get c (np_tables P); do q <- modulus_at P c; on_span (c * n) n (inv_one avx n L q T) v)
     (fun c x => x <= 2 * qc c)
     (fun c s s' => length s = n -> length s' = n -> below (qc c) s' /\ zeq (zN (qc c)) L (zof s) (ref L (psi c) L (zof s'))) v)
    as (v' & E & Lv & H).
  - exact Hl.
  - exact Hb.
  - intros c s Hc Ls Bs. destruct (tables_get c Hc) as (T & E1 & E2 & HT & Q1 & Q2 & Q3 & Q4).
    assert (Hcn : (c * n + n <= crt * n)%nat).
    { replace (c * n + n)%nat with (S c * n)%nat by lia. apply Nat.mul_le_mono_r. lia. }
    destruct (inv_one_ok (qc c) L (psi c) T ltac:(lia) Q2 Q3 (proj1 (proj2 HP)) HT avx (firstn n (skipn (c * n) s))) as (s' & F1 & F2 & F3 & F4).
    + apply slice_length. lia.
    + intros i Hi. rewrite slice_length in Hi by lia. rewrite slice_nth by exact Hi. specialize (Bs i Hi). unfold slot in Bs. lia.
    + exists (inv_one avx n L (qc c) T), s'. unfold modulus_at. rewrite E1. cbn [bind]. rewrite E2. cbn [bind].
      split; [reflexivity|]. split; [exact F1|]. split; [exact F2|]. intros _ _. split; [exact F3|exact F4].
  - exists v'. split; [exact E|]. split; [exact Lv|]. intros c Hc.
    assert (Hcn : (c * n + n <= crt * n)%nat).
    { replace (c * n + n)%nat with (S c * n)%nat by lia. apply Nat.mul_le_mono_r. lia. }
    destruct (H c Hc) as [H1 H2]; [apply slice_length; lia|apply slice_length; lia|]. split.
    + intros i Hi. specialize (H1 i). rewrite slice_length, slice_nth in H1 by lia. apply H1. exact Hi.
    + intros i Hi. eapply eqm_trans; [|eapply eqm_trans; [apply (H2 i Hi)|apply (ref_slice _ c v' i Hi)]].
      unfold zslot, slot, zof. rewrite slice_nth by exact Hi. apply eqm_refl.
Qed.

(** * Pointwise operations *)
Lemma modulus_get : forall c, (c < crt)%nat -> exists cr1, modulus_at P c = Ok (qc c) /\ cr1_at P c = Ok cr1
  /\ forall x, x < 2 ^ 64 -> barrett_raw_u64 x cr1 (qc c) = x mod qc c.
Proof using HP.
  intros c Hc. destruct (tables_get c Hc) as (T & _ & E & _ & Q1 & Q2 & _).
  unfold cr1_at, modulus_at. rewrite E. cbn [bind].
  destruct (get_barrett_crs (qc c)) as [[cr0 cr1]| | |] eqn:B; try (unfold get_barrett_crs in B; destruct (qc c =? 0) eqn:Z0; [apply N.eqb_eq in Z0; lia|discriminate]).
  cbn [bind]. exists cr1. split; [reflexivity|]. split; [reflexivity|]. intros x Hx.
  eapply barrett_u64_exact; [|exact Hx|exact B]. split; [lia|]. apply N.lt_le_incl. eapply N.lt_trans; [exact Q2|reflexivity].
Qed.

Lemma slot_index : forall c i, (c < crt)%nat -> (i < n)%nat ->
  (c * n + i < crt * n)%nat /\ ((c * n + i) / n = c)%nat /\ ((c * n + i) mod n = i)%nat.
Proof using psi P L.
  clear HP. intros c i Hc Hi. assert (S c * n <= crt * n)%nat by (apply Nat.mul_le_mono_r; lia).
  split; [lia|]. rewrite Nat.div_add_l, Nat.div_small, (Nat.add_comm (c * n)), Nat.mod_add, Nat.mod_small by lia. lia.
Qed.

Lemma pointwise_ok : forall (f : nat -> outcome N) (g : nat -> nat -> N),
  (forall c i, (c < crt)%nat -> (i < n)%nat -> f (c * n + i)%nat = Ok (g c i)) ->
  exists v, map_out f (seq 0 (crt * n)) = Ok v /\ length v = (crt * n)%nat
    /\ forall c i, (c < crt)%nat -> (i < n)%nat -> slot v c i = g c i.
Proof using psi P L.
  clear HP. intros f g H. pose proof n_pos as Hn.
  destruct (map_out_seq_nth N f (fun p x => x = g (p / n)%nat (p mod n)%nat) (crt * n) 0) as (v & E & Lv & Nv).
  - intros p Hp. exists (g (p / n)%nat (p mod n)%nat). split; [|reflexivity].
    pose proof (Nat.div_mod p n ltac:(lia)) as D. replace p with (p / n * n + p mod n)%nat at 1 by lia.
    apply H; [apply Nat.div_lt_upper_bound; lia|apply Nat.mod_upper_bound; lia].
  - exists v. split; [exact E|]. split; [exact Lv|]. intros c i Hc Hi. destruct (slot_index c i Hc Hi) as (A & B & C).
    unfold slot. rewrite Nv by exact A. rewrite B, C. reflexivity.
Qed.

Lemma reduce_copy_ok : forall p, length p = n -> (forall i, (i < n)%nat -> nth i p 0 < 2 ^ 64) ->
  exists v, reduce_copy P p = Ok v /\ length v = (crt * n)%nat
    /\ forall c i, (c < crt)%nat -> (i < n)%nat -> slot v c i = nth i p 0 mod qc c.
Proof using HP.
  intros p Hl Hb. unfold reduce_copy. rewrite np_n. fold crt. apply pointwise_ok. intros c i Hc Hi.
  destruct (slot_index c i Hc Hi) as (_ & -> & ->). destruct (modulus_get c Hc) as (cr1 & E1 & E2 & E3).
  rewrite E2. cbn [bind]. rewrite E1. cbn [bind]. rewrite get_nth by lia. cbn [bind]. rewrite E3 by (apply Hb; exact Hi). reflexivity.
Qed.

Lemma mul_add_ok : forall avx res a b, length res = (crt * n)%nat -> length a = (crt * n)%nat -> length b = (crt * n)%nat ->
  (forall c i, (c < crt)%nat -> (i < n)%nat -> slot res c i < qc c /\ slot a c i <= qc c /\ slot b c i <= qc c) ->
  exists v, multiply_add_poly avx P res a b = Ok v /\ length v = (crt * n)%nat
    /\ forall c i, (c < crt)%nat -> (i < n)%nat -> slot v c i = (slot res c i + slot a c i * slot b c i) mod qc c.
Proof using HP.
  intros avx res a b L1 L2 L3 HB. unfold multiply_add_poly. rewrite np_n. fold crt. rewrite L1, L2, L3, !Nat.eqb_refl. cbn [andb enforce].
  apply pointwise_ok. intros c i Hc Hi. destruct (slot_index c i Hc Hi) as (Hp & -> & _).
  destruct (modulus_get c Hc) as (cr1 & E1 & E2 & E3). destruct (tables_get c Hc) as (_ & _ & _ & _ & Q1 & Q2 & _).
  rewrite E2. cbn [bind]. rewrite E1. cbn [bind]. rewrite !get_nth by lia. cbn [bind].
  destruct (HB c i Hc Hi) as (B1 & B2 & B3). unfold slot in *.
  set (x := nth (c * n + i) a 0) in *. set (y := nth (c * n + i) b 0) in *. set (z := nth (c * n + i) res 0) in *. set (q := qc c) in *.
  assert (Hxy : x * y <= q * q) by (apply N.mul_le_mono; assumption).
  assert (Hqq : q * q < 2 ^ 60) by (change (2 ^ 60) with (2 ^ 30 * 2 ^ 30); apply N.mul_lt_mono; assumption).
  change (2 ^ 60) with 1152921504606846976 in Hqq. change (2 ^ 30) with 1073741824 in Q2.
  destruct avx.
  - unfold mul_epu32. rewrite (u32_small x), (u32_small y) by (change (2 ^ 32) with 4294967296; lia).
    rewrite u64_small by (change (2 ^ 64) with 18446744073709551616; lia).
    rewrite E3 by (change (2 ^ 64) with 18446744073709551616; lia). reflexivity.
  - unfold multiply_add_modular. rewrite (u64_small (x * y)) by (change (2 ^ 64) with 18446744073709551616; lia).
    rewrite u64_small by (change (2 ^ 64) with 18446744073709551616; lia).
    rewrite E3 by (change (2 ^ 64) with 18446744073709551616; lia). do 2 f_equal. apply N.add_comm.
Qed.

Lemma add_poly_ok : forall a b, length a = (crt * n)%nat -> length b = (crt * n)%nat ->
  (forall c i, (c < crt)%nat -> (i < n)%nat -> slot a c i <= qc c /\ slot b c i <= qc c) ->
  exists v, add_poly P a b = Ok v /\ length v = (crt * n)%nat
    /\ forall c i, (c < crt)%nat -> (i < n)%nat -> slot v c i = (slot a c i + slot b c i) mod qc c.
Proof using HP.
  intros a b L2 L3 HB. unfold add_poly. rewrite np_n. fold crt.
  apply pointwise_ok. intros c i Hc Hi. destruct (slot_index c i Hc Hi) as (Hp & -> & _).
  destruct (modulus_get c Hc) as (cr1 & E1 & E2 & E3). destruct (tables_get c Hc) as (_ & _ & _ & _ & Q1 & Q2 & _).
  rewrite E2. cbn [bind]. rewrite E1. cbn [bind]. rewrite !get_nth by lia. cbn [bind].
  destruct (HB c i Hc Hi) as (B2 & B3). unfold slot in *. change (2 ^ 30) with 1073741824 in Q2.
  unfold add_modular. rewrite u64_small by (change (2 ^ 64) with 18446744073709551616; lia).
  rewrite E3 by (change (2 ^ 64) with 18446744073709551616; lia). reflexivity.
Qed.

(** * Matrices *)
Definition shaped (m : raw_mat) : Prop := length (rm_data m) = (rm_rows m * rm_cols m * n)%nat.
Definition words (m : raw_mat) : Prop := forall k, nth k (rm_data m) 0 < 2 ^ 64.
Definition zc (m : raw_mat) (r c z : nat) : Z := zN (coeff n (rm_cols m) (rm_data m) r c z).

Lemma poly_slice : forall W m r c, length (rm_data m) = (rm_rows m * rm_cols m * W)%nat -> (r < rm_rows m)%nat -> (c < rm_cols m)%nat ->
  length (poly_at W m r c) = W /\ forall i, (i < W)%nat -> nth i (poly_at W m r c) 0 = nth ((r * rm_cols m + c) * W + i) (rm_data m) 0.
Proof using psi P L.
  clear HP. intros W m r c Hl Hr Hc. unfold poly_at.
  assert (H1 : (S r * rm_cols m <= rm_rows m * rm_cols m)%nat) by (apply Nat.mul_le_mono_r; lia).
  assert (H2 : (S (r * rm_cols m + c) * W <= rm_rows m * rm_cols m * W)%nat) by (apply Nat.mul_le_mono_r; lia).
  split; [apply slice_length; lia|]. intros i Hi. apply slice_nth. exact Hi.
Qed.

Notation trans m a := (is_transform L (np_moduli P) psi (rm_rows m) (rm_cols m) (rm_data m) a).

(** The transformed form of one polynomial. *)
Definition has (p : list N) (a : nat -> Z) : Prop :=
  forall c i, (c < crt)%nat -> (i < n)%nat -> slot p c i <= qc c
    /\ eqm (zN (qc c)) (zslot p c i) (peval n a (ntt_point (psi c) L i)).

Lemma trans_of : forall m a, length (rm_data m) = (rm_rows m * rm_cols m * (crt * n))%nat ->
  (forall r c, (r < rm_rows m)%nat -> (c < rm_cols m)%nat -> has (poly_at (crt * n) m r c) (a r c)) -> trans m a.
Proof using psi P L.
  clear HP. intros m a Hl H. split; [exact Hl|]. intros r c k i Hr Hc Hk Hi. cbv zeta.
  destruct (H r c Hr Hc k i Hk Hi) as [H1 H2]. destruct (poly_slice (crt * n) m r c Hl Hr Hc) as [_ N1].
  destruct (slot_index k i Hk Hi) as (A & _). unfold zslot, slot in *. rewrite N1 in H1, H2 by exact A. rewrite Nat.add_assoc in H1, H2.
  split; assumption.
Qed.
Lemma trans_has : forall m a, trans m a -> length (rm_data m) = (rm_rows m * rm_cols m * (crt * n))%nat /\
  forall r c, (r < rm_rows m)%nat -> (c < rm_cols m)%nat -> length (poly_at (crt * n) m r c) = (crt * n)%nat /\ has (poly_at (crt * n) m r c) (a r c).
Proof using psi P L.
  clear HP. intros m a [Hl H]. split; [exact Hl|]. intros r c Hr Hc.
  destruct (poly_slice (crt * n) m r c Hl Hr Hc) as [N0 N1]. split; [exact N0|].
  intros k i Hk Hi. specialize (H r c k i Hr Hc Hk Hi). cbv zeta in H.
  destruct (slot_index k i Hk Hi) as (A & _). unfold zslot, slot. rewrite N1 by exact A. rewrite Nat.add_assoc. exact H.
Qed.

Lemma forward_has : forall avx v a, length v = (crt * n)%nat ->
  (forall c i, (c < crt)%nat -> (i < n)%nat -> slot v c i < 4 * qc c /\ eqm (zN (qc c)) (zslot v c i) (a i)) ->
  exists v', ntt_forward avx P v = Ok v' /\ length v' = (crt * n)%nat /\ has v' a
    /\ (avx = false -> forall c i, (c < crt)%nat -> (i < n)%nat -> slot v' c i < qc c).
Proof using HP.
  intros avx v a Hl H. destruct (forward_ok avx v Hl) as (v' & E & Lv & H').
  { intros c i Hc Hi. apply H; assumption. }
  exists v'. split; [exact E|]. split; [exact Lv|]. split.
  - intros c i Hc Hi. destruct (H' c Hc) as [B Z]. split.
    + specialize (B i Hi). destruct avx; lia.
    + eapply eqm_trans; [apply (Z i Hi)|]. destruct (tables_get c Hc) as (T & _ & _ & _ & _ & _ & _ & HR).
      eapply eqm_trans; [apply ref_point; [exact HR|exact Hi]|]. apply peval_eqm. intros j Hj. apply H; assumption.
  - intros -> c i Hc Hi. destruct (H' c Hc) as [B _]. apply B, Hi.
Qed.

Theorem to_ntt_ok : forall avx m, shaped m -> words m ->
  exists m', to_ntt avx P m = Ok m' /\ rm_rows m' = rm_rows m /\ rm_cols m' = rm_cols m /\ trans m' (zc m).
Proof using HP.
  intros avx m Hs Hw. unfold to_ntt. rewrite np_n.
  destruct (fill_ok (rm_rows m) (rm_cols m) (crt * n) (fun r c => do t <- reduce_copy P (poly_at n m r c); ntt_forward avx P t)
    (fun r c p => has p (zc m r c))) as (m' & E & R & C & Ld & H).
  - intros r c Hr Hc. destruct (poly_slice n m r c Hs Hr Hc) as [N0 N1].
    destruct (reduce_copy_ok (poly_at n m r c) N0) as (t & -> & Lt & Ht).
    { intros i Hi. rewrite N1 by exact Hi. apply Hw. }
    cbn [bind]. destruct (forward_has avx t (zc m r c) Lt) as (v & Ev & Lv & Hv & _).
    + intros k i Hk Hi. unfold zslot. rewrite Ht by assumption. destruct (tables_get k Hk) as (_ & _ & _ & _ & Q1 & _).
      split; [pose proof (N.mod_lt (nth i (poly_at n m r c) 0) (qc k) ltac:(lia)); lia|].
      rewrite N1 by exact Hi. rewrite N2Z.inj_mod by lia. apply eqm_mod. lia.
    + exists v. auto.
  - exists m'. split; [exact E|]. split; [exact R|]. split; [exact C|]. apply trans_of.
    + rewrite R, C. exact Ld.
    + rewrite R, C. exact H.
Qed.

Theorem to_ntt_no_reduce_ok : forall avx m, crt = 2%nat -> shaped m ->
  (forall r c z k, (k < crt)%nat -> coeff n (rm_cols m) (rm_data m) r c z < 4 * qc k) ->
  exists m', to_ntt_no_reduce avx P m = Ok m' /\ rm_rows m' = rm_rows m /\ rm_cols m' = rm_cols m /\ trans m' (zc m).
Proof using HP.
  intros avx m H2 Hs Hw. unfold to_ntt_no_reduce. rewrite np_n.
  destruct (fill_ok (rm_rows m) (rm_cols m) (crt * n)
    (fun r c => let p := poly_at n m r c in do t <- store 0 (p ++ p) (repeat 0 (crt * n)); ntt_forward avx P t)
    (fun r c p => has p (zc m r c))) as (m' & E & R & C & Ld & H).
  - intros r c Hr Hc. destruct (poly_slice n m r c Hs Hr Hc) as [N0 N1]. cbv zeta.
    destruct (store_ok (poly_at n m r c ++ poly_at n m r c) 0 (repeat 0 (crt * n))) as (t & -> & Lt & Ht).
    { rewrite app_length, repeat_length, N0. lia. }
    cbn [bind]. rewrite repeat_length in Lt. rewrite app_length, N0 in Ht.
    destruct (forward_has avx t (zc m r c) Lt) as (v & Ev & Lv & Hv & _).
    + intros k i Hk Hi.
      assert (Es : slot t k i = coeff n (rm_cols m) (rm_data m) r c i).
      { unfold slot. rewrite Ht. rewrite (proj2 (Nat.leb_le 0 _)), (proj2 (Nat.ltb_lt _ _)) by nia. cbn [andb].
        rewrite Nat.sub_0_r. unfold coeff. rewrite <- N1 by exact Hi.
        destruct k as [|[|k]]; [| |lia].
        - cbn [Nat.mul Nat.add]. apply app_nth1. lia.
        - rewrite app_nth2 by lia. f_equal. lia. }
      unfold zslot. rewrite Es. split; [apply Hw; exact Hk|]. apply eqm_refl.
    + exists v. auto.
  - exists m'. split; [exact E|]. split; [exact R|]. split; [exact C|]. apply trans_of.
    + rewrite R, C. exact Ld.
    + rewrite R, C. exact H.
Qed.

Lemma slot_zero : forall c i, slot (repeat 0 (crt * n)) c i = 0.
Proof using psi P L.
  clear HP. intros c i. unfold slot. destruct (le_lt_dec (crt * n) (c * n + i)).
  - apply nth_overflow. rewrite repeat_length. assumption.
  - apply nth_repeat.
Qed.

Theorem multiply_ok : forall avx ma mb a b, rm_cols ma = rm_rows mb -> trans ma a -> trans mb b ->
  exists m', multiply_ntt avx P ma mb = Ok m' /\ rm_rows m' = rm_rows ma /\ rm_cols m' = rm_cols mb
    /\ trans m' (mat_product n (rm_cols ma) a b).
Proof using HP.
  intros avx ma mb a b Hd Ha Hb. destruct (trans_has ma a Ha) as [_ HA]. destruct (trans_has mb b Hb) as [_ HB].
  unfold multiply_ntt. rewrite np_n. fold crt. rewrite (proj2 (Nat.eqb_eq _ _) Hd). cbn [enforce].
  destruct (fill_ok (rm_rows ma) (rm_cols mb) (crt * n)
    (fun i j => loop (rm_cols ma) 0 (fun k res => multiply_add_poly avx P res (poly_at (crt * n) ma i k) (poly_at (crt * n) mb k j)) (repeat 0 (crt * n)))
    (fun r c p => has p (mat_product n (rm_cols ma) a b r c))) as (m' & E & R & C & Ld & H).
  - intros r c Hr Hc.
    destruct (loop_rule (list N) (rm_cols ma) 0 (fun k res => multiply_add_poly avx P res (poly_at (crt * n) ma r k) (poly_at (crt * n) mb k c))
      (fun k s => length s = (crt * n)%nat /\ forall cc i, (cc < crt)%nat -> (i < n)%nat -> slot s cc i < qc cc
         /\ eqm (zN (qc cc)) (zslot s cc i) (peval n (mat_product n k a b r c) (ntt_point (psi cc) L i)))
      (repeat 0 (crt * n))) as (v & Ev & Lv & Hv).
    + split; [apply repeat_length|]. intros cc i Hcc Hi. unfold zslot. rewrite slot_zero.
      destruct (tables_get cc Hcc) as (_ & _ & _ & _ & Q1 & _). split; [lia|].
      unfold mat_product. rewrite peval_zsum. apply eqm_refl.
    + intros k s Hk (Ls & Hs). destruct (HA r k Hr ltac:(lia)) as [LA PA]. destruct (HB k c ltac:(lia) Hc) as [LB PB].
      destruct (mul_add_ok avx s (poly_at (crt * n) ma r k) (poly_at (crt * n) mb k c) Ls LA LB) as (s' & -> & Ls' & Hs').
      { intros cc i Hcc Hi. split; [apply Hs; assumption|]. split; [apply PA|apply PB]; assumption. }
      exists s'. split; [reflexivity|]. split; [exact Ls'|]. intros cc i Hcc Hi.
      destruct (tables_get cc Hcc) as (_ & _ & _ & _ & Q1 & _ & _ & HR).
      unfold zslot. rewrite Hs' by assumption. split; [apply N.mod_lt; lia|].
      rewrite N2Z.inj_mod, N2Z.inj_add, N2Z.inj_mul by lia. eapply eqm_trans; [apply eqm_mod; lia|].
      rewrite Nat.add_1_r. unfold mat_product. rewrite peval_zsum, zsum_S, <- peval_zsum.
      apply eqm_add; [apply Hs; assumption|].
      eapply eqm_trans; [apply eqm_mul; [apply PA; assumption|apply PB; assumption]|].
      apply eqm_sym, peval_negacyclic. apply point_root. exact HR.
    + exists v. split; [exact Ev|]. split; [exact Lv|]. intros cc i Hcc Hi. destruct (Hv cc i Hcc Hi) as [V1 V2].
      split; [lia|exact V2].
  - exists m'. split; [exact E|]. split; [exact R|]. split; [exact C|]. apply trans_of.
    + rewrite R, C. exact Ld.
    + rewrite R, C. exact H.
Qed.

Theorem add_ok : forall ma mb a b, rm_rows ma = rm_rows mb -> rm_cols ma = rm_cols mb -> trans ma a -> trans mb b ->
  exists m', add_ntt P ma mb = Ok m' /\ rm_rows m' = rm_rows ma /\ rm_cols m' = rm_cols ma
    /\ trans m' (fun r c z => (a r c z + b r c z)%Z).
Proof using HP.
  intros ma mb a b Hd1 Hd2 Ha Hb. destruct (trans_has ma a Ha) as [_ HA]. destruct (trans_has mb b Hb) as [_ HB].
  unfold add_ntt. rewrite np_n. fold crt. rewrite (proj2 (Nat.eqb_eq _ _) Hd1), (proj2 (Nat.eqb_eq _ _) Hd2). cbn [andb enforce].
  destruct (fill_ok (rm_rows ma) (rm_cols ma) (crt * n)
    (fun i j => add_poly P (poly_at (crt * n) ma i j) (poly_at (crt * n) mb i j))
    (fun r c p => has p (fun z => (a r c z + b r c z)%Z))) as (m' & E & R & C & Ld & H).
  - intros r c Hr Hc. destruct (HA r c Hr Hc) as [LA PA]. destruct (HB r c ltac:(lia) ltac:(lia)) as [LB PB].
    destruct (add_poly_ok (poly_at (crt * n) ma r c) (poly_at (crt * n) mb r c) LA LB) as (v & Ev & Lv & Hv).
    { intros cc i Hcc Hi. split; [apply PA|apply PB]; assumption. }
    exists v. split; [exact Ev|]. split; [exact Lv|]. intros cc i Hcc Hi.
    destruct (tables_get cc Hcc) as (_ & _ & _ & _ & Q1 & _). unfold zslot. rewrite Hv by assumption. split.
    + pose proof (N.mod_lt (slot (poly_at (crt * n) ma r c) cc i + slot (poly_at (crt * n) mb r c) cc i) (qc cc) ltac:(lia)). lia.
    + rewrite N2Z.inj_mod, N2Z.inj_add by lia. eapply eqm_trans; [apply eqm_mod; lia|]. rewrite peval_add.
      apply eqm_add; [apply PA|apply PB]; assumption.
  - exists m'. split; [exact E|]. split; [exact R|]. split; [exact C|]. apply trans_of.
    + rewrite R, C. exact Ld.
    + rewrite R, C. exact H.
Qed.

(** Back. *)
Lemma eqm_small : forall q x a, 0 < q -> x < q -> eqm (zN q) (zN x) a -> zN x = (a mod zN q)%Z.
Proof using psi P L.
  clear. intros q x a Hq Hx [k H]. rewrite H in *. 
  apply (Z.mod_unique a (zN q) (- k)); [left; lia|]. lia.
Qed.

Lemma inverse_has : forall avx v a, length v = (crt * n)%nat -> has v a ->
  exists v', ntt_inverse avx P v = Ok v' /\ length v' = (crt * n)%nat
    /\ forall c i, (c < crt)%nat -> (i < n)%nat -> slot v' c i < qc c /\ zslot v' c i = (a i mod zN (qc c))%Z.
Proof using HP.
  intros avx v a Hl H. destruct (inverse_ok avx v Hl) as (v' & E & Lv & H').
  { intros c i Hc Hi. destruct (H c i Hc Hi) as [B _]. lia. }
  exists v'. split; [exact E|]. split; [exact Lv|]. intros c i Hc Hi. destruct (H' c Hc) as [B Z]. split; [apply B, Hi|].
  destruct (tables_get c Hc) as (T & _ & _ & HT & Q1 & Q2 & Q3 & HR).
  apply eqm_small; [lia|apply B, Hi|].
  apply (ref_unique (qc c) L (psi c) T ltac:(lia) Q2 Q3 (proj1 (proj2 HP)) HT (zslot v' c) a); [|exact Hi].
  eapply zeq_trans; [apply zeq_sym, Z|]. intros j Hj. eapply eqm_trans; [apply H; assumption|].
  apply eqm_sym, ref_point; [exact HR|exact Hj].
Qed.

Lemma zN_gcd : forall a b, zN (N.gcd a b) = Z.gcd (zN a) (zN b).
Proof using psi P L. clear. intros [|p] [|q]; reflexivity. Qed.

Lemma crt_ok : forall inv t (a : Z) i, (i < n)%nat -> (crt = 1 \/ crt = 2)%nat -> length t = (crt * n)%nat ->
  (crt = 2%nat -> N.gcd (qc 0) (qc 1) = 1) ->
  (forall x m, N.gcd x m = 1 -> 1 < m -> inv x m < m /\ (x * inv x m) mod m = 1) ->
  (forall c, (c < crt)%nat -> slot t c i < qc c /\ zslot t c i = (a mod zN (qc c))%Z) ->
  exists v, crt_compose P inv t i = Ok v /\ zN v = (a mod zN (nprod (np_moduli P)))%Z.
Proof using HP.
  intros inv t a i Hi Hcrt Hl Hg Hinv H. unfold crt_compose. fold crt. rewrite np_n.
  destruct Hcrt as [C|C].
  - rewrite C. cbn [Nat.eqb]. destruct (H 0%nat ltac:(lia)) as [_ H0]. unfold zslot, slot in H0. cbn [Nat.mul Nat.add] in H0.
    rewrite get_nth by lia. eexists. split; [reflexivity|]. rewrite H0. unfold qc, crt in *.
    destruct (np_moduli P) as [|m [|? ?]]; cbn [length] in C; try lia. cbn [nth nprod fold_right]. rewrite N.mul_1_r. reflexivity.
  - rewrite C. cbn [Nat.eqb]. destruct (H 0%nat ltac:(lia)) as [B0 H0]. destruct (H 1%nat ltac:(lia)) as [B1 H1].
    destruct (tables_get 0 ltac:(lia)) as (_ & _ & E0 & _ & Q0 & Q0' & _). destruct (tables_get 1 ltac:(lia)) as (_ & _ & E1 & _ & Q1 & Q1' & _).
    unfold zslot, slot in H0, H1, B0, B1. cbn [Nat.mul] in B0, B1, H0, H1. rewrite Nat.add_0_l in H0, B0. rewrite Nat.add_0_r, Nat.add_comm in H1, B1.
    rewrite !get_nth by lia. cbn [bind enforce]. unfold modulus_at. rewrite E0. cbn [bind]. rewrite E1. cbn [bind].
    destruct (crt_exact inv (qc 0) (qc 1) (nth i t 0) (nth (i + n) t 0)) as (v & -> & V1 & V2 & V3).
    + lia.
    + lia.
    + apply N.lt_le_incl. apply (N.lt_trans _ (2 ^ 30 * 2 ^ 30)); [apply N.mul_lt_mono; assumption|reflexivity].
    + exact B0.
    + exact B1.
    + apply Hg, C.
    + exact Hinv.
    + exists v. split; [reflexivity|].
      assert (EQ : nprod (np_moduli P) = qc 0 * qc 1).
      { unfold qc, crt in *. destruct (np_moduli P) as [|m0 [|m1 [|? ?]]]; cbn [length] in C; try lia. cbn [nth nprod fold_right]. lia. }
      rewrite EQ, N2Z.inj_mul.
      assert (D0 : (zN (qc 0) | zN v - a)%Z).
      { apply Z.mod_divide; [lia|]. rewrite Zminus_mod, <- H0, <- N2Z.inj_mod, V2, Z.sub_diag by lia. apply Z.mod_0_l. lia. }
      assert (D1 : (zN (qc 1) | zN v - a)%Z).
      { apply Z.mod_divide; [lia|]. rewrite Zminus_mod, <- H1, <- N2Z.inj_mod, V3, Z.sub_diag by lia. apply Z.mod_0_l. lia. }
      destruct D0 as [k0 D0]. assert (G : Z.gcd (zN (qc 1)) (zN (qc 0)) = 1%Z).
      { rewrite Z.gcd_comm. specialize (Hg C). apply (f_equal zN) in Hg. rewrite zN_gcd in Hg. exact Hg. }
      rewrite D0, Z.mul_comm in D1. apply Z.gauss in D1; [|exact G]. destruct D1 as [k1 D1]. subst k0.
      apply (Z.mod_unique a (zN (qc 0) * zN (qc 1)) (- k1)); [left; rewrite <- N2Z.inj_mul; lia|].
      replace (zN v) with (a + k1 * zN (qc 1) * zN (qc 0))%Z by lia. ring.
Qed.

Theorem from_ntt_ok : forall avx inv m a, (crt = 1 \/ crt = 2)%nat -> (crt = 2%nat -> N.gcd (qc 0) (qc 1) = 1) ->
  (forall x m, N.gcd x m = 1 -> 1 < m -> inv x m < m /\ (x * inv x m) mod m = 1) ->
  trans m a ->
  exists m', from_ntt avx P inv m = Ok m' /\ rm_rows m' = rm_rows m /\ rm_cols m' = rm_cols m /\ shaped m'
    /\ forall r c z, (r < rm_rows m)%nat -> (c < rm_cols m)%nat -> (z < n)%nat ->
         zc m' r c z = (a r c z mod zN (nprod (np_moduli P)))%Z.
Proof using HP.
  intros avx inv m a Hcrt Hg Hinv Ha. destruct (trans_has m a Ha) as [_ HA].
  unfold from_ntt. rewrite np_n. fold crt.
  destruct (fill_ok (rm_rows m) (rm_cols m) n
    (fun r c => do t <- ntt_inverse avx P (poly_at (crt * n) m r c); map_out (crt_compose P inv t) (seq 0 n))
    (fun r c p => forall z, (z < n)%nat -> zN (nth z p 0) = (a r c z mod zN (nprod (np_moduli P)))%Z)) as (m' & E & R & C & Ld & H).
  - intros r c Hr Hc. destruct (HA r c Hr Hc) as [LA PA].
    destruct (inverse_has avx _ _ LA PA) as (t & -> & Lt & Ht). cbn [bind].
    destruct (map_out_seq_nth N (crt_compose P inv t) (fun z x => zN x = (a r c z mod zN (nprod (np_moduli P)))%Z) n 0) as (p & Ep & Lp & Hp).
    + intros z Hz. apply crt_ok; auto.
    + exists p. split; [exact Ep|]. split; [exact Lp|]. exact Hp.
  - exists m'. split; [exact E|]. split; [exact R|]. split; [exact C|]. split; [unfold shaped; rewrite R, C; exact Ld|].
    intros r c z Hr Hc Hz. rewrite <- (H r c Hr Hc z Hz). unfold zc, coeff.
    destruct (poly_slice n m' r c) as [_ N1]; [rewrite R, C; exact Ld|lia|lia|]. rewrite N1 by exact Hz. reflexivity.
Qed.
End All.
