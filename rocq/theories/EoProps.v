(** The OPRF over OpenSSL curves: values (C86) and what the server sees (C87). *)
From Coq Require Import List Arith NArith ZArith Znumtheory Bool Lia Permutation.
From Verif Require Import Base Text EllModel EllSpec EllProofs2 EoModel EoSpec EoProofs.
Import ListNotations.
Local Open Scope Z_scope.

Section Oprf.
Variable Pt : Type.
Variable infty : Pt.
Variable smul : Z -> Pt -> Pt.
Variable lift : Z -> option Pt.
Variable oct : Pt -> bytes.
Variable unoct : bytes -> option Pt.
Variables p n : Z.
Variable minv : Z -> Z.
Variables sha hash : bytes -> bytes.
Hypothesis CO : curve_ok Pt infty smul lift oct unoct p n minv.
Notation maps := (maps_to Pt lift p sha).
Notation full := (eo_full_evaluate Pt smul lift oct p n sha hash).
Notation simple := (eo_simple_evaluate Pt smul lift oct p n sha hash).
Notation evaluate := (eo_evaluate Pt infty smul oct unoct n).
Notation blind := (eo_blind Pt smul lift oct p n sha).
Notation finalize := (eo_finalize Pt infty smul oct unoct n hash).
Notation finalize_simple := (eo_finalize_simple Pt infty smul oct unoct n hash).

(** A server with key k and a client with key r, both with compare length len. *)
Definition parties (k r : bytes) (len : nat) (s : eo_server) (c : eo_client) : Prop :=
  (do s <- eo_server_new k; eo_server_set_cmp s len) = Ok s /\ (do c <- eo_client_new n minv r; eo_client_set_cmp c len) = Ok c.
Definition cmp_len (len : nat) : nat := if Nat.eqb len 0 then 12%nat else len.

Lemma parties_inv : forall k r len s c, parties k r len s c ->
  s = {| es_key := k; es_cmp := len |} /\ c = {| ec_key := r; ec_inv := eo_key_inv n minv r; ec_cmp := len |} /\ length k = 32%nat /\ length r = 32%nat.
Proof.
  intros k r len s c (Hs & Hc). unfold eo_server_new, eo_server_set_cmp, eo_client_new, eo_client_set_cmp, enforce in *.
  destruct (Nat.eqb (length k) eo_key_size) eqn:K; [|discriminate]. destruct (Nat.eqb (length r) eo_key_size) eqn:R; [|discriminate].
  cbn [bind] in *. destruct (Nat.leb len eo_key_size); [|discriminate]. inversion Hs. inversion Hc.
  apply Nat.eqb_eq in K, R. repeat split; assumption.
Qed.

(** ** C86: values *)
Theorem C86_values : forall hl k r len s c item i P,
  (forall x, length (hash x) = hl) -> (cmp_len len <= hl)%nat ->
  parties k r len s c -> key_ok n k -> key_ok n r -> maps item i P -> (i < 100)%nat ->
  full s item = Ok (prf Pt smul oct n hash k item P (cmp_len len)) /\
  simple s item = Ok (prf_simple Pt smul oct n hash k P (cmp_len len)) /\
  exists b e, blind c item = Ok b /\ evaluate s b = Ok e /\
    finalize c item e = Ok (prf Pt smul oct n hash k item P (cmp_len len)) /\
    finalize_simple c e = Ok (prf_simple Pt smul oct n hash k P (cmp_len len)).
Proof.
  intros hl k r len s c item i P HL Hle HP K R HM Hi. destruct (parties_inv _ _ _ _ _ HP) as (-> & -> & _ & _).
  pose proof (maps_fin _ _ _ _ _ _ _ _ _ _ CO _ _ _ HM) as HF.
  pose proof (key_range _ _ _ _ _ _ _ _ _ CO k K) as RK. pose proof (key_range _ _ _ _ _ _ _ _ _ CO r R) as RR.
  destruct (inv_key _ _ _ _ _ _ _ _ _ CO r R) as (KI & _).
  unfold eo_full_evaluate, eo_simple_evaluate, eo_blind, eo_evaluate, eo_finalize_simple, eo_finalize, eo_unblind. cbn [es_key es_cmp ec_key ec_inv ec_cmp].
  rewrite (item_mul_ok _ _ _ _ _ _ _ _ _ _ CO k item i P K HM Hi), (item_mul_ok _ _ _ _ _ _ _ _ _ _ CO r item i P R HM Hi). cbn [bind].
  change (eo_get_cmp len) with (cmp_len len).
  split; [|split].
  - apply hash_item_ok. rewrite HL. exact Hle.
  - apply hash_item_ok. rewrite HL. exact Hle.
  - exists (oct (smul (os2ip r mod n) P)), (oct (smul (os2ip k mod n) (smul (os2ip r mod n) P))).
    assert (F1 : smul (os2ip r mod n) P <> infty) by (apply (mul_fin _ _ _ _ _ _ _ _ _ CO); assumption).
    assert (F2 : smul (os2ip k mod n) (smul (os2ip r mod n) P) <> infty) by (apply (mul_fin _ _ _ _ _ _ _ _ _ CO); assumption).
    split; [reflexivity|]. split; [apply (point_mul_ok _ _ _ _ _ _ _ _ _ CO); assumption|].
    rewrite (point_mul_ok _ _ _ _ _ _ _ _ _ CO _ _ KI F2), (unblind_point _ _ _ _ _ _ _ _ _ CO) by (assumption || lia). cbn [bind].
    split; apply hash_item_ok; rewrite HL; exact Hle.
Qed.

(** The same for lists of items. *)
Theorem C86_many : forall hl k r len s c items,
  (forall x, length (hash x) = hl) -> (cmp_len len <= hl)%nat ->
  parties k r len s c -> key_ok n k -> key_ok n r -> Forall (fun item => exists i P, maps item i P /\ (i < 100)%nat) items ->
  exists bs es vs ws,
    eo_blind_all Pt smul lift oct p n sha c items = Ok bs /\ eo_evaluate_all Pt infty smul oct unoct n s bs = Ok es /\
    eo_finalize_all Pt infty smul oct unoct n hash c items es = Ok vs /\
    eo_full_evaluate_all Pt smul lift oct p n sha hash s items = Ok vs /\
    eo_finalize_simple_all Pt infty smul oct unoct n hash c es = Ok ws /\
    Forall2 (fun item v => full s item = Ok v) items vs /\ Forall2 (fun item w => simple s item = Ok w) items ws.
Proof.
  intros hl k r len s c items HL Hle HP K R H. induction H as [|item items (i & P & HM & Hi) H IH].
  - exists [], [], [], []. repeat split; constructor.
  - destruct IH as (bs & es & vs & ws & E1 & E2 & E3 & E4 & E5 & E6 & E7).
    destruct (C86_values hl k r len s c item i P HL Hle HP K R HM Hi) as (F1 & F2 & b & e & F3 & F4 & F5 & F6).
    exists (b :: bs), (e :: es), (prf Pt smul oct n hash k item P (cmp_len len) :: vs), (prf_simple Pt smul oct n hash k P (cmp_len len) :: ws).
    unfold eo_blind_all, eo_evaluate_all, eo_full_evaluate_all, eo_finalize_simple_all in *. cbn [eo_each eo_finalize_all].
    rewrite F1, F3, F4, F5, F6. cbn [bind]. rewrite E1, E2, E3, E4, E5. cbn [bind]. repeat split; constructor; assumption.
Qed.

(** Where nothing can be computed, nothing is returned: no candidate on the curve, a key that is 0 modulo the order, bytes that
    are not a point. *)
Theorem C86_no_point : forall k r len s c item, parties k r len s c -> (forall i P, maps item i P -> (100 <= i)%nat) ->
  full s item = Throw /\ simple s item = Throw /\ blind c item = Throw.
Proof.
  intros k r len s c item HP H. destruct (parties_inv _ _ _ _ _ HP) as (-> & -> & LK & LR).
  unfold eo_full_evaluate, eo_simple_evaluate, eo_blind, eo_item_mul, enforce. cbn [es_key ec_key]. rewrite LK, LR. change (Nat.eqb 32 eo_key_size) with true. cbv iota.
  rewrite (h2c_throw _ _ _ _ _ _ _ _ _ _ CO item H). repeat split; reflexivity.
Qed.
Lemma to_throw : forall A (x : outcome Pt) (f : Pt -> outcome A), x = Throw \/ (exists P, x = Ok P) -> (forall P, f P = Throw) -> bind x f = Throw.
Proof. intros A x f [->|(P & ->)] H; [reflexivity|apply H]. Qed.
Theorem C86_zero_key : forall k r len s c item b, parties k r len s c ->
  (os2ip k mod n = 0 -> full s item = Throw /\ simple s item = Throw /\ evaluate s b = Throw) /\
  (os2ip r mod n = 0 -> blind c item = Throw /\ finalize c item b = Throw /\ finalize_simple c b = Throw).
Proof.
  intros k r len s c item b HP. destruct (parties_inv _ _ _ _ _ HP) as (-> & -> & LK & LR).
  assert (TH : eo_hash_to_curve Pt lift p sha item = Throw \/ exists P, eo_hash_to_curve Pt lift p sha item = Ok P).
  { pose proof (maps_before _ _ _ _ _ _ _ _ _ sha CO item) as G.
    destruct (G 100%nat) as [(i & P & A & B)|H]; [right; exists P; exact (h2c_ok _ _ _ _ _ _ _ _ _ _ CO item i P A B)|].
    left. exact (h2c_throw _ _ _ _ _ _ _ _ _ _ CO item H). }
  split; intros Z0.
  - unfold eo_full_evaluate, eo_simple_evaluate, eo_evaluate, eo_item_mul, eo_point_mul, enforce. cbn [es_key]. rewrite LK. change (Nat.eqb 32 eo_key_size) with true. cbv iota zeta.
    rewrite bn_key, Z0, (co_zero _ _ _ _ _ _ _ _ _ CO), (to_bytes_throw _ _ _ _ _ _ _ _ _ CO).
    assert (Q : (do P <- eo_hash_to_curve Pt lift p sha item; eo_to_bytes Pt oct (smul 0 P)) = Throw)
      by (apply to_throw; [exact TH|]; intro P; rewrite (co_zero _ _ _ _ _ _ _ _ _ CO); apply (to_bytes_throw _ _ _ _ _ _ _ _ _ CO)).
    rewrite Q. repeat split; reflexivity.
  - unfold eo_blind, eo_finalize_simple, eo_finalize, eo_unblind, eo_item_mul, eo_point_mul, enforce. cbn [ec_key ec_inv].
    assert (LI : length (eo_key_inv n minv r) = 32%nat) by apply be_bytes_len. rewrite LR, LI. change (Nat.eqb 32 eo_key_size) with true. cbv iota zeta.
    assert (EI : eo_bn (eo_key_inv n minv r) n = 0).
    { unfold eo_key_inv. rewrite (bn_key n r), Z0, (co_inv0 _ _ _ _ _ _ _ _ _ CO). unfold eo_bn, eo_bytes. rewrite be_bytes_int by (split; [lia|reflexivity]).
      apply Z.mod_0_l. pose proof (n_pos _ _ _ _ _ _ _ _ _ CO). lia. }
    rewrite EI, bn_key, Z0, (co_zero _ _ _ _ _ _ _ _ _ CO), (to_bytes_throw _ _ _ _ _ _ _ _ _ CO).
    assert (Q : (do P <- eo_hash_to_curve Pt lift p sha item; eo_to_bytes Pt oct (smul 0 P)) = Throw)
      by (apply to_throw; [exact TH|]; intro P; rewrite (co_zero _ _ _ _ _ _ _ _ _ CO); apply (to_bytes_throw _ _ _ _ _ _ _ _ _ CO)).
    rewrite Q. repeat split; reflexivity.
Qed.
Theorem C86_bad_element : forall k r len s c item b, parties k r len s c -> unoct b = None \/ unoct b = Some infty ->
  evaluate s b = Throw /\ finalize c item b = Throw /\ finalize_simple c b = Throw.
Proof.
  intros k r len s c item b HP H. destruct (parties_inv _ _ _ _ _ HP) as (-> & -> & LK & LR).
  unfold eo_finalize_simple, eo_finalize, eo_unblind, eo_evaluate, eo_point_mul, enforce. cbn [es_key ec_key ec_inv].
  assert (LI : length (eo_key_inv n minv r) = 32%nat) by apply be_bytes_len. rewrite LK, LI. change (Nat.eqb 32 eo_key_size) with true. cbv iota zeta.
  assert (E : match unoct b with Some P => P | None => infty end = infty) by (destruct H as [->| ->]; reflexivity).
  rewrite E, !(co_infty _ _ _ _ _ _ _ _ _ CO), (to_bytes_throw _ _ _ _ _ _ _ _ _ CO). repeat split; reflexivity.
Qed.

(** ** Accidents *)

(** The next candidate depends on the candidate alone: an item whose first candidate is not on the curve has the value of another
    item, the 32 bytes of that candidate. *)
Lemma cand_shift : forall m x m', candidate p sha m 0 x -> i2os x 32 m' -> forall j y, candidate p sha m' j y <-> candidate p sha m (S j) y.
Proof.
  intros m x m' HC HW. induction j as [|j IH]; intro y.
  - split; intro H; inversion H; subst; [apply (cand_next p sha m 0 x); assumption|].
    match goal with A : candidate _ _ m 0 ?a |- _ => assert (a = x) by (exact (cand_fun _ _ _ _ _ _ A HC)); subst end.
    match goal with A : i2os x 32 ?a |- _ => assert (a = m') by (apply word_be in A, HW; subst; reflexivity); subst end. constructor.
  - split; intro H; inversion H; subst.
    + match goal with A : candidate _ _ m' j _ |- _ => apply IH in A; apply (cand_next p sha m (S j) _ _ A) end. assumption.
    + match goal with A : candidate _ _ m (S j) _ |- _ => apply IH in A; apply (cand_next p sha m' j _ _ A) end. assumption.
Qed.
Lemma maps_shift : forall m x m' i P, candidate p sha m 0 x -> i2os x 32 m' -> maps m (S i) P -> maps m' i P.
Proof.
  intros m x m' i P HC HW ((y & Hy & HL) & HN). pose proof (cand_shift m x m' HC HW) as S. split.
  - exists y. split; [apply S, Hy|exact HL].
  - intros j z Hj Hz. apply (HN (Datatypes.S j)); [lia|]. apply S, Hz.
Qed.

Theorem C86_false_match_refuted : forall hl k r len s c m i P x m',
  (forall x, length (hash x) = hl) -> (cmp_len len <= hl)%nat -> parties k r len s c -> key_ok n k -> key_ok n r ->
  maps m (S i) P -> (S i < 100)%nat -> candidate p sha m 0 x -> i2os x 32 m' -> length m <> 32%nat ->
  m <> m' /\ simple s m = simple s m' /\
  exists b e v, blind c m' = Ok b /\ evaluate s b = Ok e /\ finalize_simple c e = Ok v /\ simple s m = Ok v.
Proof.
  intros hl k r len s c m i P x m' HL Hle HP K R HM Hi HC HW Hlen.
  assert (HM' : maps m' i P) by (eapply maps_shift; eassumption).
  destruct (C86_values hl k r len s c m (S i) P HL Hle HP K R HM Hi) as (_ & E & _).
  destruct (C86_values hl k r len s c m' i P HL Hle HP K R HM' ltac:(lia)) as (_ & E' & b & e & E1 & E2 & _ & E4).
  split; [intros ->; apply Hlen; apply HW|]. split; [congruence|]. exists b, e. eexists. repeat split; [exact E1|exact E2|exact E4|exact E].
Qed.

(** With the item in the hash, equal values of different items are a collision of the hash, cut to the compare length. *)
Theorem C86_full_collision : forall hl k r len s c m i P m' i' P',
  (forall x, length (hash x) = hl) -> (cmp_len len <= hl)%nat -> parties k r len s c -> key_ok n k -> key_ok n r ->
  maps m i P -> (i < 100)%nat -> maps m' i' P' -> (i' < 100)%nat -> m <> m' -> full s m = full s m' ->
  exists u u', u <> u' /\ firstn (cmp_len len) (hash u) = firstn (cmp_len len) (hash u').
Proof.
  intros hl k r len s c m i P m' i' P' HL Hle HP K R HM Hi HM' Hi' N E.
  destruct (C86_values hl k r len s c m i P HL Hle HP K R HM Hi) as (E1 & _).
  destruct (C86_values hl k r len s c m' i' P' HL Hle HP K R HM' Hi') as (E2 & _).
  rewrite E1, E2 in E. exists (m ++ key_point Pt smul oct n k P), (m' ++ key_point Pt smul oct n k P'). split; [|injection E; auto].
  intros Q. apply N.
  assert (L : length (key_point Pt smul oct n k P) = length (key_point Pt smul oct n k P')).
  { unfold key_point. pose proof (key_range _ _ _ _ _ _ _ _ _ CO k K).
    rewrite !(co_oct _ _ _ _ _ _ _ _ _ CO); [reflexivity| |]; apply (mul_fin _ _ _ _ _ _ _ _ _ CO); try assumption; eapply (maps_fin _ _ _ _ _ _ _ _ _ _ CO); eassumption. }
  assert (L2 : length m = length m') by (apply (f_equal (@length _)) in Q; rewrite !app_length in Q; lia).
  apply (f_equal (firstn (length m))) in Q. rewrite !firstn_app, <- L2, Nat.sub_diag in Q. cbn [firstn] in Q. rewrite !app_nil_r in Q.
  rewrite firstn_all in Q. rewrite Q, L2. apply firstn_all.
Qed.

(** SetPrivateKey on a client leaves the inverse of the old key behind: what it unblinds to is right only if the new key is the old
    one modulo the order. *)
Theorem C86_set_key_refuted : forall k r r' len s c c' item i P,
  parties k r len s c -> key_ok n k -> key_ok n r -> key_ok n r' -> eo_client_set_key c r' = Ok c' ->
  maps item i P -> (i < 100)%nat ->
  exists b e u, blind c' item = Ok b /\ evaluate s b = Ok e /\ eo_unblind Pt infty smul oct unoct n c' e = Ok u /\
    (u = key_point Pt smul oct n k P <-> os2ip r' mod n = os2ip r mod n).
Proof.
  intros k r r' len s c c' item i P HP K R R' HS HM Hi. destruct (parties_inv _ _ _ _ _ HP) as (-> & -> & _ & _).
  unfold eo_client_set_key, enforce in HS. destruct (Nat.eqb _ _); [|discriminate]. injection HS as <-.
  pose proof (maps_fin _ _ _ _ _ _ _ _ _ _ CO _ _ _ HM) as HF. pose proof (n_pos _ _ _ _ _ _ _ _ _ CO) as NP.
  pose proof (key_range _ _ _ _ _ _ _ _ _ CO k K) as RK. pose proof (key_range _ _ _ _ _ _ _ _ _ CO r R) as RR. pose proof (key_range _ _ _ _ _ _ _ _ _ CO r' R') as RR'.
  destruct (inv_key _ _ _ _ _ _ _ _ _ CO r R) as (KI & EI). pose proof (key_range _ _ _ _ _ _ _ _ _ CO _ KI) as RI.
  unfold eo_blind, eo_evaluate, eo_unblind. cbn [es_key ec_key ec_inv].
  rewrite (item_mul_ok _ _ _ _ _ _ _ _ _ _ CO r' item i P R' HM Hi).
  set (rp := os2ip r' mod n) in *. set (kk := os2ip k mod n) in *. set (rr := os2ip r mod n) in *. set (ii := os2ip (eo_key_inv n minv r) mod n) in *.
  assert (F1 : smul rp P <> infty) by (apply (mul_fin _ _ _ _ _ _ _ _ _ CO); assumption).
  assert (F2 : smul kk (smul rp P) <> infty) by (apply (mul_fin _ _ _ _ _ _ _ _ _ CO); assumption).
  exists (oct (smul rp P)), (oct (smul kk (smul rp P))), (oct (smul ii (smul kk (smul rp P)))).
  split; [reflexivity|]. split; [exact (point_mul_ok _ _ _ _ _ _ _ _ _ CO k _ K F1)|]. split; [exact (point_mul_ok _ _ _ _ _ _ _ _ _ CO _ _ KI F2)|].
  unfold key_point. fold kk.
  rewrite !(co_mul _ _ _ _ _ _ _ _ _ CO) by (lia || apply Z.mod_pos_bound; lia). rewrite Z.mul_mod_idemp_l by lia.
  split; intro E.
  - apply (oct_inj _ _ _ _ _ _ _ _ _ CO) in E.
    apply (co_faithful _ _ _ _ _ _ _ _ _ CO) in E; [|exact HF|apply Z.mod_pos_bound; lia|lia].
    (* multiply by rr *)
    assert (E2 : (rr * ((ii * kk * rp) mod n)) mod n = (rr * kk) mod n) by (rewrite E; reflexivity).
    rewrite Z.mul_mod_idemp_r in E2 by lia. replace (rr * (ii * kk * rp)) with ((rr * ii) * (kk * rp)) in E2 by ring.
    rewrite <- Z.mul_mod_idemp_l, EI, Z.mul_1_l in E2 by lia.
    assert (D : (n | kk * (rp - rr))).
    { apply Z.mod_divide; [lia|]. replace (kk * (rp - rr)) with (kk * rp - rr * kk) by ring. rewrite Zminus_mod, E2, Z.sub_diag. apply Z.mod_0_l. lia. }
    apply prime_mult in D; [|exact (co_n _ _ _ _ _ _ _ _ _ CO)]. destruct D as [D|(q & D)]; [apply Z.divide_pos_le in D; lia|].
    assert (q < 1) by nia. assert (-1 < q) by nia. assert (q = 0) by lia. subst q. lia.
  - f_equal. f_equal. rewrite E. replace (ii * kk * rr) with (kk * (rr * ii)) by ring. rewrite <- Z.mul_mod_idemp_r, EI, Z.mul_1_r by lia. apply Z.mod_small. lia.
Qed.

(** Finalize with fewer items than evaluated elements reads past the end of the items. *)
Theorem C86_short_items_refuted : forall c items evs, (length items < length evs)%nat ->
  (forall i e, In (i, e) (combine items evs) -> exists v, finalize c i e = Ok v) ->
  eo_finalize_all Pt infty smul oct unoct n hash c items evs = UB.
Proof.
  intros c items. induction items as [|i items IH]; intros [|e evs] HL H; cbn [length] in HL; try lia; [reflexivity|].
  cbn [eo_finalize_all]. destruct (H i e (or_introl eq_refl)) as (v & ->). cbn [bind]. rewrite IH; [reflexivity|lia|].
  intros i' e' HI. apply H. right. exact HI.
Qed.

(** ** C87: what the server sees *)

(** Over all keys below the order, the blinded forms of any two items are the same. *)
Theorem C87_blind_hides : forall keys x i P y j Q,
  NoDup keys -> (forall k, In k keys <-> length k = 32%nat /\ Forall is_byte k /\ os2ip k < n) ->
  maps x i P -> (i < 100)%nat -> maps y j Q -> (j < 100)%nat ->
  Permutation (map (fun k => do c <- eo_client_new n minv k; blind c x) keys) (map (fun k => do c <- eo_client_new n minv k; blind c y) keys).
Proof.
  intros keys x i P y j Q ND HK HX Hi HY Hj. pose proof (n_pos _ _ _ _ _ _ _ _ _ CO) as NP. pose proof (co_n_small _ _ _ _ _ _ _ _ _ CO) as NS.
  pose proof (maps_fin _ _ _ _ _ _ _ _ _ _ CO _ _ _ HX) as FP. pose proof (maps_fin _ _ _ _ _ _ _ _ _ _ CO _ _ _ HY) as FQ.
  destruct (co_cyclic _ _ _ _ _ _ _ _ _ CO P Q FP) as (a & Ra & EQ).
  assert (A0 : a <> 0) by (intros ->; apply FQ; rewrite EQ; apply (co_zero _ _ _ _ _ _ _ _ _ CO)).
  set (f := fun k : bytes => be_bytes 32 ((os2ip k * a) mod n)).
  assert (Of : forall k, os2ip (f k) = (os2ip k * a) mod n).
  { intro k. unfold f. pose proof (Z.mod_pos_bound (os2ip k * a) n ltac:(lia)). rewrite os2ip_be, be_bytes_int; [reflexivity|]. change (Z.of_nat 32) with 32. lia. }
  assert (Hf : forall k, In k keys -> In (f k) keys).
  { intros k _. apply HK. split; [apply be_bytes_len|]. split; [apply be_bytes_byte|]. rewrite Of. apply Z.mod_pos_bound. lia. }
  assert (NN : forall k, 0 <= os2ip k) by (intro k; rewrite os2ip_be; apply be_int_nonneg).
  assert (PF : Permutation (map f keys) keys).
  { apply NoDup_Permutation_bis; [| rewrite map_length; apply Nat.le_refl|intros k Hk; apply in_map_iff in Hk; destruct Hk as (k' & <- & Hk'); apply Hf, Hk'].
    assert (G : forall l, NoDup l -> (forall k, In k l -> In k keys) -> NoDup (map f l)).
    { intros l Nl. induction Nl as [|k l Hk Nl IH]; intros S; [constructor|]. cbn [map]. constructor; [|apply IH; intros; apply S; right; assumption].
      rewrite in_map_iff. intros (k' & E & Hk'). apply Hk. replace k with k'; [exact Hk'|].
      assert (K1 : In k keys) by (apply S; left; reflexivity). assert (K2 : In k' keys) by (apply S; right; exact Hk').
      apply HK in K1. apply HK in K2. destruct K1 as (L1 & B1 & R1), K2 as (L2 & B2 & R2).
      apply (f_equal os2ip) in E. rewrite !Of in E. pose proof (NN k). pose proof (NN k').
      assert (D : (n | (os2ip k' - os2ip k) * a)).
      { apply Z.mod_divide; [lia|]. rewrite Z.mul_sub_distr_r, Zminus_mod, E, Z.sub_diag. apply Z.mod_0_l. lia. }
      apply prime_mult in D; [|exact (co_n _ _ _ _ _ _ _ _ _ CO)]. destruct D as [(q & D)|D]; [|apply Z.divide_pos_le in D; lia].
      assert (q < 1) by nia. assert (-1 < q) by nia. assert (q = 0) by lia. subst q.
      assert (W : os2ip k' = os2ip k) by lia.
      assert (W1 : i2os (os2ip k) 32 k) by (repeat split; assumption). assert (W2 : i2os (os2ip k) 32 k') by (repeat split; assumption).
      apply word_be in W1. apply word_be in W2. congruence. }
    apply G; auto. }
  assert (E : map (fun k => do c <- eo_client_new n minv k; blind c y) keys = map (fun k => do c <- eo_client_new n minv k; blind c x) (map f keys)).
  { rewrite map_map. apply map_ext_in. intros k Hk. apply HK in Hk. destruct Hk as (L & B & R).
    unfold eo_client_new, enforce. rewrite L. replace (length (f k)) with 32%nat by (symmetry; apply be_bytes_len). change (Nat.eqb 32 eo_key_size) with true. cbv iota. cbn [bind].
    unfold eo_blind, eo_item_mul, enforce. cbn [ec_key]. rewrite L. replace (length (f k)) with 32%nat by (symmetry; apply be_bytes_len). change (Nat.eqb 32 eo_key_size) with true. cbv iota.
    rewrite (h2c_ok _ _ _ _ _ _ _ _ _ _ CO y j Q HY Hj), (h2c_ok _ _ _ _ _ _ _ _ _ _ CO x i P HX Hi). cbn [bind]. f_equal.
    rewrite !bn_key, Of, EQ. pose proof (NN k). rewrite (co_mul _ _ _ _ _ _ _ _ _ CO) by (assumption || apply Z.mod_pos_bound; lia).
    rewrite Z.mod_mod by lia. rewrite Z.mul_mod_idemp_l by lia. reflexivity. }
  rewrite E. apply Permutation_map, Permutation_sym, PF.
Qed.

(** One client for several items: the server sees which of them are equal. *)
Theorem C87_repeats_refuted : forall r c x i P y j Q, eo_client_new n minv r = Ok c -> key_ok n r ->
  maps x i P -> (i < 100)%nat -> maps y j Q -> (j < 100)%nat ->
  (blind c x = blind c y <-> P = Q).
Proof.
  intros r c x i P y j Q HC R HX Hi HY Hj. unfold eo_client_new, enforce in HC. destruct (Nat.eqb _ _); [|discriminate]. injection HC as <-.
  unfold eo_blind. cbn [ec_key]. rewrite (item_mul_ok _ _ _ _ _ _ _ _ _ _ CO r x i P R HX Hi), (item_mul_ok _ _ _ _ _ _ _ _ _ _ CO r y j Q R HY Hj).
  split; [|intros ->; reflexivity]. intros E. injection E as E. apply (oct_inj _ _ _ _ _ _ _ _ _ CO) in E.
  rewrite <- (co_one _ _ _ _ _ _ _ _ _ CO P), <- (co_one _ _ _ _ _ _ _ _ _ CO Q).
  destruct (inv_key _ _ _ _ _ _ _ _ _ CO r R) as (KI & EI). pose proof (key_range _ _ _ _ _ _ _ _ _ CO _ KI). pose proof (key_range _ _ _ _ _ _ _ _ _ CO _ R).
  rewrite Z.mul_comm in EI. rewrite <- EI. rewrite <- !(co_mul _ _ _ _ _ _ _ _ _ CO) by lia. rewrite E. reflexivity.
Qed.
(** A compare length over the 32 bytes of an output is refused, by the server and the client alike;
    any other is taken and changes nothing else. *)
Theorem C86_compare_length : forall (s : eo_server) (c : eo_client) len,
  ((32 < len)%nat -> eo_server_set_cmp s len = Throw /\ eo_client_set_cmp c len = Throw) /\
  ((len <= 32)%nat -> exists s' c', eo_server_set_cmp s len = Ok s' /\ eo_client_set_cmp c len = Ok c' /\
    es_key s' = es_key s /\ es_cmp s' = len /\ ec_key c' = ec_key c /\ ec_inv c' = ec_inv c /\ ec_cmp c' = len).
Proof.
  intros s c len. unfold eo_server_set_cmp, eo_client_set_cmp, eo_key_size. split; intros H.
  - rewrite (proj2 (Nat.leb_gt len 32) H). split; reflexivity.
  - rewrite (proj2 (Nat.leb_le len 32) H). do 2 eexists. repeat split; reflexivity.
Qed.

End Oprf.
Print Assumptions C86_values.
Print Assumptions C86_many.
Print Assumptions C86_compare_length.
Print Assumptions C86_no_point.
Print Assumptions C86_zero_key.
Print Assumptions C86_bad_element.
Print Assumptions C86_false_match_refuted.
Print Assumptions C86_full_collision.
Print Assumptions C86_set_key_refuted.
Print Assumptions C86_short_items_refuted.
Print Assumptions C87_blind_hides.
Print Assumptions C87_repeats_refuted.

(** ** A small instance: a group of five elements over a field of 251 *)
Inductive t_pt := T0 | T1 | T2 | T3 | T4.
Definition t_num (P : t_pt) : Z := match P with T0 => 0 | T1 => 1 | T2 => 2 | T3 => 3 | T4 => 4 end.
Definition t_of (x : Z) : t_pt := match x mod 5 with 0 => T0 | 1 => T1 | 2 => T2 | 3 => T3 | _ => T4 end.
Definition t_smul (a : Z) (P : t_pt) : t_pt := t_of (a * t_num P).
Definition t_lift (x : Z) : option t_pt := if Z.even x then Some (t_of (1 + (x / 2) mod 4)) else None.
Definition t_oct (P : t_pt) : bytes := match P with T0 => [0%N] | _ => (2 :: repeat 0 31 ++ [Z.to_N (t_num P)])%N end.
Definition t_unoct (b : bytes) : option t_pt :=
  if Nat.eqb (length b) 1 then Some T0 else if Nat.eqb (length b) 33 then Some (t_of (Z.of_N (last b 0%N))) else None.
Definition t_minv (a : Z) : Z := match a with 1 => 1 | 2 => 3 | 3 => 2 | 4 => 4 | _ => 0 end.
Definition t_sum (b : bytes) : N := fold_left N.add b 0%N.
Definition t_sha (b : bytes) : bytes := [((t_sum b * 7 + 3 * N.of_nat (length b) + 1) mod 256)%N].
Definition t_hash (b : bytes) : bytes := map (fun i => ((t_sum b + N.of_nat i) mod 256)%N) (seq 0 32).
Definition t_key (x : Z) : bytes := be_bytes 32 x.

Lemma five : forall a, 0 <= a < 5 -> a = 0 \/ a = 1 \/ a = 2 \/ a = 3 \/ a = 4. Proof. lia. Qed.
Lemma prime5 : prime 5.
Proof.
  apply prime_intro; [lia|]. intros m H. apply Zgcd_1_rel_prime.
  assert (E : m = 1 \/ m = 2 \/ m = 3 \/ m = 4) by lia. destruct E as [->|[->|[->| ->]]]; reflexivity.
Qed.
Lemma t_num_range : forall P, 0 <= t_num P < 5. Proof. destruct P; cbn; lia. Qed.
Lemma t_curve : curve_ok t_pt T0 t_smul t_lift t_oct t_unoct 251 5 t_minv.
Proof.
  constructor.
  - split; reflexivity.
  - exact prime5.
  - reflexivity.
  - intros a b P Ha Hb. destruct (five a Ha) as [->|[->|[->|[->| ->]]]], (five b Hb) as [->|[->|[->|[->| ->]]]]; destruct P; reflexivity.
  - destruct P; reflexivity.
  - destruct P; reflexivity.
  - intro a. unfold t_smul. cbn [t_num]. rewrite Z.mul_0_r. reflexivity.
  - intros a b P HP Ha Hb. destruct (five a Ha) as [->|[->|[->|[->| ->]]]], (five b Hb) as [->|[->|[->|[->| ->]]]]; destruct P; intro E; solve [reflexivity|discriminate E|contradiction HP; reflexivity].
  - intros P Q HP.
    destruct P, Q; solve [contradiction HP; reflexivity|exists 0; split; [lia|reflexivity]|exists 1; split; [lia|reflexivity]|exists 2; split; [lia|reflexivity]
                         |exists 3; split; [lia|reflexivity]|exists 4; split; [lia|reflexivity]].
  - intros x P H. unfold t_lift in H. destruct (Z.even x); [|discriminate]. injection H as <-. pose proof (Z.mod_pos_bound (x / 2) 4 ltac:(lia)).
    assert (E : (x / 2) mod 4 = 0 \/ (x / 2) mod 4 = 1 \/ (x / 2) mod 4 = 2 \/ (x / 2) mod 4 = 3) by lia.
    destruct E as [->|[->|[->| ->]]]; discriminate.
  - intros P HP. destruct P; [contradiction HP; reflexivity|reflexivity..].
  - reflexivity.
  - destruct P; reflexivity.
  - intros a Ha. destruct (five a ltac:(lia)) as [->|[->|[->|[->| ->]]]]; [lia|split; [cbn; lia|reflexivity]..].
  - reflexivity.
Qed.
Lemma t_hash_len : forall x, length (t_hash x) = 32%nat. Proof. intro x. unfold t_hash. rewrite map_length. apply seq_length. Qed.


(** Items 2 3 and 4 are on the curve with their first candidate, 1 with its second; the first candidate of 1 is 11. *)
Notation t_maps := (maps_to t_pt t_lift 251 t_sha).
Lemma t_maps_23 : t_maps [2; 3]%N 0 T2.
Proof. split; [exists 42; split; [exact (cand_first 251 t_sha [2; 3]%N)|reflexivity]|intros; lia]. Qed.
Lemma t_maps_4 : t_maps [4]%N 0 T1.
Proof. split; [exists 32; split; [exact (cand_first 251 t_sha [4]%N)|reflexivity]|intros; lia]. Qed.
Lemma t_cand_1 : candidate 251 t_sha [1]%N 0 11. Proof. exact (cand_first 251 t_sha [1]%N). Qed.
Lemma t_word_11 : i2os 11 32 (t_key 11). Proof. apply be_word. split; [lia|reflexivity]. Qed.
Lemma t_maps_1 : t_maps [1]%N 1 T4.
Proof.
  split; [exists 174; split; [exact (cand_next 251 t_sha [1]%N 0 11 (t_key 11) t_cand_1 t_word_11)|reflexivity]|].
  intros j x Hj HC. assert (j = 0)%nat by lia. subst j. rewrite (cand_fun _ _ _ _ _ _ HC t_cand_1). reflexivity.
Qed.
Lemma t_key_ok : forall x, In x [1; 2; 3; 4; 8] -> key_ok 5 (t_key x).
Proof. intros x H. split; [apply be_bytes_len|]. cbn [In] in H. destruct H as [<-|[<-|[<-|[<-|[<-|[]]]]]]; vm_compute; discriminate. Qed.
Definition t_server (k : Z) (len : nat) : eo_server := {| es_key := t_key k; es_cmp := len |}.
Definition t_client (r : Z) (len : nat) : eo_client := {| ec_key := t_key r; ec_inv := eo_key_inv 5 t_minv (t_key r); ec_cmp := len |}.
Lemma t_parties : forall k r len, (len <= 32)%nat -> parties 5 t_minv (t_key k) (t_key r) len (t_server k len) (t_client r len).
Proof.
  intros k r len H. unfold parties, eo_server_new, eo_client_new, eo_server_set_cmp, eo_client_set_cmp, enforce, t_server, t_client.
  unfold t_key. rewrite !be_bytes_len. change (Nat.eqb 32 eo_key_size) with true. cbn [bind].
  replace (Nat.leb len eo_key_size) with true by (symmetry; apply Nat.leb_le; exact H). split; reflexivity.
Qed.
Notation t_full := (eo_full_evaluate t_pt t_smul t_lift t_oct 251 5 t_sha t_hash).
Notation t_simple := (eo_simple_evaluate t_pt t_smul t_lift t_oct 251 5 t_sha t_hash).
Notation t_evaluate := (eo_evaluate t_pt T0 t_smul t_oct t_unoct 5).
Notation t_blind := (eo_blind t_pt t_smul t_lift t_oct 251 5 t_sha).
Notation t_finalize := (eo_finalize t_pt T0 t_smul t_oct t_unoct 5 t_hash).

Example C86_example :
  curve_ok t_pt T0 t_smul t_lift t_oct t_unoct 251 5 t_minv /\
  parties 5 t_minv (t_key 8) (t_key 2) 0 (t_server 8 0) (t_client 2 0) /\ key_ok 5 (t_key 8) /\ key_ok 5 (t_key 2) /\
  t_maps [2; 3]%N 0 T2 /\ t_maps [1]%N 1 T4 /\
  t_blind (t_client 2 0) [1]%N = Ok (t_oct T3) /\ t_evaluate (t_server 8 0) (t_oct T3) = Ok (t_oct T4) /\
  t_finalize (t_client 2 0) [1]%N (t_oct T4) = Ok [5; 6; 7; 8; 9; 10; 11; 12; 13; 14; 15; 16]%N /\
  t_full (t_server 8 0) [1]%N = Ok [5; 6; 7; 8; 9; 10; 11; 12; 13; 14; 15; 16]%N /\
  eo_finalize_all t_pt T0 t_smul t_oct t_unoct 5 t_hash (t_client 2 3) [[1]; [4]]%N [t_oct T4; t_oct T1] = Ok [[5; 6; 7]; [9; 10; 11]]%N /\
  eo_full_evaluate_all t_pt t_smul t_lift t_oct 251 5 t_sha t_hash (t_server 8 3) [[1]; [4]]%N = Ok [[5; 6; 7]; [9; 10; 11]]%N.
Proof.
  split; [exact t_curve|]. split; [apply t_parties; lia|]. split; [apply t_key_ok; cbn; tauto|]. split; [apply t_key_ok; cbn; tauto|].
  split; [exact t_maps_23|]. split; [exact t_maps_1|]. repeat split; vm_compute; reflexivity.
Qed.
Example C86_throws_example :
  curve_ok t_pt T0 t_smul (fun _ => None) t_oct t_unoct 251 5 t_minv /\
  (forall i P, maps_to t_pt (fun _ => None) 251 t_sha [1]%N i P -> (100 <= i)%nat) /\
  eo_blind t_pt t_smul (fun _ => None) t_oct 251 5 t_sha (t_client 2 0) [1]%N = Throw /\
  t_full (t_server 5 0) [1]%N = Throw /\ t_blind (t_client 10 0) [4]%N = Throw /\
  t_unoct [2]%N = Some T0 /\ t_unoct [2; 2]%N = None /\ t_evaluate (t_server 3 0) [2; 2]%N = Throw.
Proof.
  split; [|split].
  - destruct t_curve. constructor; try assumption. intros x P H. discriminate.
  - intros i P ((x & _ & H) & _). discriminate.
  - repeat split; vm_compute; reflexivity.
Qed.
(** The items 1 and the 32 bytes of 11. *)
Example C86_false_match_example :
  t_maps [1]%N 1 T4 /\ candidate 251 t_sha [1]%N 0 11 /\ i2os 11 32 (t_key 11) /\
  t_simple (t_server 3 0) [1]%N = t_simple (t_server 3 0) (t_key 11) /\ t_full (t_server 3 0) [1]%N <> t_full (t_server 3 0) (t_key 11) /\
  t_simple (t_server 3 0) [1]%N <> t_simple (t_server 3 0) [4]%N.
Proof.
  split; [exact t_maps_1|]. split; [exact t_cand_1|]. split; [exact t_word_11|]. split; [vm_compute; reflexivity|]. split; vm_compute; discriminate.
Qed.
(** 8 and 3 are the same modulo the order, 4 and 3 are not. *)
Example C86_set_key_example :
  eo_client_set_key (t_client 3 0) (t_key 4) = Ok {| ec_key := t_key 4; ec_inv := ec_inv (t_client 3 0); ec_cmp := 0 |} /\
  (do c <- eo_client_set_key (t_client 3 0) (t_key 4); do b <- t_blind c [4]%N; do e <- t_evaluate (t_server 1 0) b; t_finalize c [] e) <> t_simple (t_server 1 0) [4]%N /\
  (do c <- eo_client_set_key (t_client 3 0) (t_key 8); do b <- t_blind c [4]%N; do e <- t_evaluate (t_server 1 0) b; t_finalize c [] e) = t_simple (t_server 1 0) [4]%N.
Proof. split; [vm_compute; reflexivity|]. split; [vm_compute; discriminate|vm_compute; reflexivity]. Qed.
Example C86_short_items_example :
  t_finalize (t_client 2 0) [1]%N (t_oct T4) = Ok [5; 6; 7; 8; 9; 10; 11; 12; 13; 14; 15; 16]%N /\
  eo_finalize_all t_pt T0 t_smul t_oct t_unoct 5 t_hash (t_client 2 0) [[1]]%N [t_oct T4; t_oct T1] = UB.
Proof. split; vm_compute; reflexivity. Qed.
Example C87_example :
  let keys := map t_key [0; 1; 2; 3; 4] in
  NoDup keys /\ (forall k, In k keys <-> length k = 32%nat /\ Forall is_byte k /\ os2ip k < 5) /\
  map (fun k => do c <- eo_client_new 5 t_minv k; t_blind c [1]%N) keys = [Throw; Ok (t_oct T4); Ok (t_oct T3); Ok (t_oct T2); Ok (t_oct T1)] /\
  map (fun k => do c <- eo_client_new 5 t_minv k; t_blind c [2; 3]%N) keys = [Throw; Ok (t_oct T2); Ok (t_oct T4); Ok (t_oct T1); Ok (t_oct T3)] /\
  t_blind (t_client 3 0) [1]%N = t_blind (t_client 3 0) (t_key 11) /\ t_blind (t_client 3 0) [1]%N <> t_blind (t_client 3 0) [4]%N.
Proof.
  cbv zeta. split; [|split].
  - vm_compute. repeat constructor; cbn; intuition discriminate.
  - intro k. rewrite in_map_iff. split.
    + intros (x & <- & H). split; [apply be_bytes_len|]. split; [apply be_bytes_byte|]. cbn [In] in H. destruct H as [<-|[<-|[<-|[<-|[<-|[]]]]]]; vm_compute; reflexivity.
    + intros (L & B & R). exists (os2ip k). split; [symmetry; apply word_be; repeat split; assumption|].
      assert (0 <= os2ip k) by (rewrite os2ip_be; apply be_int_nonneg). cbn [In]. lia.
  - split; [vm_compute; reflexivity|]. split; [vm_compute; reflexivity|]. split; [vm_compute; reflexivity|vm_compute; discriminate].
Qed.
