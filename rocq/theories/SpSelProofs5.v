(** From the query to the packed response. *)
From Coq Require Import List Arith NArith ZArith Lia Setoid Morphisms Ring Bool.
From Verif Require Import Base SpGadgetModel SpDecodeSpec SpDecodeProofs2 SpRingModel SpRingSpec SpRingProofs SpRingProofs2
  SpSelModel SpSelSpec SpSelProofs SpSelProofs2 SpSelProofs3 SpSelProofs4.
Import ListNotations.
Local Open Scope Z_scope.

Lemma nth_seq_map : forall {A} (f : nat -> A) num i d, (i < num)%nat -> nth i (map f (seq 0 num)) d = f i.
Proof.
  intros A f num i d H. rewrite (nth_indep _ d (f 0%nat)) by (rewrite map_length, seq_length; exact H).
  rewrite map_nth, seq_nth by exact H. reflexivity.
Qed.

Lemma log2_up_le : forall a, (a <= 2 ^ Nat.log2_up a)%nat.
Proof.
  intros a. destruct (Nat.le_gt_cases a 1) as [H|H]; [pose proof (Nat.pow_nonzero 2 (Nat.log2_up a) ltac:(lia)); lia|].
  apply Nat.log2_up_spec. exact H.
Qed.

Lemma ok_inj : forall {A} (a b : A), Ok a = Ok b -> a = b.
Proof. intros A a b H. injection H. auto. Qed.

Lemma scaled : forall q k x inv, 0 < q -> eqm q (2 ^ Z.of_nat k * inv) 1 -> eqm q (2 ^ Z.of_nat k * ((x * inv) mod q)) x.
Proof.
  intros q k x inv Hq0 [u E]. exists (x * u - 2 ^ Z.of_nat k * ((x * inv) / q)).
  pose proof (Z.div_mod (x * inv) q ltac:(lia)) as D. set (m := (x * inv) mod q) in *. set (d := x * inv / q) in *. clearbody m d.
  set (p2 := 2 ^ Z.of_nat k) in *. clearbody p2.
  replace m with (x * inv - q * d) by lia. replace (p2 * (x * inv - q * d)) with (x * (p2 * inv) - p2 * q * d) by ring. rewrite E. ring.
Qed.

Section W.
Variable P : sel_params.
Local Notation n := (sp_len P).
Local Notation q := (sp_q P).
Variable L : nat.
Hypothesis HL : sp_len P = (2 ^ L)%nat.
Hypothesis Hq0 : 0 < q.
Hypothesis Hqm : q < 2 ^ Z.of_nat (sp_ml P).
Hypothesis Hml : (sp_ml P <= 64)%nat.
Local Notation Hn := (n_pos P L HL).
Local Notation "a == b" := (peq n q a b) (at level 70).
Local Infix "*p" := (pmul n) (at level 40).
Local Infix "+p" := padd (at level 50).
Local Notation phase := (ph n).
Local Notation nr := (near n q).
Add Ring rg : (pring n q Hn) (setoid (peq_equiv n q) (peq_eqe n q Hn)).

Lemma psum_delta : forall k r (F : nat -> poly), (r < k)%nat -> psum k (fun i => if Nat.eqb r i then F i else pzero) == F r.
Proof using HL Hq0 Hqm Hml.
  induction k as [|k IH]; intros r F H; [lia|].
  change (psum k (fun i => if Nat.eqb r i then F i else pzero) +p (if Nat.eqb r k then F k else pzero) == F r).
  destruct (Nat.eqb_spec r k) as [->|Nr].
  - assert (E : psum k (fun i => if Nat.eqb k i then F i else pzero) == pzero).
    { transitivity (psum k (fun _ => pzero)).
      - apply (psum_ext n q Hn). intros i Hi. destruct (Nat.eqb_spec k i); [lia|reflexivity].
      - clear IH H. induction k as [|k IH]; [reflexivity|]. change (psum k (fun _ => pzero) +p pzero == pzero). rewrite IH. ring. }
    rewrite E. ring.
  - rewrite IH by lia. ring.
Qed.

Lemma digits_near : forall (y : nat -> poly) M m Be a, (1 <= m)%nat ->
  (forall k, (k < m)%nat -> nr Be (y k) (M *p pconst (gad (bits_for P m) k))) ->
  nr (switch_noise n m (bits_for P m) Be) (psum m (fun k => y k *p ginv1 P (bits_for P m) a k)) (M *p a).
Proof using HL Hq0 Hqm Hml.
  intros y M m Be a Hm H.
  pose proof (key_switch P Hn Hq0 Hqm Hml pzero (fun k => (pzero, y k)) M m Be a Hm) as G.
  assert (E : phase pzero (lincomb P m (fun k => (pzero, y k)) (ginv1 P (bits_for P m) a))
              == psum m (fun k => y k *p ginv1 P (bits_for P m) a k)).
  { rewrite (phase_lincomb P Hn Hq0 Hqm Hml). apply (psum_ext n q Hn). intros k _. unfold ph. cbn [fst snd]. ring. }
  rewrite E in G. apply G. intros k Hk. assert (F : phase pzero (pzero, y k) == y k) by (unfold ph; cbn [fst snd]; ring).
  rewrite F. apply H, Hk.
Qed.

(** * The client's keys *)
Section Keys.
Variables (s : poly) (Be : Z).

Lemma regev_near : forall a e m, small n q Be e -> nr Be (phase s (regev P s a e m)) m.
Proof using HL Hq0 Hqm Hml.
  intros a e m He. rewrite (phase_regev P Hn Hq0 Hqm Hml). apply (near_err n q Hn). exact He.
Qed.

Lemma expansion_ok : forall num m a e i, (forall i k, small n q Be (e i k)) -> (i < num)%nat ->
  key_ok P s Be i m (nth i (expansion_keys P s num m a e) (fun _ => ct_zero)).
Proof using HL Hq0 Hqm Hml.
  intros num m a e i He Hi k Hk. unfold expansion_keys. rewrite nth_seq_map by exact Hi. apply regev_near, He.
Qed.

Lemma conversion_ok : forall a e x, (forall k, small n q Be (e k)) ->
  nr Be (phase s (conversion_key P s a e x)) (s *p phase s (gadget2 (bits_for P (sp_conv P)) x)).
Proof using HL Hq0 Hqm Hml.
  intros a e x He. unfold conversion_key. eapply near_proper; [reflexivity|reflexivity| |apply regev_near, He].
  unfold gadget2, ph. destruct (Nat.even x); cbn [fst snd]; ring.
Qed.

(** * Conversion to GSW *)
Lemma gsw_ok : forall a e Bs Bg inp b, (1 <= sp_conv P)%nat -> (forall k, small n q Be (e k)) -> small n q Bs s -> 1 <= Bs ->
  (forall j, (j < sp_gsw P)%nat -> nr Bg (phase s (inp j)) (bitp b *p pconst (gad (bits_for P (sp_gsw P)) j))) ->
  forall x, (x < 2 * sp_gsw P)%nat ->
  nr (Z.of_nat n * Bs * Bg + switch_noise n (2 * sp_conv P) (bits_for P (sp_conv P)) Be)
     (phase s (regev_to_gsw P (conversion_key P s a e) inp x))
     (bitp b *p phase s (gadget2 (bits_for P (sp_gsw P)) x)).
Proof using HL Hq0 Hqm Hml.
  intros a e Bs Bg inp b Hc He Hs HBs H x Hx.
  set (j := (x / 2)%nat). assert (Hj : (j < sp_gsw P)%nat) by (apply Nat.div_lt_upper_bound; lia).
  pose proof (H j Hj) as Hj'. pose proof (near_pos n q Hn _ _ _ Hj') as Hb0.
  pose proof (gsw_mul P Hn Hq0 Hqm Hml s (conversion_key P s a e) s (sp_conv P) Be (inp j) Hc
                (fun x _ => conversion_ok a e x He)) as G.
  pose proof (near_pos n q Hn _ _ _ G) as Hg0. pose proof Hn as Hn'.
  unfold regev_to_gsw, gadget2. fold j. destruct (Nat.even x).
  - cbv zeta. rewrite Z.add_comm. eapply (near_trans n q Hn); [exact G|].
    eapply near_proper; [reflexivity|reflexivity| |apply (near_mul n q Hn); [exact Hs|exact Hj']].
    unfold ph. cbn [fst snd]. ring.
  - cbv zeta. apply (near_weaken n q Hn Bg);
      [|assert (1 <= Z.of_nat n * Bs) by nia; set (X := switch_noise _ _ _ _) in *; clearbody X; nia].
    eapply near_proper; [reflexivity|reflexivity| |exact Hj']. unfold ph. cbn [fst snd]. ring.
Qed.

(** * Packing *)
Lemma pack_near : forall S a e v_ct, (1 <= sp_conv P)%nat -> (forall i r k, small n q Be (e i r k)) ->
  forall r j, (r < sp_n P)%nat -> (j < sp_n P)%nat ->
  let out := pack_cts P v_ct (packing_keys P s S a e) in
  nr (Z.of_nat (sp_n P) * switch_noise n (sp_conv P) (bits_for P (sp_conv P)) Be)
     (S r *p out 0%nat j +p out (r + 1)%nat j) (phase s (v_ct (r * sp_n P + j)%nat)).
Proof using HL Hq0 Hqm Hml.
  intros S a e v_ct Hc He r j Hr Hj. cbv zeta. unfold pack_cts.
  set (D := fun i k => ginv1 P (bits_for P (sp_conv P)) (fst (v_ct (i * sp_n P + j)%nat)) k).
  set (c := fun i => v_ct (i * sp_n P + j)%nat).
  set (w := fun i => nth i (packing_keys P s S a e) (fun _ _ => pzero)).
  assert (E : S r *p psum (sp_n P) (fun i => (if Nat.eqb 0 (i + 1) then snd (c i) else pzero) +p psum (sp_conv P) (fun k => w i k 0%nat *p D i k))
              +p psum (sp_n P) (fun i => (if Nat.eqb (r + 1) (i + 1) then snd (c i) else pzero) +p psum (sp_conv P) (fun k => w i k (r + 1)%nat *p D i k))
              == psum (sp_n P) (fun i => (if Nat.eqb r i then snd (c i) else pzero)
                   +p psum (sp_conv P) (fun k => (S r *p w i k 0%nat +p w i k (r + 1)%nat) *p D i k))).
  { rewrite <- (psum_mul n q Hn), <- (psum_add n q Hn). apply (psum_ext n q Hn). intros i _.
    replace (Nat.eqb 0 (i + 1)) with false by (symmetry; apply Nat.eqb_neq; lia).
    replace (Nat.eqb (r + 1) (i + 1)) with (Nat.eqb r i) by (destruct (Nat.eqb_spec r i), (Nat.eqb_spec (r + 1) (i + 1)); lia).
    assert (F : psum (sp_conv P) (fun k => (S r *p w i k 0%nat +p w i k (r + 1)%nat) *p D i k)
                == S r *p psum (sp_conv P) (fun k => w i k 0%nat *p D i k) +p psum (sp_conv P) (fun k => w i k (r + 1)%nat *p D i k)).
    { rewrite <- (psum_mul n q Hn), <- (psum_add n q Hn). apply (psum_ext n q Hn). intros k _. ring. }
    rewrite F. ring. }
  eapply near_proper; [reflexivity|exact E|reflexivity|]. fold (c r).
  assert (T : phase s (c r) == psum (sp_n P) (fun i => (if Nat.eqb r i then snd (c i) else pzero) +p (if Nat.eqb r i then s else pzero) *p fst (c i))).
  { transitivity (psum (sp_n P) (fun i => if Nat.eqb r i then phase s (c i) else pzero)); [symmetry; apply psum_delta; exact Hr|].
    apply (psum_ext n q Hn). intros i _. unfold ph. destruct (Nat.eqb r i); ring. }
  rewrite T. apply (near_sum n q Hn). intros i Hi.
  rewrite <- (Z.add_0_l (switch_noise _ _ _ _)). apply (near_add n q Hn); [apply (near_of_eq n q Hn); reflexivity|].
  apply (digits_near (fun k => S r *p w i k 0%nat +p w i k (r + 1)%nat)); [exact Hc|].
  intros k Hk. unfold w, packing_keys. rewrite !nth_seq_map by exact Hi. replace (r + 1)%nat with (Datatypes.S r) by lia. cbv beta iota.
  eapply near_proper; [reflexivity| | |apply (near_err n q Hn Be _ (e i r k)), He]; [|reflexivity].
  destruct (Nat.eqb r i); ring.
Qed.
End Keys.

(** * The first dimension *)
Lemma first_dim_near : forall s Br Bp reg db idx0 sc i, (forall k, small n q Bp (db k)) -> (idx0 < 2 ^ sp_v1 P)%nat ->
  (forall j, (j < 2 ^ sp_v1 P)%nat -> nr Br (phase s (reg j)) (if Nat.eqb idx0 j then pconst sc else pzero)) ->
  nr (Z.of_nat (2 ^ sp_v1 P) * (Z.of_nat n * Bp * Br)) (phase s (first_dim P db reg i))
     (pconst sc *p db (idx0 * 2 ^ sp_v2 P + i)%nat).
Proof using HL Hq0 Hqm Hml.
  intros s Br Bp reg db idx0 sc i Hdb H0 H. unfold first_dim. rewrite (phase_lincomb P Hn Hq0 Hqm Hml).
  assert (T : pconst sc *p db (idx0 * 2 ^ sp_v2 P + i)%nat
              == psum (2 ^ sp_v1 P) (fun j => db (j * 2 ^ sp_v2 P + i)%nat *p (if Nat.eqb idx0 j then pconst sc else pzero))).
  { transitivity (psum (2 ^ sp_v1 P) (fun j => if Nat.eqb idx0 j then pconst sc *p db (j * 2 ^ sp_v2 P + i)%nat else pzero)).
    - symmetry. apply (psum_delta _ idx0 (fun j => pconst sc *p db (j * 2 ^ sp_v2 P + i)%nat)). exact H0.
    - apply (psum_ext n q Hn). intros j _. destruct (Nat.eqb idx0 j); ring. }
  rewrite T. apply (near_sum n q Hn). intros j Hj. apply (near_mul n q Hn); [apply Hdb|apply H, Hj].
Qed.

(** * The query polynomial *)
Section Query.
Variables (idx : nat) (inv_first inv_rest : Z) (sigma : poly).
Hypothesis Hsig : query_sigma P idx inv_first inv_rest = Ok sigma.
Hypothesis Hinv1 : eqm q (2 ^ Z.of_nat (sp_g P) * inv_first) 1.
Hypothesis Hinv2 : eqm q (2 ^ Z.of_nat (S (sp_stop P)) * inv_rest) 1.
Hypothesis Hgsw : (1 <= sp_gsw P)%nat.
Hypothesis Hhalf1 : (2 ^ sp_v1 P <= 2 ^ sp_g P / 2)%nat.

Lemma sel_reg : forall i, (i < 2 ^ sp_v1 P)%nat ->
  sel (sp_g P) (2 * i) sigma == if Nat.eqb (idx / 2 ^ sp_v2 P) i then pconst (q / sp_p P) else pzero.
Proof using All.
  intros i Hi z Hz. unfold query_sigma in Hsig. destruct (_ && _); [discriminate|]. apply ok_inj in Hsig. subst sigma.
  unfold sel. cbv beta zeta. destruct (z mod 2 ^ sp_g P =? 0)%nat eqn:E.
  - destruct (mod_pow_0 z _ E) as [m ->].
    assert (Hg : (1 <= sp_g P)%nat).
    { destruct (sp_g P); [|lia]. pose proof (Nat.pow_nonzero 2 (sp_v1 P) ltac:(lia)). cbn in Hhalf1. lia. }
    assert (Ep : (2 ^ sp_g P = 2 * 2 ^ (sp_g P - 1))%nat) by (rewrite <- Nat.pow_succ_r'; f_equal; lia).
    replace (2 * i + m * 2 ^ sp_g P)%nat with (2 * (i + m * 2 ^ (sp_g P - 1)))%nat by lia.
    rewrite even_2, div_2. rewrite Ep, div_2 in Hhalf1.
    destruct (Nat.eq_dec m 0) as [->|Nm].
    + replace (i + 0 * 2 ^ (sp_g P - 1))%nat with i by lia. rewrite Nat.mul_0_l.
      replace (i <? 2 ^ sp_v1 P)%nat with true by (symmetry; apply Nat.ltb_lt; exact Hi). rewrite andb_true_r.
      rewrite (Nat.eqb_sym i). destruct (Nat.eqb _ i); cbn [pconst];
      [apply (scaled q _ (q / sp_p P)); [exact Hq0|exact Hinv1]|].
      apply (scaled q _ 0); [exact Hq0|exact Hinv1].
    + replace (i + m * 2 ^ (sp_g P - 1) <? 2 ^ sp_v1 P)%nat with false by (symmetry; apply Nat.ltb_ge; nia).
      rewrite andb_false_r, Z.mul_0_l, Z.mod_0_l, Z.mul_0_r by lia.
      assert (m * 2 ^ sp_g P <> 0)%nat by nia. destruct (m * 2 ^ sp_g P)%nat; [lia|].
      destruct (Nat.eqb _ i); cbn [pconst]; apply eqm_refl.
  - assert (z <> 0%nat) by (intros ->; rewrite Nat.mod_0_l in E by (apply Nat.pow_nonzero; lia); discriminate).
    destruct z; [lia|]. destruct (Nat.eqb _ i); cbn [pconst]; apply eqm_refl.
Qed.

Lemma sel_gsw : forall l j, (l < sp_v2 P)%nat -> (j < sp_gsw P)%nat ->
  sel (S (sp_stop P)) (2 * (l * sp_gsw P + j) + 1) sigma
  == bitp (Nat.testbit (idx mod 2 ^ sp_v2 P) l) *p pconst (gad (bits_for P (sp_gsw P)) j).
Proof using All.
  intros l j Hl Hj.
  assert (R : bitp (Nat.testbit (idx mod 2 ^ sp_v2 P) l) *p pconst (gad (bits_for P (sp_gsw P)) j)
              == pconst (if Nat.testbit (idx mod 2 ^ sp_v2 P) l then gad (bits_for P (sp_gsw P)) j else 0)).
  { unfold bitp. rewrite <- (const_times n q Hn). apply peq_pt. intros z _. f_equal. destruct (Nat.testbit _ l); lia. }
  rewrite R. clear R. intros z Hz. unfold query_sigma in Hsig. destruct (_ && _) eqn:Eub; [discriminate|]. apply ok_inj in Hsig. subst sigma.
  assert (Hle : (sp_gsw P * sp_v2 P <= 2 ^ sp_stop P)%nat) by (apply log2_up_le).
  unfold sel. cbv beta zeta. destruct (z mod 2 ^ S (sp_stop P) =? 0)%nat eqn:E.
  - destruct (mod_pow_0 z _ E) as [m ->]. set (i := (l * sp_gsw P + j)%nat).
    assert (Hi : (i < sp_gsw P * sp_v2 P)%nat) by (unfold i; nia).
    replace (2 * i + 1 + m * 2 ^ S (sp_stop P))%nat with (2 * (i + m * 2 ^ sp_stop P) + 1)%nat by (rewrite Nat.pow_succ_r'; lia).
    rewrite even_2_1, div_2_1. destruct (Nat.eq_dec m 0) as [->|Nm].
    + rewrite !Nat.mul_0_l, Nat.add_0_r.
      replace (i <? sp_v2 P * sp_gsw P)%nat with true by (symmetry; apply Nat.ltb_lt; lia). cbn [pconst].
      assert (Ed : (i / sp_gsw P = l)%nat) by (unfold i; rewrite Nat.div_add_l by lia; rewrite Nat.div_small by exact Hj; lia).
      assert (Em : (i mod sp_gsw P = j)%nat) by (unfold i; rewrite Nat.add_comm, Nat.mod_add by lia; apply Nat.mod_small; exact Hj).
      rewrite Ed, Em. destruct (Nat.testbit (idx mod 2 ^ sp_v2 P) l) eqn:Et; [|apply (scaled q _ 0); [exact Hq0|exact Hinv2]].
      assert (Eg : gad (bits_for P (sp_gsw P)) j = 2 ^ Z.of_nat (bits_for P (sp_gsw P) * j)).
      { unfold gad. destruct (Nat.leb_spec 64 (bits_for P (sp_gsw P) * j)) as [Le|]; [exfalso|reflexivity].
        apply andb_false_iff in Eub. destruct Eub as [Ex|Ex].
        - enough (existsb (fun l => Nat.testbit (idx mod 2 ^ sp_v2 P) l) (seq 0 (sp_v2 P)) = true) by congruence.
          apply existsb_exists. exists l. split; [apply in_seq; lia|exact Et].
        - enough (existsb (fun k => (64 <=? bits_for P (sp_gsw P) * k)%nat) (seq 0 (sp_gsw P)) = true) by congruence.
          apply existsb_exists. exists j. split; [apply in_seq; lia|apply Nat.leb_le; exact Le]. }
      rewrite Eg. apply scaled; [exact Hq0|exact Hinv2].
    + replace (i + m * 2 ^ sp_stop P <? sp_v2 P * sp_gsw P)%nat with false by (symmetry; apply Nat.ltb_ge; nia).
      rewrite Z.mul_0_l, Z.mod_0_l, Z.mul_0_r by lia. pose proof (Nat.pow_nonzero 2 (S (sp_stop P)) ltac:(lia)).
      assert (m * 2 ^ S (sp_stop P) <> 0)%nat by nia. destruct (m * 2 ^ S (sp_stop P))%nat; [lia|]. cbn [pconst]. apply eqm_refl.
  - assert (z <> 0%nat) by (intros ->; rewrite Nat.mod_0_l in E by (apply Nat.pow_nonzero; lia); discriminate).
    destruct z; [lia|]. cbn [pconst]. apply eqm_refl.
Qed.
End Query.
End W.
