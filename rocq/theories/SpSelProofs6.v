(** The response decrypts to the selected plaintext. *)
From Coq Require Import List Arith NArith ZArith Lia Setoid Morphisms Ring Bool.
From Verif Require Import Base SpGadgetModel SpDecodeSpec SpDecodeProofs2 SpRingModel SpRingSpec SpRingProofs SpRingProofs2
  SpSelModel SpSelSpec SpSelProofs SpSelProofs2 SpSelProofs3 SpSelProofs4 SpSelProofs5.
Import ListNotations.
Local Open Scope Z_scope.

Lemma half_enough : forall a v1, (1 <= a)%nat -> (2 ^ v1 <= 2 ^ Nat.log2_up (a + 2 ^ v1) / 2)%nat.
Proof.
  intros a v1 Ha. pose proof (log2_up_le (a + 2 ^ v1)) as H. set (g := Nat.log2_up (a + 2 ^ v1)) in *.
  assert (v1 < g)%nat by (apply (Nat.pow_lt_mono_r_iff 2); lia).
  replace g with (S (g - 1)) by lia. rewrite Nat.pow_succ_r', div_2. apply Nat.pow_le_mono_r; lia.
Qed.

Lemma stop_before : forall a g, (1 <= a)%nat -> (a <= 2 ^ g / 2)%nat -> (Nat.log2_up a < g)%nat.
Proof.
  intros a g Ha H. destruct g as [|g]; [cbn in H; lia|]. rewrite Nat.pow_succ_r', div_2 in H.
  apply Nat.log2_up_le_mono in H. rewrite Nat.log2_up_pow2 in H; lia.
Qed.

Section Z.
Variable P : sel_params.
Local Notation n := (sp_len P).
Local Notation q := (sp_q P).
Variable L : nat.
Hypothesis HL : sp_len P = (2 ^ L)%nat.
Hypothesis Hq0 : 0 < q.
Hypothesis Hqm : q < 2 ^ Z.of_nat (sp_ml P).
Hypothesis Hml : (sp_ml P <= 64)%nat.
Hypothesis Hdc : (1 <= sp_conv P)%nat.
Hypothesis Hdl : (1 <= sp_left P)%nat.
Hypothesis Hdr : (1 <= sp_right P)%nat.
Hypothesis Hdg : (1 <= sp_gsw P)%nat.
Hypothesis Hbig : (2 <= sp_gsw P * sp_v2 P)%nat.
Hypothesis HgL : (sp_g P <= L)%nat.
Hypothesis Hhalf : (sp_gsw P * sp_v2 P <= 2 ^ sp_g P / 2)%nat.
Local Notation Hn := (n_pos P L HL).
Local Notation "a == b" := (peq n q a b) (at level 70).
Local Infix "*p" := (pmul n) (at level 40).
Local Infix "+p" := padd (at level 50).
Local Notation phase := (ph n).
Local Notation nr := (near n q).

Lemma response_near : forall s S Bs Be Bp al el ar er ac ec ap ep db idx inv_first inv_rest sigma aq eq,
  small n q Bs s -> 1 <= Bs ->
  (forall i k, small n q Be (el i k)) -> (forall i k, small n q Be (er i k)) ->
  (forall k, small n q Be (ec k)) -> (forall i r k, small n q Be (ep i r k)) -> small n q Be eq ->
  (forall t i, small n q Bp (db t i)) ->
  (idx < 2 ^ (sp_v1 P + sp_v2 P))%nat ->
  eqm q (2 ^ Z.of_nat (sp_g P) * inv_first) 1 -> eqm q (2 ^ Z.of_nat (Datatypes.S (sp_stop P)) * inv_rest) 1 ->
  query_sigma P idx inv_first inv_rest = Ok sigma ->
  exists out,
    process_query P (expansion_keys P s (sp_g P) (sp_left P) al el)
      (expansion_keys P s (sp_stop P + 1) (sp_right P) ar er) (conversion_key P s ac ec)
      (packing_keys P s S ap ep) db (regev P s aq eq sigma) = Ok out
    /\ forall r c, (r < sp_n P)%nat -> (c < sp_n P)%nat ->
       nr (response_noise n Bp Bs Be (sp_g P) (sp_stop P) (2 ^ sp_v1 P) (sp_v2 P) (sp_n P)
             (sp_left P, bits_for P (sp_left P)) (sp_right P, bits_for P (sp_right P))
             (sp_conv P, bits_for P (sp_conv P)) (sp_gsw P, bits_for P (sp_gsw P)))
          (S r *p out 0%nat c +p out (r + 1)%nat c) (pconst (q / sp_p P) *p db (r * sp_n P + c)%nat idx).
Proof using All.
  intros s S Bs Be Bp al el ar er ac ec ap ep db idx inv_first inv_rest sigma aq eq
    Hs HBs Hel Her Hec Hep Heq Hdb Hidx Hi1 Hi2 Hsig.
  assert (Hh1 : (2 ^ sp_v1 P <= 2 ^ sp_g P / 2)%nat) by (apply half_enough; lia).
  assert (Hstop : (0 < sp_stop P)%nat) by (unfold sp_stop; apply Nat.log2_up_pos; lia).
  assert (Hsg : (sp_stop P < sp_g P)%nat) by (apply stop_before; lia).
  unfold process_query, expand_query.
  destruct (Nat.ltb_spec (2 ^ sp_g P / 2) (2 ^ sp_v1 P)) as [|_]; [lia|].
  destruct (Nat.ltb_spec (2 ^ sp_g P / 2) (sp_gsw P * sp_v2 P)) as [|_]; [lia|]. cbn [orb bind fst snd].
  eexists. split; [reflexivity|]. intros r c Hr Hc.
  set (v_ct := fun trial : nat => _) in *.
  pose proof (pack_near P L HL Hq0 Hqm Hml s Be S ap ep v_ct Hdc Hep r c Hr Hc) as GP. cbv zeta in GP.
  unfold response_noise. cbv zeta. cbn [fst snd].
  set (KK := Z.max (switch_noise n (sp_left P) (bits_for P (sp_left P)) Be) (switch_noise n (sp_right P) (bits_for P (sp_right P)) Be)).
  match goal with |- nr (?A + ?B + ?C) _ _ => replace (A + B + C) with (C + (A + B)) by lia end.
  refine (near_trans n q Hn _ _ _ _ _ GP _). clear GP.
  unfold v_ct. clear v_ct. cbv beta. set (tr := (r * sp_n P + c)%nat). clearbody tr.
  destruct (expand_all P L HL Hq0 Hqm Hml s sigma Be KK (expansion_keys P s (sp_g P) (sp_left P) al el)
      (expansion_keys P s (sp_stop P + 1) (sp_right P) ar er) (regev P s aq eq sigma) (sp_g P) (sp_stop P) (sp_gsw P * sp_v2 P)%nat)
    as [GE GO]; try assumption; try (unfold KK; lia).
  - apply (regev_near P L HL Hq0 Hqm Hml). exact Heq.
  - intros i Hi. apply (expansion_ok P L HL Hq0 Hqm Hml); assumption.
  - intros i Hi. apply (expansion_ok P L HL Hq0 Hqm Hml); [assumption|lia].
  - unfold sp_stop. apply log2_up_le.
  - set (V := coefficient_expansion P (sp_g P) (sp_stop P) (sp_gsw P * sp_v2 P) (expansion_keys P s (sp_g P) (sp_left P) al el)
      (expansion_keys P s (sp_stop P + 1) (sp_right P) ar er) (fun x => if Nat.eqb x 0 then regev P s aq eq sigma else ct_zero)) in *.
    assert (Hp2 : (2 ^ sp_v2 P <> 0)%nat) by (apply Nat.pow_nonzero; lia).
    assert (Hidx0 : (idx / 2 ^ sp_v2 P < 2 ^ sp_v1 P)%nat).
    { apply Nat.div_lt_upper_bound; [exact Hp2|]. rewrite <- Nat.pow_add_r, Nat.add_comm. exact Hidx. }
    assert (Hf : (idx mod 2 ^ sp_v2 P < 2 ^ sp_v2 P)%nat) by (apply Nat.mod_upper_bound; exact Hp2).
    assert (Hreg : forall i j, (j < 2 ^ sp_v2 P)%nat -> i = j -> nr (Z.of_nat (2 ^ sp_v1 P) * (Z.of_nat n * Bp * expand_noise Be KK (sp_g P)))
              (phase s (first_dim P (db tr) (fun i => V (2 * i)%nat) i))
              (pconst (q / sp_p P) *p db tr (idx / 2 ^ sp_v2 P * 2 ^ sp_v2 P + i)%nat)).
    { intros i _ _ _. apply (first_dim_near P L HL Hq0 Hqm Hml); [apply Hdb|exact Hidx0|].
      intros j Hj. rewrite <- (sel_reg P L HL Hq0 Hqm Hml idx inv_first inv_rest sigma) by assumption.
      apply GE. assert (2 ^ sp_v1 P * 2 <= 2 ^ sp_g P)%nat by (pose proof (Nat.div_mod (2 ^ sp_g P) 2 ltac:(lia)); lia). lia. }
    assert (Hfold : forall j, (j < sp_v2 P)%nat -> forall x, (x < 2 * sp_gsw P)%nat ->
      nr (Z.of_nat n * Bs * expand_noise Be KK (Datatypes.S (sp_stop P)) + switch_noise n (2 * sp_conv P) (bits_for P (sp_conv P)) Be)
         (phase s (regev_to_gsw P (conversion_key P s ac ec) (fun k => V (2 * (j * sp_gsw P + k) + 1)%nat) x))
         (bitp (Nat.testbit (idx mod 2 ^ sp_v2 P) j) *p phase s (gadget2 (bits_for P (sp_gsw P)) x))).
    { intros j Hj. apply (gsw_ok P L HL Hq0 Hqm Hml); try assumption. intros k Hk.
      rewrite <- (sel_gsw P L HL Hq0 Hqm Hml idx inv_first inv_rest sigma) by assumption.
      apply GO. nia. }
    pose proof (fold_near P Hn Hq0 Hqm Hml s _ (fun l => regev_to_gsw P (conversion_key P s ac ec) (fun j => V (2 * (l * sp_gsw P + j) + 1)%nat))
      (idx mod 2 ^ sp_v2 P)%nat Hdg (sp_v2 P) Hfold (first_dim P (db tr) (fun i => V (2 * i)%nat))
      (fun i => pconst (q / sp_p P) *p db tr (idx / 2 ^ sp_v2 P * 2 ^ sp_v2 P + i)%nat) _ (fun i Hi => Hreg i i Hi eq_refl)) as GF.
    cbv beta in GF. rewrite (Nat.mod_small (idx mod 2 ^ sp_v2 P)) in GF by exact Hf.
    replace (idx / 2 ^ sp_v2 P * 2 ^ sp_v2 P + idx mod 2 ^ sp_v2 P)%nat with idx in GF
      by (rewrite Nat.mul_comm; apply Nat.div_mod; exact Hp2).
    exact GF.
Qed.
End Z.
