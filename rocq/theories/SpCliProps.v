(** C67: the keys and the query the Spiral client sends, word by word and over the wire. *)
From Coq Require Import List Arith NArith ZArith Bool Lia Permutation.
From Verif Require Import Base PirPackModel SpArithModel SpLoopModel SpGadgetModel SpGadgetSpec SpDecodeModel SpDecodeSpec SpDecodeProofs2 SpRingModel SpRingSpec SpRingProofs SpSelModel
  NttModel NttSpec SpRingProofs2 NttProofs NttProofs6 NttProps SpSrvModel SpSrvSpec SpSrvProofs1 SpSrvProofs2 SpSrvProofs7 SpSrvProps SpSelProofs5
  SpCliModel SpCliSpec SpCliProofs1 SpCliProofs2 SpCliProofs3 SpCliProofs4 SpCliProofs5 SpWireModel SpWireProofs.
Import ListNotations.
Local Open Scope N_scope.

(** The parameters of C66, a table for the sampler, matrices of fewer than 2^64 words, and half of 2^g at least
    v2 * t_gsw with gadget entries below 2^64, as Params::ValidCheck and the default parameters have it. *)
Definition client_setup (min_root invert : N -> N -> option N) (inv : N -> N -> N) (L : nat) (moduli : list N) (psi : nat -> Z)
           (NP : ntt_params) (P : sel_params) (dg : gaussian) : Prop :=
  server_setup min_root invert inv L moduli psi NP P /\ gaussian_ok dg P /\ shapes_fit L P
  /\ (sp_gsw P * sp_v2 P <= 2 ^ sp_g P / 2)%nat
  /\ forall k, (k < sp_gsw P)%nat -> (bits_for P (sp_gsw P) * k < 64)%nat.

Lemma key_rawm : forall L P rows m S, key_words L P rows m S <-> rawm L rows 1 m (fun r _ z => (S r z mod sp_q P)%Z).
Proof.
  intros L P rows m S. unfold key_words, rawm, sized. rewrite Nat.mul_1_r. split.
  - intros (A & B & C & D). split; [auto|]. intros r c z Hr Hc Hz. rewrite poly_at_nth by exact Hz. rewrite B, Nat.mul_1_r.
    assert (c = 0%nat) by lia. subst c. rewrite Nat.add_0_r. apply D; assumption.
  - intros ((A & B & C) & D). split; [exact A|]. split; [exact B|]. split; [exact C|]. intros r z Hr Hz.
    specialize (D r 0%nat z Hr ltac:(lia) Hz). rewrite poly_at_nth, B, Nat.mul_1_r, Nat.add_0_r in D by exact Hz. exact D.
Qed.

(** Init: whatever std::shuffle does, every polynomial of a secret key has hamming coefficients 1,
    hamming coefficients -1 and zeros, modulo q. *)
Theorem C67_secret_key : forall min_root invert inv L moduli psi NP P dg shuffle rows h,
  client_setup min_root invert inv L moduli psi NP P dg -> (forall i l, Permutation (shuffle i l) l) -> (2 * h <= 2 ^ L)%nat ->
  exists m S, gen_ternary NP P shuffle rows h = Ok m /\ key_words L P rows m S
    /\ (forall r z, (-1 <= S r z <= 1)%Z) /\ forall r, (r < rows)%nat -> ternary L (2 * h) (S r).
Proof.
  intros min_root invert inv L moduli psi NP P dg shuffle rows h (HS & _) Hsh Hh. destruct (setup_srv _ _ _ _ _ _ _ _ HS) as [HW _].
  destruct (gen_ternary_r L psi NP P inv HW shuffle rows h Hsh Hh) as (m & S & E & A & B & C). exists m, S. split; [exact E|]. split; [apply key_rawm, A|].
  split; [exact B|]. intros r Hr. split; [apply B|apply C, Hr].
Qed.
Print Assumptions C67_secret_key.

(** The public keys the server reads from the client's message are encryptions of the right polynomials: masks are the
    words of the public generator in order, every noise coefficient is a value of the sampler. *)
Theorem C67_public_keys : forall min_root invert inv L moduli psi NP P dg avx sk_gsw sk_reg s Sk rng pub,
  client_setup min_root invert inv L moduli psi NP P dg -> key_words L P 1 sk_reg (fun _ => s) -> key_words L P (sp_n P) sk_gsw Sk ->
  words64 rng -> words64 pub ->
  let p1 := (sp_n P * sp_conv P)%nat in let p2 := (p1 + sp_g P * sp_left P)%nat in let p3 := (p2 + (sp_stop P + 1) * sp_right P)%nat in
  exists kp pks el er ec ep, pks_message avx NP inv P dg sk_gsw sk_reg (rng, pub) = Ok kp /\ keys_from_proto avx NP kp = Ok pks
    /\ (forall i k, bounded dg (el i k)) /\ (forall i k, bounded dg (er i k)) /\ (forall k, bounded dg (ec k)) /\ (forall i r k, bounded dg (ep i r k))
    /\ keys_stand L moduli psi P pks
         (expansion_keys P s (sp_g P) (sp_left P) (fun i k => mask L P pub (p1 + i * sp_left P + k)) el)
         (expansion_keys P s (sp_stop P + 1) (sp_right P) (fun i k => mask L P pub (p2 + i * sp_right P + k)) er)
         (conversion_key P s (fun k => mask L P pub (p3 + k)) ec)
         (packing_keys P s Sk (fun i k => mask L P pub (i * sp_conv P + k)) ep).
Proof.
  intros min_root invert inv L moduli psi NP P dg avx sk_gsw sk_reg s Sk rng pub (HS & (D1 & D2) & HF & _) H1 H2 W1 W2 p1 p2 p3.
  destruct (setup_srv _ _ _ _ _ _ _ _ HS) as [HW Em].
  destruct HS as (_ & _ & _ & _ & _ & S6 & S7 & S8 & S9 & S10 & S11 & S12 & S13 & S14 & S15 & S16).
  destruct (gen_public_keys_r avx L psi NP P inv dg HW S7 D1 D2 sk_gsw sk_reg s Sk (proj1 (key_rawm _ _ _ _ _) H1) S9 (proj1 (key_rawm _ _ _ _ _) H2)
              rng pub S10 (proj1 S14) (proj1 S15) W1 W2) as (pks & el & er & ec & ep & E & A1 & A2 & A3 & A4 & A5 & A6).
  destruct (keys_trip avx L psi NP P inv HW S7 pks _ _ _ _ HF A6 A5) as (kp & E1 & pks' & E2 & K & _).
  exists kp, pks', el, er, ec, ep. unfold pks_message. rewrite E. cbn [bind]. split; [exact E1|]. split; [exact E2|]. rewrite <- Em. auto 6.
Qed.
Print Assumptions C67_public_keys.

(** The query the server rebuilds from a seed and one row is an encryption of the query polynomial for the wanted
    plaintext; its first row is that of the client up to q in place of 0. *)
Theorem C67_query : forall min_root invert inv L moduli psi NP P dg avx sk_reg s rng rng_of seed k,
  client_setup min_root invert inv L moduli psi NP P dg -> key_words L P 1 sk_reg (fun _ => s) -> words64 rng -> words64 (rng_of seed) ->
  (k < 2 ^ (sp_v1 P + sp_v2 P))%nat ->
  exists ct msg ct' e sigma, gen_query avx NP inv P dg sk_reg k (rng, rng_of seed) = Ok ct
    /\ pt_query avx NP inv P rng_of dg sk_reg k rng seed = Ok msg /\ query_from_proto NP P rng_of msg = Ok ct' /\ bounded dg e
    /\ query_sigma P k (Z.of_N (inv (2 ^ N.of_nat (sp_g P)) (w_modulus P))) (Z.of_N (inv (2 ^ N.of_nat (sp_stop P + 1)) (w_modulus P))) = Ok sigma
    /\ stands_raw L (sp_q P) 2 1 ct (fun r _ => ct_row (regev P s (mask L P (rng_of seed) 0) e sigma) r)
    /\ stands_raw L (sp_q P) 2 1 ct' (fun r _ => ct_row (regev P s (mask L P (rng_of seed) 0) e sigma) r)
    /\ Forall (fun v => v < w_modulus P) (rm_data ct)
    /\ (forall z, (z < 2 ^ L)%nat -> nth z (rm_data ct') 0 = w_modulus P - rng_of seed z mod w_modulus P)
    /\ (forall z, (2 ^ L <= z)%nat -> nth z (rm_data ct') 0 = nth z (rm_data ct) 0).
Proof.
  intros min_root invert inv L moduli psi NP P dg avx sk_reg s rng rng_of seed k (HS & (D1 & D2) & HF & V1 & V2) H1 W1 W2 Hk.
  destruct (setup_srv _ _ _ _ _ _ _ _ HS) as [HW Em].
  destruct HS as (_ & _ & _ & _ & _ & S6 & S7 & S8 & S9 & S10 & S11 & S12 & S13 & S14 & S15 & S16).
  destruct (gen_query_r avx L psi NP P inv dg HW S7 D1 D2 k S12 S11 S16 V1 S8 V2 sk_reg s (proj1 (key_rawm _ _ _ _ _) H1) rng (rng_of seed) Hk W1 W2)
    as (m & e & sigma & E & B & Sg & R).
  destruct (query_trip avx L psi NP P inv HW S7 m (regev P s (mask L P (rng_of seed) 0) e sigma) (rng_of seed) seed rng_of HF W2 ltac:(reflexivity)
              ltac:(reflexivity) R) as (msg & E1 & ct' & E2 & St & F1 & F2).
  exists m, msg, ct', e, sigma. split; [exact E|]. unfold pt_query. rewrite E. cbn [bind]. split; [exact E1|]. split; [exact E2|]. split; [exact B|]. split; [exact Sg|].
  pose proof (q_bounds _ _ _ _ _ HW) as QB. destruct R as [(R1 & R2 & R3) R4].
  assert (Hv : forall r z, (r < 2)%nat -> (z < 2 ^ L)%nat -> Z.of_N (nth (r * 2 ^ L + z) (rm_data m) 0) = (ct_row (regev P s (mask L P (rng_of seed) 0) e sigma) r z mod sp_q P)%Z).
  { intros r z Hr Hz. specialize (R4 r 0%nat z Hr ltac:(lia) Hz). rewrite poly_at_nth, R2, Nat.mul_1_r, Nat.add_0_r in R4 by exact Hz. exact R4. }
  assert (Hb : Forall (fun v => v < w_modulus P) (rm_data m)).
  { apply Forall_forall. intros x Hx. apply (In_nth _ _ 0) in Hx as (i & Hi & <-). rewrite R3 in Hi.
    pose proof (n_pos' L) as Hn0.
    assert (Hr : (i / 2 ^ L < 2)%nat) by (apply Nat.div_lt_upper_bound; lia).
    pose proof (Hv (i / 2 ^ L)%nat (i mod 2 ^ L)%nat Hr ltac:(apply Nat.mod_upper_bound; lia)) as V.
    replace (i / 2 ^ L * 2 ^ L + i mod 2 ^ L)%nat with i in V by (pose proof (Nat.div_mod i (2 ^ L) ltac:(lia)); lia).
    match type of V with _ = (?x mod _)%Z => pose proof (Z.mod_pos_bound x (sp_q P) ltac:(lia)) end. unfold w_modulus. lia. }
  split; [|split; [exact St|split; [exact Hb|split; [exact F1|exact F2]]]].
  split; [exact R1|]. split; [exact R2|]. split; [exact R3|]. split.
  - eapply Forall_impl; [|exact Hb]. intros x Hx. unfold w_modulus in Hx. cbv beta in *. lia.
  - intros r c z Hr Hc Hz. assert (c = 0%nat) by lia. subst c. rewrite Nat.mul_1_r, Nat.add_0_r. rewrite Hv by assumption. apply eqm_mod. lia.
Qed.
Print Assumptions C67_query.

(** * An instance *)
Definition c67_gauss : gaussian := Gaussian [2 ^ 61; 2 ^ 63; 2 ^ 64 - 1] 1.
Definition c67_rng (e seed : N) : prg := fun i => (seed + N.of_nat i) ^ e mod 2 ^ 64.
Definition c67_sk (n : nat) : raw_mat := RawMat n 1 (repeat 0 (n * 8)).

Lemma c67_setup : exists NP, client_setup c65_root inverse_mod c65_inv 3 c66_moduli c65_psi NP c66_params c67_gauss.
Proof.
  destruct C66_reload_refuted as (NP & _ & _ & _ & _ & _ & _ & HS & _). exists NP. split; [exact HS|]. split; [split; [reflexivity|vm_compute; reflexivity]|].
  split; [|split; [vm_compute; repeat constructor|]].
  - intros d Hd. cbn in Hd. repeat (destruct Hd as [<-|Hd]; [vm_compute; reflexivity|]). destruct Hd.
  - intros k Hk. change (sp_gsw c66_params) with 2%nat in *. change (bits_for c66_params 2) with 29%nat. lia.
Qed.

Example C67_example : forall avx, exists NP sk_gsw sk_reg kp pks msg ct,
  client_setup c65_root inverse_mod c65_inv 3 c66_moduli c65_psi NP c66_params c67_gauss
  /\ gen_ternary NP c66_params (fun _ l => rev l) 1 2 = Ok sk_gsw /\ gen_ternary NP c66_params (fun _ l => l) 1 2 = Ok sk_reg
  /\ pks_message avx NP c65_inv c66_params c67_gauss sk_gsw sk_reg (c67_rng 5 1, c67_rng 7 2) = Ok kp
  /\ keys_from_proto avx NP kp = Ok pks
  /\ pt_query avx NP c65_inv c66_params (c67_rng 9) c67_gauss sk_reg 3 (c67_rng 5 3) 17 = Ok msg
  /\ query_from_proto NP c66_params (c67_rng 9) msg = Ok ct
  /\ nth 1 (rm_data ct) 0 = 66974689739603969 - 198359290368.
Proof.
  intros avx. destruct c67_setup as (NP & HS). exists NP.
  assert (W : forall a b, words64 (c67_rng a b)) by (intros a b i; apply N.mod_lt; discriminate).
  destruct (C67_secret_key _ _ _ _ _ _ _ _ _ (fun _ l => rev l) 1 2 HS) as (g & Sg & G1 & G2 & _ & _); [intros _ l; symmetry; apply Permutation_rev|cbn; lia|].
  destruct (C67_secret_key _ _ _ _ _ _ _ _ _ (fun _ l => l) 1 2 HS) as (k & Sk & K1 & K2 & _ & _); [intros _ l; apply Permutation_refl|cbn; lia|].
  assert (K3 : key_words 3 c66_params 1 k (fun _ => Sk 0%nat)).
  { destruct K2 as (A & B & C & D). split; [exact A|]. split; [exact B|]. split; [exact C|]. intros r z Hr Hz. rewrite D by assumption. replace r with 0%nat by lia. reflexivity. }
  destruct (C67_public_keys _ _ _ _ _ _ _ _ _ avx g k (Sk 0%nat) Sg (c67_rng 5 1) (c67_rng 7 2) HS K3 G2 (W _ _) (W _ _)) as (kp & pks & _ & _ & _ & _ & P1 & P2 & _).
  destruct (C67_query _ _ _ _ _ _ _ _ _ avx k (Sk 0%nat) (c67_rng 5 3) (c67_rng 9) 17 3%nat HS K3 (W _ _) (W _ _) ltac:(cbn; lia))
    as (_ & msg & ct & _ & _ & _ & Q1 & Q2 & _ & _ & _ & _ & _ & Q3 & _).
  exists g, k, kp, pks, msg, ct. repeat (split; [assumption|]). rewrite Q3 by (cbn; lia). vm_compute. reflexivity.
Qed.

(** The rebuilt matrix need not be the client's: q takes the place of 0 where a public word is a multiple of q. *)
Theorem C67_rebuilt_refuted : exists NP sk_reg rng rng_of seed k ct msg ct',
  client_setup c65_root inverse_mod c65_inv 3 c66_moduli c65_psi NP c66_params c67_gauss
  /\ words64 rng /\ words64 (rng_of seed) /\ (k < 4)%nat
  /\ gen_query true NP c65_inv c66_params c67_gauss sk_reg k (rng, rng_of seed) = Ok ct
  /\ pt_query true NP c65_inv c66_params rng_of c67_gauss sk_reg k rng seed = Ok msg
  /\ query_from_proto NP c66_params rng_of msg = Ok ct' /\ ct' <> ct
  /\ nth 0 (rm_data ct') 0 = w_modulus c66_params.
Proof.
  destruct c67_setup as (NP & HS).
  destruct (C67_query _ _ _ _ _ _ _ _ _ true (c67_sk 1) (fun _ => 0%Z) (fun _ => 0) (fun _ _ => 0) 0 3%nat HS) as (ct & msg & ct' & e & sigma & A & B & C & _ & _ & _ & _ & Hb & F & _).
  - split; [reflexivity|]. split; [reflexivity|]. split; [reflexivity|]. intros r z Hr Hz. unfold c67_sk. cbn [rm_data]. rewrite nth_repeat. reflexivity.
  - intros i. reflexivity.
  - intros i. reflexivity.
  - cbn. lia.
  - exists NP, (c67_sk 1), (fun _ => 0), (fun _ _ => 0), 0, 3%nat, ct, msg, ct'. split; [exact HS|]. split; [intros i; reflexivity|]. split; [intros i; reflexivity|]. split; [lia|].
    split; [exact A|]. split; [exact B|]. split; [exact C|]. pose proof (F 0%nat ltac:(cbn; lia)) as F0. cbv beta in F0. rewrite N.mod_0_l, N.sub_0_r in F0 by (vm_compute; discriminate).
    split; [|exact F0]. intros ->. destruct (rm_data ct) as [|x d]; [vm_compute in F0; discriminate|]. cbn [nth] in F0. subst x. inversion Hb as [|? ? Hx]. exact (N.lt_irrefl _ Hx).
Qed.
Print Assumptions C67_rebuilt_refuted.

(** FromProto multiplies the dimensions modulo 2^64: a message with no data at all passes for a matrix of 2^64 polynomials. *)
Theorem C67_shape_check_refuted : forall NP, exists p m, from_proto NP p = Ok m
  /\ pr_rows p < 2 ^ 64 /\ pr_cols p < 2 ^ 64 /\ pr_rows p * pr_cols p = 2 ^ 64 /\ pr_data p = [].
Proof.
  intros NP. exists (MatProto (2 ^ 63) 2 []), (RawMat (N.to_nat (2 ^ 63)) (N.to_nat 2) []). split.
  - unfold from_proto, size_matches. cbn [pr_rows pr_cols pr_data length]. change (u64 (2 ^ 63 * 2)) with 0. rewrite N.mul_0_l. reflexivity.
  - cbn [pr_rows pr_cols pr_data]. repeat split.
Qed.
Print Assumptions C67_shape_check_refuted.
