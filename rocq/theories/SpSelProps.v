(** C59: the response of the Spiral server decodes to the plaintext the query names. *)
From Coq Require Import List Arith NArith ZArith Bool Lia.
From Verif Require Import Base SpArithModel SpGadgetModel SpGadgetSpec SpDecodeModel SpDecodeSpec SpDecodeProps
  SpRingModel SpRingSpec SpSelModel SpSelSpec SpSelProofs5 SpSelProofs6 SpSelProofs7.
Import ListNotations.
Local Open Scope Z_scope.

(** Parameters with two dimensions that pass Params::ValidCheck (params.h 166-189): a power of two
    length, a modulus of at most 64 bits that is no power of two, g at most log2 of the length and half of 2^g at least
    v2 * t_gsw (half of 2^g at least 2^v1 follows). *)
Definition sel_valid (P : sel_params) (L : nat) : Prop :=
  sp_len P = (2 ^ L)%nat /\ 0 < sp_q P /\ sp_q P < 2 ^ Z.of_nat (sp_ml P) /\ (sp_ml P <= 64)%nat
  /\ (1 <= sp_conv P)%nat /\ (1 <= sp_left P)%nat /\ (1 <= sp_right P)%nat /\ (1 <= sp_gsw P)%nat
  /\ (2 <= sp_gsw P * sp_v2 P)%nat
  /\ (Nat.log2_up (sp_gsw P * sp_v2 P + 2 ^ sp_v1 P) <= L)%nat
  /\ (sp_gsw P * sp_v2 P <= 2 ^ Nat.log2_up (sp_gsw P * sp_v2 P + 2 ^ sp_v1 P) / 2)%nat.

(** All noise polynomials of the client's keys are at most [Be]. *)
Definition noise_at_most (P : sel_params) (Be : Z) (el er : nat -> nat -> poly) (ec : nat -> poly)
           (ep : nat -> nat -> nat -> poly) (eq : poly) : Prop :=
  let sm := small (sp_len P) (sp_q P) Be in
  (forall i k, sm (el i k)) /\ (forall i k, sm (er i k)) /\ (forall k, sm (ec k))
  /\ (forall i r k, sm (ep i r k)) /\ sm eq.

Definition total_noise (P : sel_params) (Bp Bs Be : Z) : Z :=
  response_noise (sp_len P) Bp Bs Be (Nat.log2_up (sp_gsw P * sp_v2 P + 2 ^ sp_v1 P))
    (Nat.log2_up (sp_gsw P * sp_v2 P)) (2 ^ sp_v1 P) (sp_v2 P) (sp_n P)
    (sp_left P, bits_for P (sp_left P)) (sp_right P, bits_for P (sp_right P))
    (sp_conv P, bits_for P (sp_conv P)) (sp_gsw P, bits_for P (sp_gsw P)).

(** Entry (r, c) of the packed response decrypts, under the packing key, to floor(q / p) times
    polynomial r * n + c of plaintext [idx], up to [total_noise]. *)
Theorem C59_response_selects : forall P L s S Bs Be Bp al el ar er ac ec ap ep aq eq db idx inv_first inv_rest sigma,
  sel_valid P L -> small (sp_len P) (sp_q P) Bs s -> 1 <= Bs -> noise_at_most P Be el er ec ep eq ->
  (forall t i, small (sp_len P) (sp_q P) Bp (db t i)) ->
  (idx < 2 ^ (sp_v1 P + sp_v2 P))%nat ->
  eqm (sp_q P) (2 ^ Z.of_nat (sp_g P) * inv_first) 1 ->
  eqm (sp_q P) (2 ^ Z.of_nat (Datatypes.S (sp_stop P)) * inv_rest) 1 ->
  query_sigma P idx inv_first inv_rest = Ok sigma ->
  exists out,
    process_query P (expansion_keys P s (sp_g P) (sp_left P) al el)
      (expansion_keys P s (sp_stop P + 1) (sp_right P) ar er) (conversion_key P s ac ec)
      (packing_keys P s S ap ep) db (regev P s aq eq sigma) = Ok out
    /\ forall r c, (r < sp_n P)%nat -> (c < sp_n P)%nat ->
       near (sp_len P) (sp_q P) (total_noise P Bp Bs Be)
         (decrypt (sp_len P) (S r) (out 0%nat c) (out (r + 1)%nat c))
         (pmul (sp_len P) (pconst (sp_q P / sp_p P)) (db (r * sp_n P + c)%nat idx)).
Proof.
  intros P L s S Bs Be Bp al el ar er ac ec ap ep aq eq db idx inv_first inv_rest sigma
    (V1 & V2 & V3 & V4 & V5 & V6 & V7 & V8 & V9 & V10 & V11) Hs HBs (N1 & N2 & N3 & N4 & N5) Hdb Hidx Hi1 Hi2 Hsig.
  exact (response_near P L V1 V2 V3 V4 V5 V6 V7 V8 V9 V10 V11 s S Bs Be Bp al el ar er ac ec ap ep db idx inv_first inv_rest
           sigma aq eq Hs HBs N1 N2 N3 N4 N5 Hdb Hidx Hi1 Hi2 Hsig).
Qed.

(** End to end: query, server, modulus switch, decoding (C58). *)
Theorem C59_retrieves : forall P L q p q2 mul_q2 s S h sk Bs Be al el ar er ac ec ap ep aq eq pt idx inv_first inv_rest,
  sel_valid P L -> sp_q P = Z.of_N q -> sp_p P = Z.of_N p -> (1 <= sp_n P)%nat ->
  (1 <= p)%N -> (p <= q)%N -> (2 <= q2)%N -> (q2 <= q)%N -> (q <= 2 ^ 60)%N -> (8 * p * q2 < 2 ^ 62)%N ->
  is_product (sp_len P) (sp_n P) q2 mul_q2 ->
  small (sp_len P) (sp_q P) Bs s -> 1 <= Bs -> noise_at_most P Be el er ec ep eq ->
  length (rm_data sk) = (sp_n P * sp_len P)%nat -> Forall (fun v => (v < q)%N) (rm_data sk) ->
  (forall r i, (r < sp_n P)%nat -> (i < sp_len P)%nat ->
     eqm (Z.of_N q) (S r i) (Z.of_N (coeff (sp_len P) 1 (rm_data sk) r 0 i)) /\ 4 * Z.abs (S r i) < Z.of_N q) ->
  (forall r, (r < sp_n P)%nat -> zsum (sp_len P) (fun i => Z.abs (S r i)) <= h) ->
  (forall t i z, (pt t i z < p)%N) ->
  (idx < 2 ^ (sp_v1 P + sp_v2 P))%nat ->
  (forall k, (k < sp_gsw P)%nat -> (bits_for P (sp_gsw P) * k < 64)%nat) ->
  eqm (sp_q P) (2 ^ Z.of_nat (sp_g P) * inv_first) 1 ->
  eqm (sp_q P) (2 ^ Z.of_nat (Datatypes.S (sp_stop P)) * inv_rest) 1 ->
  noise_fits q p q2 h (total_noise P ((Z.of_N p + 1) / 2) Bs Be + Z.of_N q mod Z.of_N p) ->
  exists sigma out resp d,
    query_sigma P idx inv_first inv_rest = Ok sigma
    /\ process_query P (expansion_keys P s (sp_g P) (sp_left P) al el)
         (expansion_keys P s (sp_stop P + 1) (sp_right P) ar er) (conversion_key P s ac ec)
         (packing_keys P s S ap ep) (db_poly P pt) (regev P s aq eq sigma) = Ok out
    /\ mod_switch (sp_len P) (response_mat P out) q p q2 = Ok resp
    /\ decode_response (sp_len P) mul_q2 (sp_n P) q p q2 sk resp = Ok (RawMat (sp_n P) (sp_n P) d)
    /\ forall r c z, (r < sp_n P)%nat -> (c < sp_n P)%nat -> (z < sp_len P)%nat ->
       coeff (sp_len P) (sp_n P) d r c z = ((pt (r * sp_n P + c)%nat idx z + 4 * q2 / p) mod p)%N.
Proof.
  intros P L q p q2 mul_q2 s S h sk Bs Be al el ar er ac ec ap ep aq eq pt idx inv_first inv_rest
    V Eq Ep Hnp Hp1 Hpq Hq2 Hq2q Hq60 Hpq2 Hmul Hs HBs Hnoise K1 K2 K3 K4 Hpt Hidx Hub Hi1 Hi2 Hfit.
  assert (Hlen : (1 <= sp_len P)%nat).
  { destruct V as (-> & _). pose proof (Nat.pow_nonzero 2 L ltac:(lia)). lia. }
  assert (Hq62 : (q <= 2 ^ 62)%N) by (eapply N.le_trans; [exact Hq60|apply N.pow_le_mono_r; lia]).
  assert (Hsig : exists sigma, query_sigma P idx inv_first inv_rest = Ok sigma).
  { unfold query_sigma. cbv zeta.
    replace (existsb (fun k => (64 <=? bits_for P (sp_gsw P) * k)%nat) (seq 0 (sp_gsw P))) with false.
    - rewrite andb_false_r. eexists. reflexivity.
    - symmetry. apply not_true_is_false. intros E. apply existsb_exists in E as (k & Hk & Lk). apply in_seq in Hk.
      apply Nat.leb_le in Lk. specialize (Hub k ltac:(lia)). lia. }
  destruct Hsig as [sigma Hsig].
  destruct (C59_response_selects P L s S Bs Be ((Z.of_N p + 1) / 2) al el ar er ac ec ap ep aq eq (db_poly P pt) idx
              inv_first inv_rest sigma) as (out & Eo & Hnear); auto.
  { apply (db_poly_small P q p); auto; lia. }
  pose proof (response_encrypts P q p Eq Ep ltac:(lia) ltac:(lia) Hpq Hq62 Hlen Hnp S h sk pt idx out _ Hpt K1 K2 K3 K4 Hnear) as Henc.
  destruct (C58_decode_value (sp_len P) (sp_n P) q p q2 mul_q2 S h sk (response_mat P out)
              (fun r c z => pt (r * sp_n P + c)%nat idx z) _ Hlen Hnp Hp1 Hq2 Hq2q Hq60 Hpq2 Hmul Henc Hfit)
    as (resp & d & A & B & _ & D).
  exists sigma, out, resp, d. split; [exact Hsig|]. split; [exact Eo|]. split; [exact A|]. split; [exact B|exact D].
Qed.

(** With a single dimension (db_dim2_ = 0) ExpandQuery throws on every query, although
    GenQueryInternal has a branch for it: half of 2^g is less than 2^v1. *)
Theorem C59_one_dimension_throws : forall P left right conv query,
  sp_v2 P = 0%nat -> expand_query P left right conv query = Throw.
Proof.
  intros P left right conv query H. unfold expand_query. cbv zeta. unfold sp_g. rewrite H, Nat.mul_0_r, Nat.add_0_l.
  rewrite Nat.log2_up_pow2 by lia. pose proof (Nat.pow_nonzero 2 (sp_v1 P) ltac:(lia)).
  replace (2 ^ sp_v1 P / 2 <? 2 ^ sp_v1 P)%nat with true; [reflexivity|].
  symmetry. apply Nat.ltb_lt, Nat.div_lt; lia.
Qed.

(** An instance: 16 coefficients, the default 56 bit modulus, 16 plaintexts of 1-bit coefficients,
    secret keys and noise that are not zero. *)
Definition c59_params : sel_params := SelParams 16 66974689739603969 56 2 1 56 56 56 8 3 1.
Definition c59_mul (a b : raw_mat) : raw_mat :=
  RawMat 1 1 (map (fun z => Z.to_N (negacyclic 16 (fun i => Z.of_N (coeff 16 1 (rm_data a) 0 0 i))
                              (fun i => Z.of_N (coeff 16 1 (rm_data b) 0 0 i)) z mod 12289)) (seq 0 16)).
Definition c59_pt (t i z : nat) : N := N.of_nat ((i + z * i) mod 2).

Lemma c59_is_product : is_product 16 1 12289 c59_mul.
Proof.
  intros a b Ha Hb _ _. split; [reflexivity|]. intros r c z Hr Hc Hz.
  assert (r = 0%nat) by lia. assert (c = 0%nat) by lia. subst r c. unfold c59_mul. cbn [rm_data]. unfold coeff at 1.
  replace ((0 * 1 + 0) * 16 + z)%nat with z by lia. rewrite nth_seq_map by exact Hz. rewrite Z2N.id; [reflexivity|].
  apply Z.mod_pos_bound. reflexivity.
Qed.

Example C59_example_noise :
  total_noise c59_params 1 1 1 = 28344732544
  /\ noise_fits 66974689739603969 2 12289 1 (total_noise c59_params 1 1 1 + 66974689739603969 mod 2).
Proof. split; vm_compute; reflexivity. Qed.

Example C59_example : forall idx, (idx < 16)%nat -> exists sigma out resp d,
  let s := pmono 3 in let noise := pconst 1 in let mask k := pmono (k mod 16) in
  query_sigma c59_params idx 62788771630878721 62788771630878721 = Ok sigma
  /\ process_query c59_params
       (expansion_keys c59_params s 4 56 (fun i k => mask (i + k)%nat) (fun _ _ => noise))
       (expansion_keys c59_params s 4 56 (fun i k => mask (i + 2 * k)%nat) (fun _ _ => noise))
       (conversion_key c59_params s mask (fun _ => noise))
       (packing_keys c59_params s (fun _ => pmono 5) (fun i k => mask (i + k)%nat) (fun _ _ _ => noise))
       (db_poly c59_params c59_pt) (regev c59_params s (mask 7%nat) noise sigma) = Ok out
  /\ mod_switch 16 (response_mat c59_params out) 66974689739603969 2 12289 = Ok resp
  /\ decode_response 16 c59_mul 1 66974689739603969 2 12289 (RawMat 1 1 (map (fun i => if Nat.eqb i 5 then 1%N else 0%N) (seq 0 16))) resp
     = Ok (RawMat 1 1 d)
  /\ forall z, (z < 16)%nat -> coeff 16 1 d 0 0 z = c59_pt 0 idx z.
Proof.
  intros idx Hidx. cbv zeta.
  assert (Sm : forall k, small 16 66974689739603969 1 (pmono k)).
  { intros k. exists (pmono k). split; [intros z _; exists 0; lia|]. intros z _. unfold pmono. destruct (Nat.eqb z k); lia. }
  assert (Sn : small 16 66974689739603969 1 (pconst 1)).
  { exists (pconst 1). split; [intros z _; exists 0; lia|]. intros [|z] _; cbn [pconst]; lia. }
  destruct (C59_retrieves c59_params 4 66974689739603969 2 12289 c59_mul (pmono 3) (fun _ => pmono 5) 1
    (RawMat 1 1 (map (fun i => if Nat.eqb i 5 then 1%N else 0%N) (seq 0 16))) 1 1
    (fun i k => pmono ((i + k) mod 16)) (fun _ _ => pconst 1) (fun i k => pmono ((i + 2 * k) mod 16)) (fun _ _ => pconst 1)
    (fun k => pmono (k mod 16)) (fun _ => pconst 1) (fun i k => pmono ((i + k) mod 16)) (fun _ _ _ => pconst 1)
    (pmono (7 mod 16)) (pconst 1) c59_pt idx 62788771630878721 62788771630878721) as (sigma & out & resp & d & A & B & C & D & E).
  - repeat (split; [vm_compute; intuition congruence|]). vm_compute. repeat constructor.
  - reflexivity.
  - reflexivity.
  - cbn. lia.
  - lia.
  - discriminate.
  - lia.
  - discriminate.
  - discriminate.
  - reflexivity.
  - exact c59_is_product.
  - apply Sm.
  - lia.
  - repeat split; intros; exact Sn.
  - reflexivity.
  - repeat constructor.
  - intros r i Hr Hi. change (sp_n c59_params) with 1%nat in Hr. change (sp_len c59_params) with 16%nat in Hi.
    assert (r = 0%nat) by lia. subst r. do 16 (destruct i as [|i]; [split; [exists 0; reflexivity|reflexivity]|]). lia.
  - intros r Hr. vm_compute. discriminate.
  - intros t i z. unfold c59_pt. pose proof (Nat.mod_upper_bound (i + z * i) 2 ltac:(lia)). lia.
  - exact Hidx.
  - intros k Hk. change (sp_gsw c59_params) with 8%nat in *. change (bits_for c59_params 8) with 8%nat. lia.
  - exists 15. reflexivity.
  - exists 15. reflexivity.
  - exact (proj2 C59_example_noise).
  - exists sigma, out, resp, d. split; [exact A|]. split; [exact B|]. split; [exact C|]. split; [exact D|].
    intros z Hz. etransitivity; [exact (E 0%nat 0%nat z (le_n 1) (le_n 1) Hz)|].
    replace (4 * 12289 / 2)%N with 24578%N by reflexivity. change (0 * sp_n c59_params + 0)%nat with 0%nat.
    unfold c59_pt. pose proof (Nat.mod_upper_bound (idx + z * idx) 2 ltac:(lia)).
    rewrite N.add_mod by lia. change (24578 mod 2)%N with 0%N. rewrite N.add_0_r, N.mod_mod by lia. apply N.mod_small. lia.
Qed.

Print Assumptions C59_response_selects.
Print Assumptions C59_retrieves.
Print Assumptions C59_one_dimension_throws.
Print Assumptions C59_example.
