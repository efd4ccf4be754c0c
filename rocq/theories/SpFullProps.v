(** C68: a row of bytes through the whole of Spiral: layout, keys, query, server, response, bytes. *)
From Coq Require Import List Arith NArith ZArith Bool Lia Permutation.
From Verif Require Import Base StoreModel Text PirPackModel PirPackSpec PirPackProofs2 PirPackProofs3 SpArithModel SpLoopModel SpGadgetModel SpGadgetSpec SpDecodeModel SpDecodeSpec SpDecodeProofs2 SpDecodeProps
  SpRingModel SpRingSpec SpSelModel SpSelSpec SpSelProofs5 SpSelProps NttModel NttSpec NttProofs6 NttProps
  SpSrvModel SpSrvSpec SpSrvProofs1 SpSrvProofs2 SpSrvProofs7 SpSrvProps
  SpCliModel SpCliSpec SpCliProofs1 SpCliProofs4 SpWireModel SpWireProofs SpCliProps SpFullProofs.
Import ListNotations.
Local Open Scope N_scope.

(** The second modulus of the response: one prime q2 with room for 8 * p * q2, for which DecodeResponse is exact. *)
Definition response_setup (min_root invert : N -> N -> option N) (inv : N -> N -> N) (L : nat) (P : sel_params) (q2 : N) (psi2 : nat -> Z) (NP2 : ntt_params) : Prop :=
  let p := Z.to_N (sp_p P) in
  ntt_setup min_root invert L [q2] psi2 /\ make_params min_root invert (2 ^ L) [q2] = Ok NP2 /\ crt_setup inv [q2]
  /\ q2 <= w_modulus P /\ 8 * p * q2 < 2 ^ 62 /\ (4 * q2 / p) mod p = 0.

(** Every row of a database of rows of [len] bytes comes back: from any secret keys Init can draw, any words of
    the generators and any table of the sampler for which the noise bound of C59 fits. *)
Theorem C68_retrieves : forall min_root invert inv L moduli psi NP P dg avx q2 psi2 NP2 logt shuffle_gsw shuffle_reg h rng pub rng' rng_of seed rows len (db : list bytes) v0 pts i,
  client_setup min_root invert inv L moduli psi NP P dg -> sel_valid P L ->
  response_setup min_root invert inv L P q2 psi2 NP2 ->
  sp_p P = (2 ^ Z.of_nat logt)%Z ->
  (forall j l, Permutation (shuffle_gsw j l) l) -> (forall j l, Permutation (shuffle_reg j l) l) -> (2 * h <= 2 ^ L)%nat ->
  words64 rng -> words64 pub -> words64 rng' -> words64 (rng_of seed) ->
  noise_fits (w_modulus P) (Z.to_N (sp_p P)) q2 (Z.of_nat (2 * h))
    (total_noise P ((sp_p P + 1) / 2) 1 (Z.of_nat (dg_max dg)) + sp_q P mod sp_p P) ->
  let pt_coeffs := (sp_n P * sp_n P * sp_len P)%nat in
  (1 <= logt <= 64)%nat -> (8 <= pt_coeffs * logt)%nat -> (1 <= len)%nat -> length db = rows ->
  (forall r, In r db -> length r = len /\ Forall is_byte r) ->
  (v0 <= 30)%nat -> update_dims pt_coeffs logt v0 rows len = Ok (sp_v1 P + sp_v2 P, pts)%nat -> N.of_nat pts <= 2 ^ 30 ->
  (i < rows)%nat ->
  exists sk_gsw sk_reg parts dbw single keys query resp,
    gen_ternary NP P shuffle_gsw (sp_n P) h = Ok sk_gsw /\ gen_ternary NP P shuffle_reg 1 h = Ok sk_reg
    /\ generate_reorient pt_coeffs logt rows len (sp_v1 P + sp_v2 P) (RawDb rows len db) = Ok parts
    /\ set_database avx NP P [] parts = Ok (dbw, single)
    /\ pks_message avx NP inv P dg sk_gsw sk_reg (rng, pub) = Ok keys
    /\ query_message avx NP inv P rng_of dg sk_reg logt rows len i rng' seed = Ok query
    /\ respond avx NP inv P rng_of q2 dbw single (length parts) keys query = Ok resp
    /\ open_message NP P (the_product avx NP2 inv) q2 sk_gsw logt len i resp = Ok (nth i db []).
Proof.
  intros min_root invert inv L moduli psi NP P dg avx q2 psi2 NP2 logt shuffle_gsw shuffle_reg h rng pub rng' rng_of seed rows len db v0 pts i
    HC HV (R1 & R2 & R3 & R4 & R5 & R6) Hp Hsg Hsr Hh W1 W2 W3 W4 Hfit pt_coeffs Hlog Hm Hlen Hn Hdb Hv0 Hu Hpts Hi.
  pose proof HC as (HS & (D1 & D2) & HF & V1 & V2). destruct (setup_srv _ _ _ _ _ _ _ _ HS) as [HW Em]. pose proof (q_bounds _ _ _ _ _ HW) as QB.
  pose proof HS as (_ & _ & _ & _ & S5 & S6 & S7 & S8 & S9 & S10 & S11 & S12 & S13 & S14 & S15 & S16).
  assert (Wz : Z.of_N (w_modulus P) = sp_q P) by (unfold w_modulus; apply Z2N.id; lia).
  assert (Pz : Z.of_N (Z.to_N (sp_p P)) = sp_p P) by (apply Z2N.id; lia).
  assert (Pn : Z.to_N (sp_p P) = 2 ^ N.of_nat logt) by (apply N2Z.inj; rewrite Pz, Hp, N2Z.inj_pow; f_equal; lia).
  (* secret keys *)
  destruct (C67_secret_key _ _ _ _ _ _ _ _ _ shuffle_gsw (sp_n P) h HC Hsg Hh) as (sk_gsw & S & Eg & Kg & Tg & Hg).
  destruct (C67_secret_key _ _ _ _ _ _ _ _ _ shuffle_reg 1 h HC Hsr Hh) as (sk_reg & Sr & Er & Kr & Tr & Hr).
  set (s := Sr 0%nat). assert (Ks : key_words L P 1 sk_reg (fun _ => s)).
  { destruct Kr as (A & B & C & D). split; [exact A|]. split; [exact B|]. split; [exact C|]. intros r z Hr' Hz. rewrite D by assumption. unfold s. replace r with 0%nat by lia. reflexivity. }
  (* layout *)
  assert (Hmb : (1 <= max_byte_len pt_coeffs logt)%nat) by (apply Nat.div_le_lower_bound; lia).
  destruct (update_dims_ok pt_coeffs logt Hlog v0 rows len Hmb Hlen Hv0) as (es & Ees & Hup).
  assert (Epts : pts = uint_num rows es).
  { unfold update_dims in Hu. rewrite Ees in Hu. cbn [bind] in Hu. destruct (uint_num rows es <=? 4)%nat; [congruence|].
    destruct (grow_dims 32 v0 (uint_num rows es)); cbn [bind] in Hu; congruence. }
  subst pts. destruct (Hup Hpts) as (v' & Hu' & Hv & Hle). assert (v' = (sp_v1 P + sp_v2 P)%nat) by congruence. subst v'.
  destruct (generate_reorient_ok pt_coeffs logt Hlog rows len (sp_v1 P + sp_v2 P) db Hmb Hlen Hn ltac:(lia) Hv Hdb) as (parts & Ep & Lp & Fp & Rp).
  specialize (Lp es Ees Hle). pose proof (Rp i Hi) as Ri. unfold retrieve in Ri.
  destruct (client_pt_index pt_coeffs logt rows len i) as [k| | |] eqn:Ek; try discriminate. cbn [bind] in Ri.
  destruct (select_pts k parts) as [pls| | |] eqn:Es; try discriminate. cbn [bind] in Ri. apply select_all in Es as [-> Fk].
  assert (Hparts : (0 < length parts)%nat).
  { destruct parts as [|p0 parts]; [|cbn; lia]. exfalso. unfold client_decode in Ri. destruct (max_byte_len pt_coeffs logt =? 0)%nat eqn:Z0; [discriminate|].
    cbn [map] in Ri. destruct (element_size pt_coeffs logt _); try discriminate. cbn [bind length] in Ri.
    pose proof (Nat.div_le_lower_bound (len + max_byte_len pt_coeffs logt - 1) (max_byte_len pt_coeffs logt) 1 ltac:(lia) ltac:(lia)) as G.
    destruct ((len + max_byte_len pt_coeffs logt - 1) / max_byte_len pt_coeffs logt)%nat; [lia|]. discriminate. }
  assert (Hk : (k < 2 ^ (sp_v1 P + sp_v2 P))%nat).
  { destruct parts as [|p0 parts]; [cbn in Hparts; lia|]. inversion Lp; inversion Fk; subst. lia. }
  assert (Hpt : forall pidx, (pidx < length parts)%nat -> let part := nth pidx parts [] in length part = (2 ^ (sp_v1 P + sp_v2 P))%nat
            /\ (forall item, (item < length part)%nat -> length (nth item part []) = (sp_n P * sp_n P * 2 ^ L)%nat)
            /\ forall t item z, pt_of L part t item z < Z.to_N (sp_p P)).
  { intros pidx Hpi part. assert (Hin : In part parts) by (apply nth_In, Hpi). rewrite Forall_forall in Lp, Fp. split; [apply Lp, Hin|].
    specialize (Fp part Hin). rewrite Forall_forall in Fp. split.
    - intros item Hit. destruct (Fp (nth item part [])) as [-> _]; [apply nth_In, Hit|]. unfold pt_coeffs. rewrite S5. reflexivity.
    - intros t item z. unfold pt_of. rewrite Pn. destruct (Nat.lt_ge_cases item (length part)) as [C|C].
      + destruct (Fp (nth item part [])) as [_ F]; [apply nth_In, C|].
        destruct (Nat.lt_ge_cases (t * 2 ^ L + z) (length (nth item part []))) as [C2|C2].
        * rewrite Forall_forall in F. apply F, nth_In, C2.
        * rewrite (nth_overflow (nth item part [])) by exact C2. apply N.neq_0_lt_0, N.pow_nonzero. lia.
      + rewrite (nth_overflow part) by exact C. destruct (t * 2 ^ L + z)%nat; apply N.neq_0_lt_0, N.pow_nonzero; lia. }
  assert (Hok : Forall (db_ok L P) parts).
  { apply Forall_forall. intros part Hin. apply (In_nth _ _ []) in Hin as (pidx & Hpi & <-). destruct (Hpt pidx Hpi) as (A & B & C). cbv zeta in A, B, C.
    split; [rewrite A, Nat.pow_add_r; lia|]. intros item Hit. assert (Hit' : (item < length (nth pidx parts []))%nat) by (rewrite A, Nat.pow_add_r; exact Hit).
    split; [rewrite (B item Hit'); lia|]. intros x Hx. pose proof (C 0%nat item x) as Cx. unfold pt_of in Cx. exact Cx. }
  (* keys and query *)
  destruct (C67_public_keys _ _ _ _ _ _ _ _ _ avx sk_gsw sk_reg s S rng pub HC Ks Kg W1 W2) as (kp & pks & el & er & ec & ep & Kp1 & Kp2 & Bl & Br & Bc & Bp & Kst). cbv zeta in Kst.
  destruct (C67_query _ _ _ _ _ _ _ _ _ avx sk_reg s rng' rng_of seed k HC Ks W3 W4 Hk) as (_ & msg & ct' & eq & sigma & _ & Q1 & Q2 & Bq & Sg & _ & Qst & _).
  set (i1 := Z.of_N (inv (2 ^ N.of_nat (sp_g P)) (w_modulus P))) in *. set (i2 := Z.of_N (inv (2 ^ N.of_nat (sp_stop P + 1)) (w_modulus P))) in *.
  assert (I1 : eqm (sp_q P) (2 ^ Z.of_nat (sp_g P) * i1) 1) by exact (proj2 (inv_pow avx L psi NP P inv dg HW S7 D1 D2 k S12 S11 S16 V1 S8 V2 (sp_g P))).
  assert (I2 : eqm (sp_q P) (2 ^ Z.of_nat (Datatypes.S (sp_stop P)) * i2) 1).
  { rewrite <- Nat.add_1_r. exact (proj2 (inv_pow avx L psi NP P inv dg HW S7 D1 D2 k S12 S11 S16 V1 S8 V2 (sp_stop P + 1))). }
  (* every partition *)
  match type of Kst with keys_stand _ _ _ _ _ ?l ?r ?c ?p => set (kl := l) in *; set (kr := r) in *; set (kc := c) in *; set (kk := p) in * end.
  set (qc := regev P s (mask L P (rng_of seed) 0) eq sigma) in *.
  set (ask := fun pidx => process_query P kl kr kc kk (db_poly P (pt_of L (nth pidx parts []))) qc).
  set (outs := fun pidx => match ask pidx with Ok o => o | _ => fun _ _ => pzero end).
  assert (SB : forall e, bounded dg e -> small (sp_len P) (sp_q P) (Z.of_nat (dg_max dg)) e).
  { intros e He. exists e. split; [intros z _; exists 0%Z; lia|]. intros z _. apply He. }
  assert (Hall : forall pidx, (pidx < length parts)%nat -> ask pidx = Ok (outs pidx)
     /\ exists resp d, mod_switch (2 ^ L) (response_mat P (outs pidx)) (nprod moduli) (Z.to_N (sp_p P)) q2 = Ok resp
        /\ decode_response (2 ^ L) (the_product avx NP2 inv) (sp_n P) (w_modulus P) (Z.to_N (sp_p P)) q2 sk_gsw resp = Ok (RawMat (sp_n P) (sp_n P) d)
        /\ d = nth k (nth pidx parts []) []).
  { intros pidx Hpi. destruct (Hpt pidx Hpi) as (A & B & C). cbv zeta in A, B, C.
    destruct (C59_retrieves P L (w_modulus P) (Z.to_N (sp_p P)) q2 (the_product avx NP2 inv) s S (Z.of_nat (2 * h)) sk_gsw 1 (Z.of_nat (dg_max dg))
      (fun i k => mask L P pub (sp_n P * sp_conv P + i * sp_left P + k)) el
      (fun i k => mask L P pub (sp_n P * sp_conv P + sp_g P * sp_left P + i * sp_right P + k)) er
      (fun k => mask L P pub (sp_n P * sp_conv P + sp_g P * sp_left P + (sp_stop P + 1) * sp_right P + k)) ec
      (fun i k => mask L P pub (i * sp_conv P + k)) ep (mask L P (rng_of seed) 0) eq (pt_of L (nth pidx parts [])) k i1 i2)
      as (sigma' & out & resp & d & E1 & E2 & E3 & E4 & E5).
    - exact HV.
    - symmetry. exact Wz.
    - symmetry. exact Pz.
    - exact S9.
    - lia.
    - lia.
    - destruct R1 as (_ & _ & _ & R1). specialize (R1 0%nat ltac:(cbn; lia)). cbn [nth] in R1. lia.
    - exact R4.
    - lia.
    - exact R5.
    - rewrite S5. eapply C65_is_product; eauto.
    - exists s. split; [intros z _; exists 0%Z; lia|]. intros z _. specialize (Tr 0%nat z). fold s in Tr. lia.
    - lia.
    - repeat split; intros; apply SB; auto.
    - destruct Kg as (_ & _ & -> & _). rewrite S5. reflexivity.
    - apply Forall_forall. intros x Hx. apply (In_nth _ _ 0) in Hx as (j & Hj & <-). destruct Kg as (_ & _ & Lg & Vg). rewrite Lg in Hj.
      pose proof (n_pos' L) as Hn0. assert (Hr' : (j / 2 ^ L < sp_n P)%nat) by (apply Nat.div_lt_upper_bound; lia).
      pose proof (Vg (j / 2 ^ L)%nat (j mod 2 ^ L)%nat Hr' ltac:(apply Nat.mod_upper_bound; lia)) as V.
      replace (j / 2 ^ L * 2 ^ L + j mod 2 ^ L)%nat with j in V by (rewrite Nat.mul_comm; apply Nat.div_mod, Nat.pow_nonzero; discriminate).
      match type of V with _ = (?x mod _)%Z => pose proof (Z.mod_pos_bound x (sp_q P) ltac:(lia)) end. lia.
    - intros r z Hr' Hz. rewrite S5 in *. destruct Kg as (_ & _ & _ & Vg). unfold coeff. rewrite Nat.mul_1_r, Nat.add_0_r, (Vg r z Hr' Hz), Wz.
      split; [apply eqm_sym, eqm_mod; lia|]. specialize (Tg r z).
      assert (9 <= sp_q P)%Z; [|lia]. rewrite (q_prod _ _ _ _ _ HW). pose proof (mod_bounds _ _ _ _ _ HW 0 ltac:(lia)) as [M0 _]. pose proof (mod_bounds _ _ _ _ _ HW 1 ltac:(lia)) as [M1 _]. clear - M0 M1. nia.
    - intros r Hr'. rewrite S5. destruct (Hg r Hr') as [_ ->]. lia.
    - exact C.
    - exact Hk.
    - exact V2.
    - exact I1.
    - exact I2.
    - rewrite Pz, Wz. exact Hfit.
    - assert (sigma' = sigma) by congruence. subst sigma'. rewrite S5 in E3, E4, E5.
      assert (Ea : ask pidx = Ok out) by exact E2. assert (Eo : outs pidx = out) by (unfold outs; rewrite Ea; reflexivity). rewrite Eo. split; [exact Ea|].
      exists resp, d. replace (nprod moduli) with (w_modulus P) by (unfold w_modulus; rewrite S6; apply N2Z.id). split; [exact E3|]. split; [exact E4|].
      apply (decoded_is_plaintext (sp_n P) L); [eapply decode_length; exact E4|apply B; rewrite A; exact Hk|].
      intros r c z Hr' Hc Hz. rewrite (E5 r c z Hr' Hc Hz). pose proof (C (r * sp_n P + c)%nat k z) as Cx.
      rewrite N.add_mod, R6, N.add_0_r, N.mod_mod by lia. apply N.mod_small. exact Cx. }
  destruct (C66_answer _ _ _ _ _ _ _ _ avx q2 parts pks ct' qc kl kr kc kk outs HS Kst) as (dbw & single & Ed & Ew).
  { unfold kl, expansion_keys. rewrite map_length, seq_length. lia. }
  { unfold kr, expansion_keys. rewrite map_length, seq_length. destruct HV as (_ & _ & _ & _ & _ & _ & _ & _ & V9 & _). left.
    split; [|lia]. unfold sp_stop. apply Nat.log2_up_pos. lia. }
  { exact Qst. } { exact Hok. } { exact Hparts. } { intros pidx Hpi. apply Hall, Hpi. }
  destruct (map_out_at _ _ (fun pidx => mod_switch (2 ^ L) (response_mat P (outs pidx)) (nprod moduli) (Z.to_N (sp_p P)) q2)
     (fun pidx resp => from_proto NP (to_proto resp) = Ok resp /\ exists d, decode_response (2 ^ L) (the_product avx NP2 inv) (sp_n P) (w_modulus P) (Z.to_N (sp_p P)) q2 sk_gsw resp = Ok (RawMat (sp_n P) (sp_n P) d)
        /\ d = nth k (nth pidx parts []) []) 0%nat (RawMat 0 0 []) (seq 0 (length parts))) as (resps & Em1 & Lm & Hm1).
  { rewrite seq_length. intros pidx Hpi. rewrite seq_nth by exact Hpi. rewrite Nat.add_0_l. destruct (Hall pidx Hpi) as (_ & resp & d & A & B & C). exists resp. split; [exact A|]. split; [|eauto].
    apply mod_switch_shape in A as (A1 & A2 & A3). apply (proto_back avx L psi NP P inv HW S7 (sp_n P + 1) (sp_n P)).
    - split; [exact A1|]. split; [exact A2|]. rewrite A3. unfold response_mat. cbn [rm_data]. rewrite map_length, seq_length, S5. reflexivity.
    - apply HF. cbn. tauto. }
  rewrite seq_length in Lm, Hm1.
  exists sk_gsw, sk_reg, parts, dbw, single, kp, msg, (map to_proto resps). split; [exact Eg|]. split; [exact Er|]. split; [exact Ep|]. split; [exact Ed|].
  split; [exact Kp1|]. split; [unfold query_message; fold pt_coeffs; rewrite Ek; exact Q1|]. split.
  { unfold respond. rewrite Q2. cbn [bind]. rewrite Kp2. cbn [bind]. rewrite Ew, Em1. reflexivity. }
  unfold open_message. destruct (map_out_at _ _ (from_proto NP) (fun j r => r = nth j resps (RawMat 0 0 [])) (to_proto (RawMat 0 0 [])) (RawMat 0 0 []) (map to_proto resps)) as (rs & Ers & Lrs & Hrs).
  { rewrite map_length. intros j Hj. rewrite map_nth. eexists. split; [apply Hm1; lia|reflexivity]. }
  rewrite map_length in Lrs, Hrs. assert (rs = resps) by (apply (nth_ext _ _ (RawMat 0 0 []) (RawMat 0 0 [])); [exact Lrs|intros j Hj; apply Hrs; lia]). subst rs.
  rewrite Ers. cbn [bind]. rewrite (len_n _ _ _ _ _ HW).
  destruct (map_out_at _ _ (decode_response (2 ^ L) (the_product avx NP2 inv) (sp_n P) (w_modulus P) (Z.to_N (sp_p P)) q2 sk_gsw)
     (fun j m => rm_data m = nth k (nth j parts []) []) (RawMat 0 0 []) (RawMat 0 0 []) resps) as (ds & Eds & Lds & Hds).
  { intros j Hj. destruct (Hm1 j ltac:(lia)) as (_ & d & A & B). eexists. split; [exact A|exact B]. }
  rewrite Eds. cbn [bind]. fold pt_coeffs. replace (map rm_data ds) with (map (fun p => nth k p []) parts); [exact Ri|].
  apply (nth_ext _ _ (nth k [] []) (rm_data (RawMat 0 0 []))); [rewrite !map_length; lia|]. rewrite map_length. intros j Hj.
  rewrite (map_nth (fun p => nth k p [])), map_nth. symmetry. apply Hds. lia.
Qed.
Print Assumptions C68_retrieves.

(** * An instance: 8 coefficients below 256, the default modulus, q2 of 20 bits, 4 rows of 11 bytes in two partitions. *)
Definition c68_params : sel_params := SelParams 8 66974689739603969 56 256 1 56 56 56 4 2 1.
Definition c68_db : list bytes := [[72; 101; 108; 108; 111; 44; 32; 110; 111; 119; 46]; [0; 0; 0; 0; 0; 0; 0; 0; 0; 0; 1];
  [255; 254; 253; 252; 251; 250; 249; 248; 247; 246; 245]; [1; 2; 4; 8; 16; 32; 64; 128; 3; 9; 27]].

Lemma c68_setup : exists NP NP2, client_setup c65_root inverse_mod c65_inv 3 c66_moduli c65_psi NP c68_params c67_gauss
  /\ response_setup c65_root inverse_mod c65_inv 3 c68_params 786433 (fun _ => 74616%Z) NP2.
Proof.
  destruct C66_reload_refuted as (NP & _ & _ & _ & _ & _ & _ & (H1 & H2 & H3 & H4 & _) & _).
  destruct C65_example_decode as (G1 & G2 & _ & _ & G3 & _ & NP2 & _ & G4 & _).
  exists NP, NP2. split.
  - split; [|split; [split; [reflexivity|vm_compute; reflexivity]|split; [|split; [vm_compute; repeat constructor|]]]].
    + split; [exact H1|]. split; [exact H2|]. split; [exact H3|]. split; [exact H4|]. repeat (split; [cbn; lia|]).
      assert (Em : np_moduli NP = c66_moduli) by (destruct (setup_params _ _ _ _ _ _ H1 H2) as (_ & -> & _); reflexivity).
      assert (S : small_digits NP c68_params 56).
      { split; [lia|]. rewrite Em. intros [|[|k]] Hk; [| |lia]; vm_compute; discriminate. }
      split; [exact S|]. split; [exact S|]. vm_compute. repeat constructor.
    + intros d Hd. cbn in Hd. repeat (destruct Hd as [<-|Hd]; [vm_compute; reflexivity|]). destruct Hd.
    + intros k Hk. change (sp_gsw c68_params) with 4%nat in *. change (bits_for c68_params 4) with 15%nat. lia.
  - split; [exact G1|]. split; [exact G4|]. split; [exact G2|]. split; [vm_compute; discriminate|]. split; [reflexivity|exact G3].
Qed.

Example C68_example : forall avx i, (i < 4)%nat -> exists NP NP2 sk_gsw sk_reg parts dbw single keys query resp,
  gen_ternary NP c68_params (fun _ l => rev l) 1 1 = Ok sk_gsw /\ gen_ternary NP c68_params (fun _ l => l) 1 1 = Ok sk_reg
  /\ generate_reorient 8 8 4 11 3 (RawDb 4 11 c68_db) = Ok parts
  /\ set_database avx NP c68_params [] parts = Ok (dbw, single)
  /\ pks_message avx NP c65_inv c68_params c67_gauss sk_gsw sk_reg (c67_rng 5 1, c67_rng 7 2) = Ok keys
  /\ query_message avx NP c65_inv c68_params (c67_rng 9) c67_gauss sk_reg 8 4 11 i (c67_rng 5 3) 17 = Ok query
  /\ respond avx NP c65_inv c68_params (c67_rng 9) 786433 dbw single (length parts) keys query = Ok resp
  /\ open_message NP c68_params (the_product avx NP2 c65_inv) 786433 sk_gsw 8 11 i resp = Ok (nth i c68_db []).
Proof.
  intros avx i Hi. destruct c68_setup as (NP & NP2 & H1 & H2). exists NP, NP2.
  assert (W : forall a b, words64 (c67_rng a b)) by (intros a b j; apply N.mod_lt; discriminate).
  apply (C68_retrieves c65_root inverse_mod c65_inv 3 c66_moduli c65_psi NP c68_params c67_gauss avx 786433 (fun _ => 74616%Z) NP2 8
           (fun _ l => rev l) (fun _ l => l) 1 (c67_rng 5 1) (c67_rng 7 2) (c67_rng 5 3) (c67_rng 9) 17 4 11 c68_db 3 4 i); auto.
  - repeat (split; [vm_compute; intuition congruence|]). vm_compute. repeat constructor.
  - intros _ l. symmetry. apply Permutation_rev.
  - cbn. lia.
  - vm_compute. reflexivity.
  - lia.
  - vm_compute. repeat constructor.
  - lia.
  - intros r Hr. cbn in Hr. repeat (destruct Hr as [<-|Hr]; [split; [reflexivity|repeat constructor]|]). destruct Hr.
  - lia.
  - discriminate.
Qed.
Print Assumptions C68_example.
