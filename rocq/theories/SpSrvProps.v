(** C66: what SpiralServer computes word by word is the selection of C59. *)
From Coq Require Import List Arith NArith ZArith Bool Lia.
From Verif Require Import Base PirPackModel SpArithModel SpLoopModel SpGadgetModel SpGadgetSpec SpDecodeModel SpDecodeSpec SpRingModel SpRingSpec SpSelModel
  NttModel NttSpec NttProofs6 NttProps SpSrvModel SpSrvSpec SpSrvProofs1 SpSrvProofs2 SpSrvProofs3 SpSrvProofs4 SpSrvProofs5 SpSrvProofs6 SpSrvProofs7 SpSelProofs5.
Import ListNotations.
Local Open Scope N_scope.

(** Params with two moduli whose product is the modulus (of at most 62 bits), and two dimensions. *)
Definition server_setup (min_root invert : N -> N -> option N) (inv : N -> N -> N) (L : nat) (moduli : list N) (psi : nat -> Z)
           (NP : ntt_params) (P : sel_params) : Prop :=
  ntt_setup min_root invert L moduli psi /\ make_params min_root invert (2 ^ L) moduli = Ok NP
  /\ crt_setup inv moduli /\ length moduli = 2%nat /\ sp_len P = (2 ^ L)%nat /\ sp_q P = Z.of_N (nprod moduli)
  /\ (sp_ml P <= 62)%nat /\ (0 < sp_p P <= sp_q P)%Z
  /\ (1 <= sp_n P)%nat /\ (1 <= sp_conv P)%nat /\ (1 <= sp_gsw P)%nat /\ (0 < sp_v2 P)%nat /\ (sp_v1 P <= 64)%nat
  /\ small_digits NP P (sp_left P) /\ small_digits NP P (sp_right P) /\ (sp_g P <= L)%nat.

Lemma setup_srv : forall min_root invert inv L moduli psi NP P, server_setup min_root invert inv L moduli psi NP P ->
  srv_ok L psi NP P inv /\ np_moduli NP = moduli.
Proof.
  intros min_root invert inv L moduli psi NP P (H1 & H2 & H3 & H4 & H5 & H6 & _).
  destruct (setup_params _ _ _ _ _ _ H1 H2) as (A & B & C). split; [|exact B].
  destruct H3 as [[H3|[_ H3]] H7]; [lia|]. split; [exact C|]. split; [exact H5|]. rewrite B. repeat (split; [assumption|]). exact H6.
Qed.

(** The words that answer a query: for every partition the modulus switch of what SpSelModel computes
    from the polynomials the words stand for.  No call throws and no access is out of bounds. *)
Theorem C66_answer : forall min_root invert inv L moduli psi NP P avx q2 parts pks query c left right conv packing outs,
  server_setup min_root invert inv L moduli psi NP P ->
  keys_stand L moduli psi P pks left right conv packing ->
  (sp_g P <= length left)%nat -> (0 < sp_stop P < length right \/ sp_g P <= length right)%nat ->
  stands_raw L (sp_q P) 2 1 query (fun r _ => ct_row c r) ->
  Forall (db_ok L P) parts -> (0 < length parts)%nat ->
  (forall pidx, (pidx < length parts)%nat ->
     process_query P left right conv packing (db_poly P (pt_of L (nth pidx parts []))) c = Ok (outs pidx)) ->
  exists db single, set_database avx NP P [] parts = Ok (db, single)
    /\ w_process_query avx NP inv P q2 db single (length parts) pks query
       = map_out (fun pidx => mod_switch (2 ^ L) (response_mat P (outs pidx)) (nprod moduli) (Z.to_N (sp_p P)) q2) (seq 0 (length parts)).
Proof.
  intros min_root invert inv L moduli psi NP P avx q2 parts pks query c left right conv packing outs HS HK Hg Hst Hq Hdb Hl Ho.
  destruct (setup_srv _ _ _ _ _ _ _ _ HS) as [HW Em].
  destruct HS as (_ & _ & _ & _ & _ & S6 & S7 & S8 & S9 & S10 & S11 & S12 & S13 & S14 & S15 & S16).
  destruct HK as ((K1 & K2) & (K3 & K4) & (cw & K5 & K6) & K7 & K8).
  destruct (set_database_r avx L psi NP P inv HW S7 S8 parts Hdb Hl) as (db & single & E1 & E2). exists db, single. split; [exact E1|].
  destruct (rawm_stands L psi NP P inv HW S7 2 1 query _ Hq) as (b & B1 & B2 & B3).
  replace (nprod moduli) with (w_modulus P) by (unfold w_modulus; rewrite S6; apply N2Z.id).
  eapply (process_query_r avx L psi NP P inv HW S7 q2 db single (length parts) pks query b c left right conv cw packing
           (fun pidx => db_poly P (pt_of L (nth pidx parts [])))); eauto.
  - split; [exact K1|]. intros i Hi. apply (nttm_stands L psi NP P inv HW S7). rewrite Em. apply K2. lia.
  - split; [exact K3|]. intros i Hi. apply (nttm_stands L psi NP P inv HW S7). rewrite Em. apply K4. lia.
  - lia.
  - lia.
  - apply (nttm_stands L psi NP P inv HW S7). rewrite Em. exact K6.
  - split; [exact K7|]. intros i Hi. apply (nttm_stands L psi NP P inv HW S7). rewrite Em. apply K8. exact Hi.
Qed.
Print Assumptions C66_answer.

(** The reoriented database: 28 bit residues in the halves of a word, for every partition and polynomial. *)
Theorem C66_database : forall min_root invert inv L moduli psi NP P avx parts,
  server_setup min_root invert inv L moduli psi NP P -> Forall (db_ok L P) parts -> (0 < length parts)%nat ->
  exists db single, set_database avx NP P [] parts = Ok (db, single)
    /\ forall pidx trial z i j, (pidx < length parts)%nat -> (trial < sp_n P * sp_n P)%nat -> (z < 2 ^ L)%nat ->
       (i < 2 ^ sp_v2 P)%nat -> (j < 2 ^ sp_v1 P)%nat ->
       exists w, nth_error db (pidx * single + (((trial * 2 ^ L + z) * 2 ^ sp_v2 P + i) * 2 ^ sp_v1 P + j)) = Some w
         /\ forall k, (k < 2)%nat -> let m := nth k moduli 0 in let h := w / 2 ^ (32 * N.of_nat k) mod 2 ^ 32 in
            h <= m /\ eqm (Z.of_N m) (Z.of_N h)
              (peval (2 ^ L) (db_poly P (pt_of L (nth pidx parts [])) trial (j * 2 ^ sp_v2 P + i)) (ntt_point (psi k) L z)).
Proof.
  intros min_root invert inv L moduli psi NP P avx parts HS Hdb Hl.
  destruct (setup_srv _ _ _ _ _ _ _ _ HS) as [HW Em].
  destruct HS as (_ & _ & _ & _ & _ & S6 & S7 & S8 & _).
  destruct (set_database_r avx L psi NP P inv HW S7 S8 parts Hdb Hl) as (db & single & E1 & E2). exists db, single. split; [exact E1|].
  intros pidx trial z i j Hpi Ht Hz Hi Hj. destruct (E2 pidx trial Hpi Ht z i j Hz Hi Hj) as (w & G & Hw). exists w. split.
  - unfold get in G. destruct (nth_error db _) as [w'|] eqn:En in G; [|discriminate]. injection G as ->. rewrite <- En. f_equal. ring.
  - intros k Hk. cbv zeta. destruct (Hw k Hk) as [H1 H2]. rewrite Em in H1, H2.
    assert (Hh : half k w = w / 2 ^ (32 * N.of_nat k) mod 2 ^ 32).
    { destruct k as [|[|k]]; [unfold half, u32; cbn [Nat.eqb]; rewrite N.mul_0_r, N.pow_0_r, N.div_1_r; reflexivity| |lia].
      unfold half in *. cbn [Nat.eqb] in *. change (32 * N.of_nat 1) with 32. symmetry. apply N.mod_small.
      eapply N.le_lt_trans; [exact H1|]. rewrite <- Em.
      eapply N.lt_trans; [apply (mod_bounds L psi NP P inv HW 1); lia|reflexivity]. }
    rewrite <- Hh. split; assumption.
Qed.
Print Assumptions C66_database.

(** Not so for a second call of SetDatabase: with several partitions the words are appended, and
    every query is still answered from the first database. *)
Theorem C66_second_database : forall min_root invert inv L moduli psi NP P avx q2 parts parts' pks query c left right conv packing outs,
  server_setup min_root invert inv L moduli psi NP P ->
  keys_stand L moduli psi P pks left right conv packing ->
  (sp_g P <= length left)%nat -> (0 < sp_stop P < length right \/ sp_g P <= length right)%nat ->
  stands_raw L (sp_q P) 2 1 query (fun r _ => ct_row c r) ->
  Forall (db_ok L P) parts -> Forall (db_ok L P) parts' -> (1 < length parts)%nat -> length parts' = length parts ->
  (forall pidx, (pidx < length parts)%nat ->
     process_query P left right conv packing (db_poly P (pt_of L (nth pidx parts []))) c = Ok (outs pidx)) ->
  exists db single db', set_database avx NP P [] parts = Ok (db, single) /\ set_database avx NP P db parts' = Ok (db', single)
    /\ w_process_query avx NP inv P q2 db' single (length parts') pks query
       = map_out (fun pidx => mod_switch (2 ^ L) (response_mat P (outs pidx)) (nprod moduli) (Z.to_N (sp_p P)) q2) (seq 0 (length parts)).
Proof.
  intros min_root invert inv L moduli psi NP P avx q2 parts parts' pks query c left right conv packing outs HS HK Hg Hst Hq Hdb Hdb' Hl Hl' Ho.
  destruct (setup_srv _ _ _ _ _ _ _ _ HS) as [HW Em].
  destruct HS as (_ & _ & _ & _ & _ & S6 & S7 & S8 & S9 & S10 & S11 & S12 & S13 & S14 & S15 & S16).
  destruct HK as ((K1 & K2) & (K3 & K4) & (cw & K5 & K6) & K7 & K8).
  destruct (set_database_again_r avx L psi NP P inv HW S7 S8 parts parts' Hdb Hdb' Hl Hl') as (db & single & db' & E0 & E1 & E2).
  exists db, single, db'. split; [exact E0|]. split; [exact E1|]. rewrite Hl'.
  destruct (rawm_stands L psi NP P inv HW S7 2 1 query _ Hq) as (b & B1 & B2 & B3).
  replace (nprod moduli) with (w_modulus P) by (unfold w_modulus; rewrite S6; apply N2Z.id).
  eapply (process_query_r avx L psi NP P inv HW S7 q2 db' single (length parts) pks query b c left right conv cw packing
           (fun pidx => db_poly P (pt_of L (nth pidx parts [])))); eauto.
  - split; [exact K1|]. intros i Hi. apply (nttm_stands L psi NP P inv HW S7). rewrite Em. apply K2. lia.
  - split; [exact K3|]. intros i Hi. apply (nttm_stands L psi NP P inv HW S7). rewrite Em. apply K4. lia.
  - lia.
  - lia.
  - apply (nttm_stands L psi NP P inv HW S7). rewrite Em. exact K6.
  - split; [exact K7|]. intros i Hi. apply (nttm_stands L psi NP P inv HW S7). rewrite Em. apply K8. exact Hi.
  - lia.
Qed.
Print Assumptions C66_second_database.

(** Loading a second database of several partitions does not replace the first. *)
Definition c66_params : sel_params := SelParams 8 66974689739603969 56 4 1 2 2 2 2 1 1.
Definition c66_moduli : list N := [268369921; 249561089].
Definition c66_raw (rows cols seed : nat) : raw_mat :=
  RawMat rows cols (map (fun i => N.of_nat (seed * i + 7) ^ 9 mod 66974689739603969) (seq 0 (rows * cols * 8))).
Definition c66_db (seed : nat) : list (list N) :=
  map (fun i => map (fun z => N.of_nat (seed * i + z * z * i + z) mod 4) (seq 0 8)) (seq 0 4).

Lemma c66_db_ok : forall s, db_ok 3 c66_params (c66_db s).
Proof.
  intros s. split; [cbn; lia|]. intros item Hi. change (2 ^ sp_v1 c66_params * 2 ^ sp_v2 c66_params)%nat with 4%nat in Hi.
  unfold c66_db. rewrite nth_seq_map by exact Hi. split; [rewrite map_length, seq_length; cbn; lia|].
  intros x Hx. change (sp_n c66_params * sp_n c66_params * 2 ^ 3)%nat with 8%nat in Hx. rewrite nth_seq_map by exact Hx.
  apply N.mod_lt. discriminate.
Qed.
Lemma c66_dbs_ok : forall s t, Forall (db_ok 3 c66_params) [c66_db s; c66_db t].
Proof. intros s t. apply Forall_cons; [apply c66_db_ok|]. apply Forall_cons; [apply c66_db_ok|]. apply Forall_nil. Qed.

Theorem C66_reload_refuted : exists NP parts parts' db db' fresh single,
  server_setup c65_root inverse_mod c65_inv 3 c66_moduli c65_psi NP c66_params
  /\ Forall (db_ok 3 c66_params) parts /\ Forall (db_ok 3 c66_params) parts' /\ length parts = 2%nat /\ length parts' = 2%nat
  /\ set_database true NP c66_params [] parts = Ok (db, single)
  /\ set_database true NP c66_params db parts' = Ok (db', single)
  /\ set_database true NP c66_params [] parts' = Ok (fresh, single)
  /\ firstn (2 * single) db' = db /\ db <> fresh.
Proof.
  destruct (make_params c65_root inverse_mod (2 ^ 3) c66_moduli) as [NP| | |] eqn:E; try (vm_compute in E; discriminate E).
  exists NP, [c66_db 3; c66_db 5], [c66_db 3; c66_db 6].
  assert (Hs : server_setup c65_root inverse_mod c65_inv 3 c66_moduli c65_psi NP c66_params).
  { split; [exact (proj1 C65_example)|]. split; [exact E|]. split; [exact (proj1 (proj2 C65_example))|].
    assert (Em : np_moduli NP = c66_moduli).
    { destruct (setup_params _ _ _ _ _ _ (proj1 C65_example) E) as (_ & -> & _). reflexivity. }
    repeat (split; [cbn; lia|]). unfold small_digits. rewrite Em.
    assert (S2 : (1 <= 2)%nat /\ forall k, (k < 2)%nat -> (2 ^ Z.of_nat (bits_for c66_params 2) <= 4 * Z.of_N (nth k c66_moduli 0%N))%Z).
    { split; [lia|]. intros [|[|k]] Hk; [| |lia]; vm_compute; discriminate. }
    split; [exact S2|]. split; [exact S2|]. vm_compute. repeat constructor. }
  vm_compute in E. injection E as <-.
  do 4 eexists. split; [exact Hs|]. split; [apply c66_dbs_ok|]. split; [apply c66_dbs_ok|].
  split; [reflexivity|]. split; [reflexivity|]. split; [vm_compute; reflexivity|]. split; [vm_compute; reflexivity|].
  split; [vm_compute; reflexivity|]. split; [vm_compute; reflexivity|]. discriminate.
Qed.
Print Assumptions C66_reload_refuted.

(** Keys, query and databases to which the theorems apply. *)
Definition c66_ct (m : raw_mat) (k : nat) : ct :=
  (entries 3 m 0%nat k, entries 3 m 1%nat k).

Lemma c66_key : forall NP avx rows cols seed, server_setup c65_root inverse_mod c65_inv 3 c66_moduli c65_psi NP c66_params ->
  exists m, to_ntt avx NP (c66_raw rows cols seed) = Ok m /\ stands_ntt 3 c66_moduli c65_psi rows cols m (entries 3 (c66_raw rows cols seed)).
Proof.
  intros NP avx rows cols seed (H1 & H2 & _).
  destruct (C65_to_ntt _ _ _ _ _ _ avx (c66_raw rows cols seed) H1 H2) as (m & M1 & M2 & M3 & M4).
  - split; [unfold c66_raw; cbn [rm_rows rm_cols rm_data]; rewrite map_length, seq_length; reflexivity|]. intros k.
    unfold c66_raw. cbn [rm_data]. destruct (Nat.lt_ge_cases k (rows * cols * 8)) as [C|C].
    + rewrite nth_seq_map by exact C. eapply N.lt_trans; [apply N.mod_lt; discriminate|reflexivity].
    + rewrite nth_overflow by (rewrite map_length, seq_length; exact C). reflexivity.
  - exists m. split; [exact M1|]. split; [exact M2|]. split; [exact M3|]. unfold NttProps.holds in M4. rewrite M2, M3 in M4. exact M4.
Qed.

Example C66_example : forall avx, exists NP pks left right conv packing c outs,
  server_setup c65_root inverse_mod c65_inv 3 c66_moduli c65_psi NP c66_params
  /\ keys_stand 3 c66_moduli c65_psi c66_params pks left right conv packing
  /\ length left = 2%nat /\ length right = 2%nat /\ sp_g c66_params = 2%nat /\ sp_stop c66_params = 1%nat
  /\ stands_raw 3 (sp_q c66_params) 2 1 (c66_raw 2 1 9) (fun r _ => ct_row c r)
  /\ Forall (db_ok 3 c66_params) [c66_db 3; c66_db 5]
  /\ exists db single, set_database avx NP c66_params [] [c66_db 3; c66_db 5] = Ok (db, single)
     /\ w_process_query avx NP c65_inv c66_params 786433 db single 2 pks (c66_raw 2 1 9)
        = map_out (fun pidx => mod_switch 8 (response_mat c66_params (outs pidx)) 66974689739603969 4 786433) [0; 1]%nat.
Proof.
  intros avx. destruct C66_reload_refuted as (NP & _ & _ & _ & _ & _ & _ & HS & _). exists NP.
  destruct (c66_key NP avx 2 2 1 HS) as (k1 & _ & K1). destruct (c66_key NP avx 2 2 2 HS) as (k2 & _ & K2).
  destruct (c66_key NP avx 2 2 3 HS) as (k3 & _ & K3). destruct (c66_key NP avx 2 2 5 HS) as (k5 & _ & K5).
  destruct (c66_key NP avx 2 2 6 HS) as (k6 & _ & K6). destruct (c66_key NP avx 2 4 8 HS) as (k8 & _ & K8).
  set (left := [c66_ct (c66_raw 2 2 2); c66_ct (c66_raw 2 2 3)]). set (right := [c66_ct (c66_raw 2 2 5); c66_ct (c66_raw 2 2 6)]).
  set (conv := c66_ct (c66_raw 2 4 8)). set (packing := [fun k r => entries 3 (c66_raw 2 2 1) r k]).
  set (c := c66_ct (c66_raw 2 1 9) 0%nat).
  set (ask := fun pidx => process_query c66_params left right conv packing (db_poly c66_params (pt_of 3 (nth pidx [c66_db 3; c66_db 5] []))) c).
  set (outs := fun pidx => match ask pidx with Ok o => o | _ => fun _ _ => pzero end).
  assert (Ho : forall pidx, (pidx < 2)%nat -> ask pidx = Ok (outs pidx)).
  { intros pidx _. unfold outs. assert (exists o, ask pidx = Ok o) as (o & ->); [|reflexivity]. eexists. reflexivity. }
  exists (PublicKeys [k1] [k2; k3] [k5; k6] [k8]), left, right, conv, packing, c, outs.
  assert (row : forall m a cols, stands_ntt 3 c66_moduli c65_psi 2 cols m a ->
            forall b, (forall r k, (r < 2)%nat -> b r k = a r k) -> stands_ntt 3 c66_moduli c65_psi 2 cols m b).
  { intros m a cols (A1 & A2 & A3 & A4) b Hb. split; [exact A1|]. split; [exact A2|]. split; [exact A3|].
    intros r k x i Hr Hk Hx Hi. rewrite Hb by exact Hr. apply A4; assumption. }
  assert (HK : keys_stand 3 c66_moduli c65_psi c66_params (PublicKeys [k1] [k2; k3] [k5; k6] [k8]) left right conv packing).
  { split; [|split; [|split; [|split]]].
    - split; [reflexivity|]. intros [|[|i]] Hi; [| |cbn in Hi; lia]; (eapply row; [eassumption|]); intros [|[|r]] k Hr; try lia; reflexivity.
    - split; [reflexivity|]. intros [|[|i]] Hi; [| |cbn in Hi; lia]; (eapply row; [eassumption|]); intros [|[|r]] k Hr; try lia; reflexivity.
    - exists k8. split; [reflexivity|]. eapply row; [exact K8|]. intros [|[|r]] k Hr; try lia; reflexivity.
    - reflexivity.
    - intros [|i] Hi; [|cbn in Hi; lia]. exact K1. }
  assert (HQ : stands_raw 3 (sp_q c66_params) 2 1 (c66_raw 2 1 9) (fun r _ => ct_row c r)).
  { split; [reflexivity|]. split; [reflexivity|]. split; [reflexivity|]. split; [repeat constructor|].
    intros [|[|r]] [|k] z Hr Hk Hz; try lia; exists 0%Z; unfold c, c66_ct, entries, coeff; cbn [ct_row fst snd rm_cols c66_raw];
      change (2 ^ 3)%nat with 8%nat; lia. }
  assert (HD : Forall (db_ok 3 c66_params) [c66_db 3; c66_db 5]).
  { apply c66_dbs_ok. }
  split; [exact HS|]. split; [exact HK|]. split; [reflexivity|]. split; [reflexivity|]. split; [reflexivity|]. split; [reflexivity|].
  split; [exact HQ|]. split; [exact HD|].
  apply (C66_answer _ _ _ _ _ _ _ _ avx 786433 [c66_db 3; c66_db 5] _ (c66_raw 2 1 9) c left right conv packing outs HS HK); try assumption.
  - apply le_n.
  - left. split; [apply le_n|cbn; lia].
  - cbn. lia.
Qed.
Print Assumptions C66_example.
