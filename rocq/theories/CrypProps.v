(** Theorems about the cryptors of every curve type on every machine. *)
From Coq Require Import List NArith Arith Bool Lia Permutation.
From Verif Require Import Base BaseProofs Text TextProofs StoreModel CrypModel CrypSpec CrypProofs CrypProofs2.
Import ListNotations.
Local Open Scope N_scope.

(** A cryptor exists exactly for the five types, FourQ on x86 only with AVX2. *)
Theorem C101_created_when : forall m t,
  (exists c, create_cryptor m t = Ok c) <-> 1 <= t <= 5 /\ (t = 2 -> x86 m = true -> avx2 m = true).
Proof.
  intros m t. split.
  - intros (c & H). apply create_cases in H.
    destruct H as [([-> | ->] & _) | [(-> & _ & H) | ([-> | ->] & _)]]; (split; [lia|intros E X; try discriminate E]).
    rewrite X in H. destruct (avx2 m); [reflexivity|discriminate H].
  - intros (B & F). assert (t = 1 \/ t = 2 \/ t = 3 \/ t = 4 \/ t = 5) as [-> | [-> | [-> | [-> | ->]]]] by lia;
    unfold create_cryptor, ipp_cryptor, fourq_cryptor; try (destruct (x86 m && ifma m); eexists; reflexivity); try (eexists; reflexivity).
    destruct (x86 m) eqn:X; [rewrite (F eq_refl eq_refl)|]; eexists; reflexivity.
Qed.
(** Its curve is the documented one for every type but CURVE_SECP256K1 (missing: type 4, false). *)
Theorem C101_curve_partial : forall m t c, create_cryptor m t = Ok c -> t <> 4 -> documented_group t = Some (c_group c).
Proof.
  intros m t c H N4. apply create_cases in H.
  destruct H as [([-> | ->] & -> & _) | [(-> & -> & _) | ([-> | ->] & ->)]]; try reflexivity. contradiction.
Qed.
(** With CURVE_SECP256K1 the cryptor says secp256k1 and computes on SM2, on every machine. *)
Theorem C101_secp256k1_refuted : exists t, forall m, exists c,
  create_cryptor m t = Ok c /\ c_reports c = t /\ c_group c = GSm2 /\ documented_group t = Some GSecp256k1.
Proof. exists 4. intros m. exists (sm2_cryptor 4). repeat split. Qed.
(** The OPRF of unbalanced PSI uses the documented curve; clients and servers take the same types. *)
Theorem C101_oprf : forall m basic t g,
  (oprf_server m basic t = Ok g <->
   basic = true /\ 2 <= t <= 4 /\ documented_group t = Some g /\ (t = 2 -> x86 m = true -> avx2 m = true)) /\
  oprf_client m basic t = oprf_server m basic t.
Proof.
  intros m basic t g. split; [|unfold oprf_client, oprf_server; destruct basic; reflexivity].
  unfold oprf_server, group_id. destruct basic; cbn [negb]; [|split; [discriminate|intros (E & _); discriminate E]].
  type_cases t; cbn [documented_group]; try (split; [discriminate|lia]);
    try (split; [intros E; injection E as <-; repeat split; (lia || discriminate)|intros (_ & _ & E & _); congruence]).
  destruct (x86 m), (avx2 m); cbn [andb negb];
    (split; [intros E; try discriminate E; injection E as <-; repeat split; (lia || congruence)
            |intros (_ & _ & E & F); try congruence; specialize (F eq_refl eq_refl); discriminate F]).
Qed.
(** Machines with different processors agree on curve, hash and reported type. *)
Theorem C101_machines : forall m m' t c c', create_cryptor m t = Ok c -> create_cryptor m' t = Ok c' ->
  c_group c = c_group c' /\ c_hash c = c_hash c' /\ c_reports c = c_reports c'.
Proof.
  intros m m' t c c' H H'. apply create_cases in H, H'.
  destruct H as [(T & -> & -> & -> & _) | [(-> & -> & _) | (T & ->)]];
  destruct H' as [(T' & -> & -> & -> & _) | [(T' & -> & _) | (T' & ->)]]; try lia; repeat split.
Qed.

Section Props.
Variables (mul : group -> N -> bytes -> option bytes) (lane : bytes -> bytes -> bytes * bool) (hash_to : hash_kind -> bytes -> bytes).

(** Whatever the ranges, the order of their steps and the library: the masks are the products in the
    order of the points; a point without a product makes the call throw, and nothing else does. *)
Theorem C101_mask : forall m t c key points r, libraries_agree mul lane -> create_cryptor m t = Ok c -> run_of (length points) r ->
  ecc_mask mul lane c key points r = all_or_throw (image (mul (c_group c) (scalar key)) points).
Proof. intros. eapply ecc_mask_ok; eassumption. Qed.

(** Two parties with one curve type on any machines: an item masked by one and then the other ends
    as the same bytes as masked the other way round. *)
Theorem C101_double : forall m m' t c c' key key' items r1 r2 r3 r4 r5 r6,
  libraries_agree mul lane -> commuting mul -> create_cryptor m t = Ok c -> create_cryptor m' t = Ok c' ->
  Forall (run_of (length items)) [r1; r2; r3; r4; r5; r6] ->
  double_mask mul lane hash_to c c' key key' items r1 r2 r3 = double_mask mul lane hash_to c' c key' key items r4 r5 r6.
Proof.
  intros m m' t c c' key key' items r1 r2 r3 r4 r5 r6 Ha Hcm H H' R.
  repeat match goal with X : Forall _ (_ :: _) |- _ => inversion X; clear X; subst end.
  destruct (C101_machines m m' t c c' H H') as (Eg & Eh & _).
  rewrite (double_ok mul lane hash_to Ha m t c m' t c') by (assumption || congruence).
  rewrite (double_ok mul lane hash_to Ha m' t c' m t c) by (assumption || congruence).
  f_equal. rewrite Eg, Eh. apply image_ext. intros x. apply Hcm.
Qed.

(** A key taken from one party's cryptor is accepted by another machine's cryptor of the same type,
    and the masks go on as before. *)
Theorem C101_key_moves : forall m m' t c c' random points r r', libraries_agree mul lane ->
  create_cryptor m t = Ok c -> create_cryptor m' t = Ok c' -> length random = 32%nat ->
  run_of (length points) r -> run_of (length points) r' ->
  exists k, set_key (new_key c random) = Ok k /\ ecc_mask mul lane c' k points r' = ecc_mask mul lane c (new_key c random) points r.
Proof.
  intros m m' t c c' random points r r' Ha H H' L R R'. exists (new_key c random). split.
  - unfold set_key, new_key. destruct (c_lib c); rewrite ?clamp_len, L; reflexivity.
  - rewrite (ecc_mask_ok mul lane Ha m t c) by assumption. rewrite (ecc_mask_ok mul lane Ha m' t c') by assumption.
    destruct (C101_machines m m' t c c' H H') as (-> & _). reflexivity.
Qed.
End Props.

(** The check of the configurations passes exactly for one target rank and one type, or for the two
    types of Curve25519. *)
Theorem C101_check : forall m m' t t' c c' target target', create_cryptor m t = Ok c -> create_cryptor m' t' = Ok c' ->
  (check_config target c (config_text target' c') = Ok tt <->
   target = target' /\ (t = t' \/ (t = 1 \/ t = 5) /\ (t' = 1 \/ t' = 5))).
Proof.
  intros m m' t t' c c' target target' H H'. rewrite check_config_iff. apply create_cases in H, H'.
  destruct H as [(T & _ & _ & -> & _) | [(-> & -> & _) | (T & ->)]];
  destruct H' as [(T' & _ & _ & -> & _) | [(-> & -> & _) | (T' & ->)]]; cbn [c_reports]; lia.
Qed.
(** So parties that chose CURVE_25519 and CURVE_25519_ELLIGATOR2 go on, and an item both hold ends in
    different bytes whenever its two hashes differ. *)
Theorem C101_mismatch_refuted : exists t t', t <> t' /\ forall m m' c c' target,
  create_cryptor m t = Ok c -> create_cryptor m' t' = Ok c' ->
  check_config target c (config_text target c') = Ok tt /\ check_config target c' (config_text target c) = Ok tt /\
  forall mul lane hash_to key key' x r1 r2 r3 r4 r5 r6 y z,
    libraries_agree mul lane -> commuting mul -> (forall g a p q v, mul g a p = Some v -> mul g a q = Some v -> p = q) ->
    hash_to HSha256 x <> hash_to HElligator2 x -> Forall (run_of 1) [r1; r2; r3; r4; r5; r6] ->
    double_mask mul lane hash_to c c' key key' [x] r1 r2 r3 = Ok y ->
    double_mask mul lane hash_to c' c key' key [x] r4 r5 r6 = Ok z -> y <> z.
Proof.
  exists 1, 5. split; [discriminate|]. intros m m' c c' target H H'.
  split; [apply (C101_check m m' 1 5 c c' target target H H'); auto|].
  split; [apply (C101_check m' m 5 1 c' c target target H' H); auto|].
  intros mul lane hash_to key key' x r1 r2 r3 r4 r5 r6 y z Ha Hcm Inj Hx R Ey Ez E. subst z.
  repeat match goal with X : Forall _ (_ :: _) |- _ => inversion X; clear X; subst end.
  pose proof (create_cases _ _ _ H) as K. pose proof (create_cases _ _ _ H') as K'.
  destruct K as [(_ & G & Hh & _) | [(X & _) | ([X | X] & _)]]; try discriminate X.
  destruct K' as [(_ & G' & Hh' & _) | [(X & _) | ([X | X] & _)]]; try discriminate X.
  rewrite (double_ok mul lane hash_to Ha m 1 c m' 5 c') in Ey by (assumption || congruence).
  rewrite (double_ok mul lane hash_to Ha m' 5 c' m 1 c) in Ez by (assumption || congruence).
  rewrite G, Hh in Ey. rewrite G', Hh' in Ez. cbn in Ey, Ez. rewrite (Hcm _ (scalar key') (scalar key)) in Ez.
  unfold mul2 in Ey, Ez.
  destruct (mul GCurve25519 (scalar key) (hash_to HSha256 x)) as [p|] eqn:E1; [|discriminate].
  destruct (mul GCurve25519 (scalar key') p) as [p'|] eqn:E2; [|discriminate].
  destruct (mul GCurve25519 (scalar key) (hash_to HElligator2 x)) as [q|] eqn:E3; [|discriminate].
  destruct (mul GCurve25519 (scalar key') q) as [q'|] eqn:E4; [|discriminate].
  cbn in Ey, Ez. injection Ey as <-. injection Ez as ->.
  apply Hx. eapply (Inj GCurve25519 (scalar key)); [exact E1|]. rewrite E3. f_equal. eapply Inj; [exact E4|exact E2].
Qed.

(** New keys of the libsodium cryptors are X25519 keys, and clamping such a key again changes nothing. *)
Theorem C101_key_range : forall m t c random, create_cryptor m t = Ok c -> c_lib c = LSodium ->
  length random = 32%nat -> Forall is_byte random ->
  x25519_key (scalar (new_key c random)) /\ length (new_key c random) = 32%nat /\ clamp (new_key c random) = new_key c random.
Proof.
  intros m t c random _ El L B. unfold new_key. rewrite El.
  split; [apply clamp_range; assumption|]. split; [rewrite clamp_len; exact L|apply clamp_twice; exact L].
Qed.
(** Keys that are set are not clamped: three-party PSI sets random bytes. *)
Theorem C101_set_key_refuted : exists k, length k = 32%nat /\ Forall is_byte k /\ set_key k = Ok k /\ ~ x25519_key (scalar k).
Proof.
  exists (repeat 255 32). split; [reflexivity|]. split; [repeat constructor|]. split; [reflexivity|].
  intros (j & Hj & E). change (scalar (repeat 255 32)) with (2 ^ 256 - 1) in E. revert Hj E.
  change (2 ^ 256 - 1) with (4 * 2 ^ 254 - 1). lia.
Qed.

(** Twenty points in two ranges of ten on a machine with IFMA, one by one on a machine without; two
    parties with random keys. *)
Definition ex_mul (g : group) (k : N) (p : bytes) : option bytes := match p with [x] => if x =? 0 then None else Some [x + k] | _ => None end.
Definition ex_lane (k p : bytes) : bytes * bool := match p with [x] => if x =? 0 then ([], false) else ([x + scalar k], true) | _ => ([], false) end.
Definition ex_hash (h : hash_kind) (x : bytes) : bytes := [match h with HSha256 => 7 | _ => 900 end + scalar x].
Definition ex_fast : cpu := mk_cpu true true true.
Definition ex_slow : cpu := mk_cpu true true false.
Definition ex_points : list bytes := map (fun i => [N.of_nat i + 1]) (seq 0 20).
Definition ex_run : run := mk_run (rev (all_batches 0 [10%nat; 10%nat])) (rev (seq 0 20)).
Definition ex_key : bytes := 255 :: repeat 3 30 ++ [200].

Example C101_example :
  libraries_agree ex_mul ex_lane /\ commuting ex_mul /\ run_of 20 ex_run /\
  r_batches ex_run = [(18, 2); (10, 8); (8, 2); (0, 8)]%nat /\
  create_cryptor ex_fast 1 = Ok (mk_cryptor LIpp GCurve25519 HSha256 1) /\
  create_cryptor ex_slow 1 = Ok (mk_cryptor LSodium GCurve25519 HSha256 1) /\
  ecc_mask ex_mul ex_lane (mk_cryptor LIpp GCurve25519 HSha256 1) [5] ex_points ex_run = Ok (map (fun i => [N.of_nat i + 6]) (seq 0 20)) /\
  ecc_mask ex_mul ex_lane (mk_cryptor LSodium GCurve25519 HSha256 1) [5] ex_points ex_run = Ok (map (fun i => [N.of_nat i + 6]) (seq 0 20)) /\
  ecc_mask ex_mul ex_lane (mk_cryptor LIpp GCurve25519 HSha256 1) [5] (ex_points ++ [[0]]) (mk_run (all_batches 0 [21%nat]) []) = Throw /\
  new_key (mk_cryptor LSodium GCurve25519 HSha256 1) ex_key = 248 :: repeat 3 30 ++ [72] /\
  check_config 0 (mk_cryptor LIpp GCurve25519 HSha256 1) (config_text 1 (mk_cryptor LIpp GCurve25519 HSha256 1)) = Throw /\
  create_cryptor (mk_cpu true false false) 2 = Throw /\ oprf_server ex_fast true 4 = Ok GSecp256k1 /\ oprf_server ex_fast true 1 = Throw.
Proof.
  split. { intros k [|x [|y p]]; try reflexivity. cbn. destruct (x =? 0); reflexivity. }
  split. { intros g a b [|x [|y p]]; try reflexivity. unfold mul2, ex_mul. destruct (N.eqb_spec x 0); [reflexivity|].
    rewrite (proj2 (N.eqb_neq (x + a) 0)), (proj2 (N.eqb_neq (x + b) 0)) by lia. replace (x + a + b) with (x + b + a) by lia. reflexivity. }
  split. { split; [apply Permutation_rev|]. exists [10%nat; 10%nat]. split; [reflexivity|apply Permutation_rev]. }
  repeat split; vm_compute; reflexivity.
Qed.
(** The case of the refutation: one item, different hashes, both runs end with different bytes. *)
Example C101_mismatch_example :
  let a := mk_cryptor LIpp GCurve25519 HSha256 1 in let b := mk_cryptor LSodium GCurve25519 HElligator2 1 in
  let r := mk_run (all_batches 0 [1%nat]) [0%nat] in
  run_of 1 r /\ create_cryptor ex_fast 1 = Ok a /\ create_cryptor ex_slow 5 = Ok b /\
  check_config 0 a (config_text 0 b) = Ok tt /\
  double_mask ex_mul ex_lane ex_hash a b [2] [3] [[65]] r r r = Ok [[77]] /\
  double_mask ex_mul ex_lane ex_hash b a [3] [2] [[65]] r r r = Ok [[970]].
Proof.
  cbv zeta. split. { split; [apply Permutation_refl|]. exists [1%nat]. split; [reflexivity|apply Permutation_refl]. }
  repeat split; vm_compute; reflexivity.
Qed.

Print Assumptions C101_created_when.
Print Assumptions C101_curve_partial.
Print Assumptions C101_secp256k1_refuted.
Print Assumptions C101_oprf.
Print Assumptions C101_machines.
Print Assumptions C101_mask.
Print Assumptions C101_double.
Print Assumptions C101_key_moves.
Print Assumptions C101_check.
Print Assumptions C101_mismatch_refuted.
Print Assumptions C101_key_range.
Print Assumptions C101_set_key_refuted.
