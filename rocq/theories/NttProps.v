(** C65: Spiral's transform evaluates at the odd powers of the root, multiplication in transformed form
    is multiplication modulo X^n + 1, and coming back returns the coefficients. *)
From Coq Require Import List Arith NArith ZArith Bool Lia.
From Verif Require Import Base SpArithModel SpGadgetModel SpGadgetSpec SpDecodeModel SpDecodeSpec SpDecodeProps
  NttModel NttSpec NttProofs NttProofs3 NttProofs4 NttProofs5 NttProofs6.
Import ListNotations.
Local Open Scope N_scope.

(** n = 2^L; odd moduli of less than 30 bits; for each of them SEAL finds a 2n-th root of unity
    psi (psi^n = -1), and it inverts what can be inverted. *)
Definition ntt_setup (min_root invert : N -> N -> option N) (L : nat) (moduli : list N) (psi : nat -> Z) : Prop :=
  (2 <= L)%nat /\ (1 <= length moduli <= 4)%nat
  /\ (forall x m, N.gcd x m = 1 -> 1 < m -> exists y, invert x m = Some y /\ y < m /\ (x * y) mod m = 1)
  /\ forall c, (c < length moduli)%nat -> let m := nth c moduli 0 in
       2 < m /\ m < 2 ^ 30 /\ N.odd m = true
       /\ exists r, min_root (2 * N.of_nat (2 ^ L)) m = Some r /\ 0 < r /\ r < m
          /\ psi c = Z.of_N r /\ is_root (Z.of_N m) (2 ^ L) (psi c).

(** One modulus, or two without a common factor, and a correct InvertUintMod. *)
Definition crt_setup (inv : N -> N -> N) (moduli : list N) : Prop :=
  (length moduli = 1%nat \/ length moduli = 2%nat /\ N.gcd (nth 0 moduli 0) (nth 1 moduli 0) = 1)
  /\ forall x m, N.gcd x m = 1 -> 1 < m -> inv x m < m /\ (x * inv x m) mod m = 1.

(** A matrix of polynomials with n coefficients, all of them uint64_t. *)
Definition raw_ok (L : nat) (m : raw_mat) : Prop :=
  length (rm_data m) = (rm_rows m * rm_cols m * 2 ^ L)%nat /\ forall k, nth k (rm_data m) 0 < 2 ^ 64.
Definition entries (L : nat) (m : raw_mat) (r c z : nat) : Z := Z.of_N (coeff (2 ^ L) (rm_cols m) (rm_data m) r c z).
Definition holds (L : nat) (moduli : list N) (psi : nat -> Z) (m : raw_mat) (a : nat -> nat -> nat -> Z) : Prop :=
  is_transform L moduli psi (rm_rows m) (rm_cols m) (rm_data m) a.

Lemma setup_params : forall min_root invert L moduli psi P, ntt_setup min_root invert L moduli psi ->
  make_params min_root invert (2 ^ L) moduli = Ok P -> np_len P = (2 ^ L)%nat /\ np_moduli P = moduli /\ params_ok L psi P.
Proof.
  intros min_root invert L moduli psi P (H1 & H2 & H3 & H4) E.
  destruct (make_params_ok min_root invert L moduli psi H1 H2 H3 H4) as (P' & E' & R). rewrite E in E'. injection E' as <-. exact R.
Qed.

(** Params can be built. *)
Theorem C65_params : forall min_root invert L moduli psi, ntt_setup min_root invert L moduli psi ->
  exists P, make_params min_root invert (2 ^ L) moduli = Ok P.
Proof.
  intros min_root invert L moduli psi (H1 & H2 & H3 & H4).
  destruct (make_params_ok min_root invert L moduli psi H1 H2 H3 H4) as (P' & E' & _). exists P'. exact E'.
Qed.
Print Assumptions C65_params.

(** ToNtt, in either build, returns the values of every polynomial at the points of every modulus. *)
Theorem C65_to_ntt : forall min_root invert L moduli psi P avx m, ntt_setup min_root invert L moduli psi ->
  make_params min_root invert (2 ^ L) moduli = Ok P -> raw_ok L m ->
  exists m', to_ntt avx P m = Ok m' /\ rm_rows m' = rm_rows m /\ rm_cols m' = rm_cols m /\ holds L moduli psi m' (entries L m).
Proof.
  intros min_root invert L moduli psi P avx m HS E [H1 H2]. destruct (setup_params _ _ _ _ _ _ HS E) as (N1 & N2 & HP).
  unfold holds. rewrite <- N2. apply (to_ntt_ok L psi P HP avx m H1 H2).
Qed.
Print Assumptions C65_to_ntt.

(** ToNttNoReduce does the same when there are two moduli and the coefficients are below four times
    each of them. *)
Theorem C65_to_ntt_no_reduce : forall min_root invert L moduli psi P avx m, ntt_setup min_root invert L moduli psi ->
  make_params min_root invert (2 ^ L) moduli = Ok P -> length moduli = 2%nat ->
  length (rm_data m) = (rm_rows m * rm_cols m * 2 ^ L)%nat ->
  (forall k c, (c < 2)%nat -> nth k (rm_data m) 0 < 4 * nth c moduli 0) ->
  exists m', to_ntt_no_reduce avx P m = Ok m' /\ rm_rows m' = rm_rows m /\ rm_cols m' = rm_cols m
    /\ holds L moduli psi m' (entries L m).
Proof.
  intros min_root invert L moduli psi P avx m HS E H2 H3 H4. destruct (setup_params _ _ _ _ _ _ HS E) as (N1 & N2 & HP).
  unfold holds. rewrite <- N2 in *. apply (to_ntt_no_reduce_ok L psi P HP avx m H2 H3).
  intros r c z k Hk. apply H4. lia.
Qed.
Print Assumptions C65_to_ntt_no_reduce.

(** Multiply on transformed matrices is the product of the matrices modulo X^n + 1; the operands need only
    be reduced up to one copy of the modulus. *)
Theorem C65_multiply : forall min_root invert L moduli psi P avx ma mb a b, ntt_setup min_root invert L moduli psi ->
  make_params min_root invert (2 ^ L) moduli = Ok P -> rm_cols ma = rm_rows mb ->
  holds L moduli psi ma a -> holds L moduli psi mb b ->
  exists m', multiply_ntt avx P ma mb = Ok m' /\ rm_rows m' = rm_rows ma /\ rm_cols m' = rm_cols mb
    /\ holds L moduli psi m' (mat_product (2 ^ L) (rm_cols ma) a b).
Proof.
  intros min_root invert L moduli psi P avx ma mb a b HS E Hd. destruct (setup_params _ _ _ _ _ _ HS E) as (N1 & N2 & HP).
  unfold holds. rewrite <- N2. apply (multiply_ok L psi P HP avx ma mb a b Hd).
Qed.
Print Assumptions C65_multiply.

(** Add on transformed matrices is the sum. *)
Theorem C65_add : forall min_root invert L moduli psi P ma mb a b, ntt_setup min_root invert L moduli psi ->
  make_params min_root invert (2 ^ L) moduli = Ok P -> rm_rows ma = rm_rows mb -> rm_cols ma = rm_cols mb ->
  holds L moduli psi ma a -> holds L moduli psi mb b ->
  exists m', add_ntt P ma mb = Ok m' /\ rm_rows m' = rm_rows ma /\ rm_cols m' = rm_cols ma
    /\ holds L moduli psi m' (fun r c z => (a r c z + b r c z)%Z).
Proof.
  intros min_root invert L moduli psi P ma mb a b HS E Hd1 Hd2. destruct (setup_params _ _ _ _ _ _ HS E) as (N1 & N2 & HP).
  unfold holds. rewrite <- N2. apply (add_ok L psi P HP ma mb a b Hd1 Hd2).
Qed.
Print Assumptions C65_add.

(** FromNtt, in either build, returns the coefficients modulo the product of the moduli. *)
Theorem C65_from_ntt : forall min_root invert inv L moduli psi P avx m a, ntt_setup min_root invert L moduli psi ->
  make_params min_root invert (2 ^ L) moduli = Ok P -> crt_setup inv moduli -> holds L moduli psi m a ->
  exists m', from_ntt avx P inv m = Ok m' /\ rm_rows m' = rm_rows m /\ rm_cols m' = rm_cols m
    /\ length (rm_data m') = (rm_rows m * rm_cols m * 2 ^ L)%nat
    /\ forall r c z, (r < rm_rows m)%nat -> (c < rm_cols m)%nat -> (z < 2 ^ L)%nat ->
         entries L m' r c z = (a r c z mod Z.of_N (nprod moduli))%Z.
Proof.
  intros min_root invert inv L moduli psi P avx m a HS E [C1 C2] Ha. destruct (setup_params _ _ _ _ _ _ HS E) as (N1 & N2 & HP).
  unfold holds in Ha. rewrite <- N2 in *.
  destruct (from_ntt_ok L psi P HP avx inv m a) as (m' & F1 & F2 & F3 & F4 & F5); [tauto| |exact C2|exact Ha|].
  - intros H2. destruct C1 as [C1|[_ C1]]; [lia|exact C1].
  - exists m'. split; [exact F1|]. split; [exact F2|]. split; [exact F3|]. split; [|exact F5].
    unfold shaped in F4. rewrite F2, F3 in F4. exact F4.
Qed.
Print Assumptions C65_from_ntt.

(** What a caller does: FromNtt(Multiply(ToNtt(a), ToNtt(b))), in either build. *)
Definition ntt_product (avx : bool) (P : ntt_params) (inv : N -> N -> N) (a b : raw_mat) : outcome raw_mat :=
  do a <- to_ntt avx P a; do b <- to_ntt avx P b; do c <- multiply_ntt avx P a b; from_ntt avx P inv c.

Theorem C65_product : forall min_root invert inv L moduli psi P avx a b, ntt_setup min_root invert L moduli psi ->
  make_params min_root invert (2 ^ L) moduli = Ok P -> crt_setup inv moduli ->
  raw_ok L a -> raw_ok L b -> rm_cols a = rm_rows b ->
  exists m, ntt_product avx P inv a b = Ok m /\ rm_rows m = rm_rows a /\ rm_cols m = rm_cols b
    /\ length (rm_data m) = (rm_rows a * rm_cols b * 2 ^ L)%nat
    /\ forall r c z, (r < rm_rows a)%nat -> (c < rm_cols b)%nat -> (z < 2 ^ L)%nat ->
         entries L m r c z = (mat_product (2 ^ L) (rm_cols a) (entries L a) (entries L b) r c z mod Z.of_N (nprod moduli))%Z.
Proof.
  intros min_root invert inv L moduli psi P avx a b HS E HC Ha Hb Hd. unfold ntt_product.
  destruct (C65_to_ntt _ _ _ _ _ _ avx a HS E Ha) as (a' & -> & A1 & A2 & A3). cbn [bind].
  destruct (C65_to_ntt _ _ _ _ _ _ avx b HS E Hb) as (b' & -> & B1 & B2 & B3). cbn [bind].
  destruct (C65_multiply _ _ _ _ _ _ avx a' b' _ _ HS E ltac:(lia) A3 B3) as (c' & -> & C1 & C2 & C3). cbn [bind].
  rewrite A2 in C3.
  destruct (C65_from_ntt _ _ _ _ _ _ _ avx c' _ HS E HC C3) as (m & F1 & F2 & F3 & F4 & F5).
  rewrite C1, C2, A1, B2 in *. exists m. auto 6.
Qed.
Print Assumptions C65_product.

(** There and back. *)
Theorem C65_round_trip : forall min_root invert inv L moduli psi P avx a, ntt_setup min_root invert L moduli psi ->
  make_params min_root invert (2 ^ L) moduli = Ok P -> crt_setup inv moduli -> raw_ok L a ->
  exists a' m, to_ntt avx P a = Ok a' /\ from_ntt avx P inv a' = Ok m /\ rm_rows m = rm_rows a /\ rm_cols m = rm_cols a
    /\ length (rm_data m) = length (rm_data a)
    /\ forall r c z, (r < rm_rows a)%nat -> (c < rm_cols a)%nat -> (z < 2 ^ L)%nat ->
         entries L m r c z = (entries L a r c z mod Z.of_N (nprod moduli))%Z.
Proof.
  intros min_root invert inv L moduli psi P avx a HS E HC Ha.
  destruct (C65_to_ntt _ _ _ _ _ _ avx a HS E Ha) as (a' & A0 & A1 & A2 & A3).
  destruct (C65_from_ntt _ _ _ _ _ _ _ avx a' _ HS E HC A3) as (m & F1 & F2 & F3 & F4 & F5).
  exists a', m. destruct Ha as [Ha _]. rewrite A1, A2 in *. rewrite Ha. auto 8.
Qed.
Print Assumptions C65_round_trip.

(** The product C58 and C59 ask for, with the one modulus q2 of fewer than 30 bits. *)
Definition the_product (avx : bool) (P : ntt_params) (inv : N -> N -> N) (a b : raw_mat) : raw_mat :=
  match ntt_product avx P inv a b with Ok m => m | _ => RawMat 0 0 [] end.

Theorem C65_is_product : forall min_root invert inv L q2 psi P avx n, ntt_setup min_root invert L [q2] psi ->
  make_params min_root invert (2 ^ L) [q2] = Ok P -> crt_setup inv [q2] ->
  is_product (2 ^ L) n q2 (the_product avx P inv).
Proof.
  intros min_root invert inv L q2 psi P avx n HS E HC a b La Lb Fa Fb.
  assert (Hq : q2 < 2 ^ 30).
  { destruct HS as (_ & _ & _ & H). destruct (H 0%nat) as (_ & H0 & _); [cbn; lia|exact H0]. }
  assert (W : forall l, Forall (fun v => v < q2) l -> forall k, nth k l 0 < 2 ^ 64).
  { intros l Fl k. destruct (le_lt_dec (length l) k) as [Hk|Hk]; [rewrite nth_overflow by exact Hk; reflexivity|].
    rewrite Forall_forall in Fl. eapply N.lt_trans; [apply Fl, nth_In, Hk|]. eapply N.lt_trans; [exact Hq|reflexivity]. }
  destruct (C65_product _ _ _ _ _ _ _ avx (RawMat n 1 a) (RawMat 1 n b) HS E HC) as (m & M0 & M1 & M2 & M3 & M4).
  - split; cbn [rm_rows rm_cols rm_data]; [lia|apply W, Fa].
  - split; cbn [rm_rows rm_cols rm_data]; [lia|apply W, Fb].
  - reflexivity.
  - unfold the_product. rewrite M0. cbn [rm_rows rm_cols] in *. split; [exact M3|]. intros r c z Hr Hc Hz.
    specialize (M4 r c z Hr Hc Hz). unfold entries in M4. rewrite M2 in M4. cbn [rm_cols rm_data] in M4. rewrite M4.
    cbn [nprod fold_right]. rewrite N.mul_1_r. unfold mat_product, zsum. cbn [seq map fold_right]. rewrite Z.add_0_r. reflexivity.
Qed.
Print Assumptions C65_is_product.

(** So the client's decoding with the real transform returns the message (C58). *)
Theorem C65_decode_exact : forall min_root invert inv L psi P avx n q p q2 S h sk ct m E,
  ntt_setup min_root invert L [q2] psi -> make_params min_root invert (2 ^ L) [q2] = Ok P -> crt_setup inv [q2] ->
  (1 <= n)%nat -> 1 <= p -> q2 <= q -> q <= 2 ^ 60 -> 8 * p * q2 < 2 ^ 62 ->
  encrypts (2 ^ L) n q p S h sk ct m E -> noise_fits q p q2 h E -> (4 * q2 / p) mod p = 0 ->
  exists resp d, mod_switch (2 ^ L) ct q p q2 = Ok resp
    /\ decode_response (2 ^ L) (the_product avx P inv) n q p q2 sk resp = Ok (RawMat n n d)
    /\ length d = (n * n * 2 ^ L)%nat
    /\ forall r c z, (r < n)%nat -> (c < n)%nat -> (z < 2 ^ L)%nat -> coeff (2 ^ L) n d r c z = m r c z.
Proof.
  intros min_root invert inv L psi P avx n q p q2 S h sk ct m E HS HE HC Hn Hp Hqq Hq60 Hpq He Hno Hd.
  apply (C58_decode_exact (2 ^ L) n q p q2 (the_product avx P inv) S h sk ct m E); auto.
  - apply pow_pos2.
  - destruct HS as (_ & _ & _ & H). destruct (H 0%nat) as (H0 & _); [cbn; lia|]. cbn [nth] in H0. lia.
  - eapply C65_is_product; eauto.
Qed.
Print Assumptions C65_decode_exact.

(** * Instances *)
(** The least roots of order 16 for the moduli used below. *)
Definition c65_root (d m : N) : option N :=
  if negb (d =? 16) then None
  else if m =? 268369921 then Some 18186460
  else if m =? 249561089 then Some 766912
  else if m =? 786433 then Some 74616
  else if m =? 2013265921 then Some 78945800
  else if m =? 4293918721 then Some 806554333
  else None.
Definition c65_inv (x m : N) : N := match inverse_mod x m with Some y => y | None => 0 end.
Definition c65_psi (c : nat) : Z := match c with O => 18186460 | _ => 766912 end.

Lemma pow8_root : forall m r, ((Z.of_N r ^ 8 + 1) mod Z.of_N m = 0)%Z -> m <> 0 -> is_root (Z.of_N m) (2 ^ 3) (Z.of_N r).
Proof.
  intros m r H Hm. unfold is_root. change (Z.of_nat (2 ^ 3)) with 8%Z. exists ((Z.of_N r ^ 8 + 1) / Z.of_N m)%Z.
  pose proof (Z.div_mod (Z.of_N r ^ 8 + 1) (Z.of_N m) ltac:(lia)). lia.
Qed.

(** The default moduli (util.cc 48-51), eight coefficients; both builds. *)
Example C65_example :
  ntt_setup c65_root inverse_mod 3 [268369921; 249561089] c65_psi
  /\ crt_setup c65_inv [268369921; 249561089]
  /\ exists P, make_params c65_root inverse_mod (2 ^ 3) [268369921; 249561089] = Ok P
  /\ raw_ok 3 (RawMat 1 1 [0; 2; 0; 0; 0; 0; 0; 3]) /\ raw_ok 3 (RawMat 1 1 [0; 0; 0; 0; 0; 0; 5; 7])
  /\ forall avx, ntt_product avx P c65_inv (RawMat 1 1 [0; 2; 0; 0; 0; 0; 0; 3]) (RawMat 1 1 [0; 0; 0; 0; 0; 0; 5; 7])
     = Ok (RawMat 1 1 [66974689739603955; 0; 0; 0; 0; 66974689739603954; 66974689739603948; 10]).
Proof.
  assert (HS : ntt_setup c65_root inverse_mod 3 [268369921; 249561089] c65_psi).
  { split; [lia|]. split; [cbn; lia|]. split; [exact inverse_mod_ok|].
    intros [|[|c]] Hc; [| |cbn in Hc; lia]; cbn [nth]; (split; [reflexivity|]; split; [reflexivity|]; split; [reflexivity|]).
    - exists 18186460. split; [reflexivity|]. split; [reflexivity|]. split; [reflexivity|]. split; [reflexivity|].
      apply (pow8_root 268369921 18186460); [reflexivity|discriminate].
    - exists 766912. split; [reflexivity|]. split; [reflexivity|]. split; [reflexivity|]. split; [reflexivity|].
      apply (pow8_root 249561089 766912); [reflexivity|discriminate]. }
  split; [exact HS|]. split.
  - split; [right; split; [reflexivity|vm_compute; reflexivity]|]. intros x m Hg Hm. unfold c65_inv.
    destruct (inverse_mod_ok x m Hg Hm) as (y & -> & Y). exact Y.
  - destruct (make_params c65_root inverse_mod (2 ^ 3) [268369921; 249561089]) as [P| | |] eqn:E;
      try (vm_compute in E; discriminate E).
    exists P. split; [reflexivity|]. split; [split; [reflexivity|]; intros k; do 9 (destruct k as [|k]; [reflexivity|]); reflexivity|].
    split; [split; [reflexivity|]; intros k; do 9 (destruct k as [|k]; [reflexivity|]); reflexivity|].
    vm_compute in E. injection E as <-. intros [|]; vm_compute; reflexivity.
Qed.

(** Two moduli without the first reduction: coefficients up to four times the moduli. *)
Example C65_example_no_reduce :
  (forall k c, (c < 2)%nat -> nth k [900000000; 2; 0; 998244355; 0; 0; 0; 3] 0 < 4 * nth c [268369921; 249561089] 0)
  /\ exists P m m', make_params c65_root inverse_mod (2 ^ 3) [268369921; 249561089] = Ok P
  /\ forall avx : bool, to_ntt_no_reduce avx P (RawMat 1 1 [900000000; 2; 0; 998244355; 0; 0; 0; 3]) = Ok (if avx then m else m')
  /\ from_ntt avx P c65_inv (if avx then m else m') = Ok (RawMat 1 1 [900000000; 2; 0; 998244355; 0; 0; 0; 3]).
Proof.
  split.
  { intros k c Hc. destruct c as [|[|c]]; [| |lia]; do 9 (destruct k as [|k]; [reflexivity|]); reflexivity. }
  do 3 eexists. split; [vm_compute; reflexivity|]. intros [|]; (split; [vm_compute; reflexivity|vm_compute; reflexivity]).
Qed.

(** A ciphertext under the key X with noise up to 1000000, decoded with q2_bits = 20. *)
Definition c65_key : raw_mat := RawMat 1 1 [0; 1; 0; 0; 0; 0; 0; 0].
Definition c65_ct : raw_mat := RawMat 2 1 [1000; 0; 0; 66974689739603968; 0; 0; 0; 5;
  20144730899240261; 1308099407975640; 0; 66713069857808647; 261619881795322; 3; 33487344869801986; 2354578936157953].
Definition c65_message : list N := [77; 5; 0; 255; 1; 0; 128; 9].
Example C65_example_decode :
  ntt_setup c65_root inverse_mod 3 [786433] (fun _ => 74616%Z) /\ crt_setup c65_inv [786433]
  /\ encrypts (2 ^ 3) 1 66974689739603969 256 (fun _ i => if (i =? 1)%nat then 1%Z else 0%Z) 1 c65_key c65_ct
       (fun _ _ z => nth z c65_message 0) 1000000
  /\ noise_fits 66974689739603969 256 786433 1 1000000 /\ (4 * 786433 / 256) mod 256 = 0
  /\ 786433 = nth 20 k_q2_values 0
  /\ exists P resp, make_params c65_root inverse_mod (2 ^ 3) [786433] = Ok P
     /\ mod_switch (2 ^ 3) c65_ct 66974689739603969 256 786433 = Ok resp
     /\ forall avx, decode_response (2 ^ 3) (the_product avx P c65_inv) 1 66974689739603969 256 786433 c65_key resp
        = Ok (RawMat 1 1 c65_message).
Proof.
  split.
  { split; [lia|]. split; [cbn; lia|]. split; [exact inverse_mod_ok|].
    intros [|c] Hc; [|cbn in Hc; lia]; cbn [nth]. split; [reflexivity|]. split; [reflexivity|]. split; [reflexivity|].
    exists 74616. split; [reflexivity|]. split; [reflexivity|]. split; [reflexivity|]. split; [reflexivity|].
    apply (pow8_root 786433 74616); [reflexivity|discriminate]. }
  split.
  { split; [left; reflexivity|]. intros x m Hg Hm. unfold c65_inv. destruct (inverse_mod_ok x m Hg Hm) as (y & -> & Y). exact Y. }
  split.
  { split; [reflexivity|]. split; [repeat constructor|]. split.
    { intros r i Hr Hi. assert (r = 0%nat) by lia. subst r.
      do 8 (destruct i as [|i]; [split; [exists 0%Z; reflexivity|reflexivity]|]). cbn in Hi. lia. }
    split; [intros r Hr; discriminate|]. split; [reflexivity|]. split; [reflexivity|]. split; [reflexivity|].
    split; [repeat constructor|]. exists (fun _ _ z => nth z [1000000; (-1000000); 0; 7; (-7); 3; 2; 1]%Z 0%Z). intros r c z Hr Hc Hz.
    assert (r = 0%nat) by lia. assert (c = 0%nat) by lia. subst r c.
    do 8 (destruct z as [|z]; [split; [reflexivity|]; split; [discriminate|];
      match goal with |- eqm ?q ?a ?b => exists ((a - b) / q)%Z end; vm_compute; reflexivity|]). cbn in Hz. lia. }
  split; [vm_compute; reflexivity|]. split; [reflexivity|]. split; [reflexivity|].
  do 2 eexists. split; [vm_compute; reflexivity|]. split; [vm_compute; reflexivity|].
  intros [|]; vm_compute; reflexivity.
Qed.

(** The two builds do not return the same words: the AVX2 comparisons are strict, so zero can come
    back as the modulus itself, which is not a reduced value. *)
Theorem C65_canonical_refuted : exists min_root invert L moduli psi P m mp ma,
  ntt_setup min_root invert L moduli psi /\ make_params min_root invert (2 ^ L) moduli = Ok P /\ raw_ok L m
  /\ to_ntt false P m = Ok mp /\ to_ntt true P m = Ok ma /\ rm_data mp <> rm_data ma
  /\ nth 1 (rm_data ma) 0 = nth 0 moduli 0.
Proof.
  destruct C65_example as (HS & _ & P & E & _).
  exists c65_root, inverse_mod, 3%nat, [268369921; 249561089], c65_psi, P, (RawMat 1 1 (repeat 0 8)).
  vm_compute in E. injection E as <-. do 2 eexists. split; [exact HS|]. split; [vm_compute; reflexivity|].
  split; [split; [reflexivity|]; intros k; do 9 (destruct k as [|k]; [reflexivity|]); reflexivity|].
  split; [vm_compute; reflexivity|]. split; [vm_compute; reflexivity|].
  split; [vm_compute; discriminate|vm_compute; reflexivity].
Qed.
Print Assumptions C65_canonical_refuted.

(** The bound of 30 bits cannot be dropped, although kQ2Values (common.h 101-137) offers larger q2: with
    31 bits the AVX2 build, with 32 bits the portable build does not return the polynomial that was
    transformed. *)
Theorem C65_large_modulus_refuted : forall avx : bool, exists min_root invert inv q2 r P a a' m,
  nth (if avx then 31 else 32)%nat k_q2_values 0 = q2 /\ N.odd q2 = true
  /\ (forall x m, N.gcd x m = 1 -> 1 < m -> exists y, invert x m = Some y /\ y < m /\ (x * y) mod m = 1)
  /\ min_root 16 q2 = Some r /\ 0 < r /\ r < q2 /\ is_root (Z.of_N q2) (2 ^ 3) (Z.of_N r)
  /\ make_params min_root invert (2 ^ 3) [q2] = Ok P
  /\ raw_ok 3 a /\ Forall (fun v => v < q2) (rm_data a)
  /\ to_ntt avx P a = Ok a' /\ from_ntt avx P inv a' = Ok m /\ rm_data m <> rm_data a.
Proof.
  intros avx. exists c65_root, inverse_mod, c65_inv, (if avx then 2013265921 else 4293918721), (if avx then 78945800 else 806554333).
  destruct (make_params c65_root inverse_mod (2 ^ 3) [if avx then 2013265921 else 4293918721]) as [P| | |] eqn:E;
    try (destruct avx; vm_compute in E; discriminate E).
  set (a := RawMat 1 1 (if avx then [1; 2; 2013265920; 2013265920; 5; 6; 2013265920; 0] else [1; 2; 3; 0; 0; 0; 0; 0])).
  assert (G : exists a' m, to_ntt avx P a = Ok a' /\ from_ntt avx P c65_inv a' = Ok m /\ rm_data m <> rm_data a).
  { destruct avx; vm_compute in E; injection E as <-; (do 2 eexists; split; [vm_compute; reflexivity|]; split; [vm_compute; reflexivity|];
      vm_compute; discriminate). }
  destruct G as (a' & m & G1 & G2 & G3). exists P, a, a', m.
  split; [destruct avx; reflexivity|]. split; [destruct avx; reflexivity|]. split; [exact inverse_mod_ok|].
  split; [destruct avx; reflexivity|]. split; [destruct avx; reflexivity|]. split; [destruct avx; reflexivity|].
  split; [destruct avx; (apply pow8_root; [reflexivity|discriminate])|]. split; [reflexivity|].
  split.
  { split; [destruct avx; reflexivity|]. intros k. unfold a. destruct avx; cbn [rm_data]; do 9 (destruct k as [|k]; [reflexivity|]); reflexivity. }
  split; [unfold a; destruct avx; cbn [rm_data]; repeat constructor|].
  split; [exact G1|]. split; [exact G2|exact G3].
Qed.
Print Assumptions C65_large_modulus_refuted.
