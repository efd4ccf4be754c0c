(** C58: the server's modulus switch followed by the client's decoding returns the message. *)
From Coq Require Import List Arith NArith ZArith Bool Lia.
From Verif Require Import Base PirPackModel SpArithModel SpLoopModel SpGadgetModel SpGadgetSpec
  SpDecodeModel SpDecodeSpec SpDecodeProofs SpDecodeProofs2 SpDecodeProofs3.
Import ListNotations.
Local Open Scope Z_scope.

(** kQ2Values (common.h 101-137) by q2_bits. *)
Definition k_q2_values : list N :=
  repeat 0%N 14 ++ [12289; 12289; 61441; 65537; 65537; 520193; 786433; 786433; 3604481; 7340033;
    16515073; 33292289; 67043329; 132120577; 268369921; 469762049; 1073479681; 2013265921;
    4293918721; 8588886017; 17175674881; 34359214081; 68718428161]%N.

(** What [mul_q2] has to be: the product modulo X^poly_len + 1 and q2, of reduced operands. *)
Definition is_product (pl n : nat) (q2 : N) (mul_q2 : raw_mat -> raw_mat -> raw_mat) : Prop :=
  forall a b, length a = (n * pl)%nat -> length b = (n * pl)%nat ->
  Forall (fun v => (v < q2)%N) a -> Forall (fun v => (v < q2)%N) b ->
  length (rm_data (mul_q2 (RawMat n 1 a) (RawMat 1 n b))) = (n * n * pl)%nat
  /\ forall r c z, (r < n)%nat -> (c < n)%nat -> (z < pl)%nat ->
     Z.of_N (coeff pl n (rm_data (mul_q2 (RawMat n 1 a) (RawMat 1 n b))) r c z)
     = negacyclic pl (fun i => Z.of_N (coeff pl 1 a r 0 i)) (fun i => Z.of_N (coeff pl n b 0 c i)) z mod Z.of_N q2.

(** An encryption of the n by n matrix [m] under the key [S] (integers, [sk] modulo q) with
    noise at most [E], the 1-norm of the key rows being at most [h]. *)
Definition encrypts (pl n : nat) (q p : N) (S : nat -> nat -> Z) (h : Z) (sk ct : raw_mat)
           (m : nat -> nat -> nat -> N) (E : Z) : Prop :=
  length (rm_data sk) = (n * pl)%nat /\ Forall (fun v => (v < q)%N) (rm_data sk)
  /\ (forall r i, (r < n)%nat -> (i < pl)%nat ->
       eqm (Z.of_N q) (S r i) (Z.of_N (coeff pl 1 (rm_data sk) r 0 i)) /\ 4 * Z.abs (S r i) < Z.of_N q)
  /\ (forall r, (r < n)%nat -> zsum pl (fun i => Z.abs (S r i)) <= h)
  /\ rm_rows ct = (n + 1)%nat /\ rm_cols ct = n /\ length (rm_data ct) = ((n + 1) * n * pl)%nat
  /\ Forall (fun v => (v < q)%N) (rm_data ct)
  /\ exists e : nat -> nat -> nat -> Z,
     forall r c z, (r < n)%nat -> (c < n)%nat -> (z < pl)%nat ->
     (m r c z < p)%N /\ Z.abs (e r c z) <= E /\
     eqm (Z.of_N q)
       (negacyclic pl (S r) (fun i => Z.of_N (coeff pl n (rm_data ct) 0 c i)) z
        + Z.of_N (coeff pl n (rm_data ct) (r + 1) c z))
       (Z.of_N q / Z.of_N p * Z.of_N (m r c z) + e r c z).

(** The noise the switch can absorb. *)
Definition noise_fits (q p q2 : N) (h E : Z) : Prop :=
  2 * E * (4 * Z.of_N p * Z.of_N q2) + 8 * (Z.of_N p - 1) * (Z.of_N q mod Z.of_N p) * Z.of_N q2
    + 4 * Z.of_N p * h * Z.of_N q + Z.of_N q2 * Z.of_N q < 4 * Z.of_N q2 * Z.of_N q.

(** Exactly what comes out: every coefficient of the message plus (4 * q2) / p, modulo p. *)
Theorem C58_decode_value : forall pl n q p q2 mul_q2 S h sk ct m E,
  (1 <= pl)%nat -> (1 <= n)%nat -> (1 <= p)%N -> (2 <= q2)%N -> (q2 <= q)%N -> (q <= 2 ^ 60)%N ->
  (8 * p * q2 < 2 ^ 62)%N -> is_product pl n q2 mul_q2 ->
  encrypts pl n q p S h sk ct m E -> noise_fits q p q2 h E ->
  exists resp d, mod_switch pl ct q p q2 = Ok resp
    /\ decode_response pl mul_q2 n q p q2 sk resp = Ok (RawMat n n d)
    /\ length d = (n * n * pl)%nat
    /\ forall r c z, (r < n)%nat -> (c < n)%nat -> (z < pl)%nat ->
       coeff pl n d r c z = ((m r c z + 4 * q2 / p) mod p)%N.
Proof.
  intros pl n q p q2 mul_q2 S h sk ct m E H1 H2 H3 H4 H5 H6 H7 Hm
    (E1 & E2 & E3 & E4 & E5 & E6 & E7 & E8 & e & E9) Hn.
  apply (switch_decode pl n q p q2 mul_q2 H1 H2 H3 H4 H5 H6 H7 Hm S h sk ct m e E); auto.
Qed.

(** The message itself, when p divides (4 * q2) / p. *)
Theorem C58_decode_exact : forall pl n q p q2 mul_q2 S h sk ct m E,
  (1 <= pl)%nat -> (1 <= n)%nat -> (1 <= p)%N -> (2 <= q2)%N -> (q2 <= q)%N -> (q <= 2 ^ 60)%N ->
  (8 * p * q2 < 2 ^ 62)%N -> is_product pl n q2 mul_q2 ->
  encrypts pl n q p S h sk ct m E -> noise_fits q p q2 h E ->
  ((4 * q2 / p) mod p = 0)%N ->
  exists resp d, mod_switch pl ct q p q2 = Ok resp
    /\ decode_response pl mul_q2 n q p q2 sk resp = Ok (RawMat n n d)
    /\ length d = (n * n * pl)%nat
    /\ forall r c z, (r < n)%nat -> (c < n)%nat -> (z < pl)%nat -> coeff pl n d r c z = m r c z.
Proof.
  intros pl n q p q2 mul_q2 S h sk ct m E H1 H2 H3 H4 H5 H6 H7 Hm He Hn Hd.
  destruct (C58_decode_value pl n q p q2 mul_q2 S h sk ct m E) as (resp & d & A & B & C & D); auto.
  exists resp, d. split; [exact A|]. split; [exact B|]. split; [exact C|].
  intros r c z Hr Hc Hz. rewrite D by auto.
  destruct He as (_ & _ & _ & _ & _ & _ & _ & _ & e & E9). destruct (E9 r c z Hr Hc Hz) as (Hlt & _).
  rewrite N.add_mod, Hd, N.add_0_r, N.mod_mod by lia. apply N.mod_small. exact Hlt.
Qed.

(** The table: with 8-bit plaintexts decoding is right for every q2_bits except 14, 15, 16
    and 19; the parameter sets of util.cc use 20, 21 and 22. *)
Theorem C58_q2_table : forall b, (14 <= b <= 36)%nat ->
  (((4 * nth b k_q2_values 0 / 256) mod 256 = 0)%N <-> ~ In b [14; 15; 16; 19]%nat).
Proof.
  assert (H : forallb (fun b => Bool.eqb (((4 * nth b k_q2_values 0 / 256) mod 256 =? 0)%N)
                (negb (existsb (Nat.eqb b) [14; 15; 16; 19]%nat))) (seq 14 23) = true) by reflexivity.
  intros b Hb. rewrite forallb_forall in H. specialize (H b ltac:(apply in_seq; lia)).
  apply eqb_prop in H. rewrite <- N.eqb_eq, H, negb_true_iff. split; intros Hx.
  - intros Hi. assert (existsb (Nat.eqb b) [14; 15; 16; 19]%nat = true); [|congruence].
    apply existsb_exists. exists b. split; [exact Hi|apply Nat.eqb_refl].
  - destruct (existsb (Nat.eqb b) [14; 15; 16; 19]%nat) eqn:Ex; [|reflexivity].
    apply existsb_exists in Ex. destruct Ex as (y & Hy & Ey). apply Nat.eqb_eq in Ey. subst. contradiction.
Qed.

(** Without divisibility the message does not come back, even with no noise at all:
    q2_bits = 14, which the constructor of Params accepts. *)
Theorem C58_offset_refuted : exists pl n q p q2 mul_q2 S h sk ct m resp d,
  p = 256%N /\ q2 = nth 14 k_q2_values 0%N /\ (q2 <= q)%N /\ (q <= 2 ^ 60)%N
  /\ is_product pl n q2 mul_q2 /\ encrypts pl n q p S h sk ct m 0 /\ noise_fits q p q2 h 0
  /\ mod_switch pl ct q p q2 = Ok resp
  /\ decode_response pl mul_q2 n q p q2 sk resp = Ok (RawMat n n d)
  /\ coeff pl n d 0 0 0 <> m 0%nat 0%nat 0%nat.
Proof.
  exists 1%nat, 1%nat, 66974689739603969%N, 256%N, 12289%N,
    (fun a b => RawMat 1 1 [(nth 0 (rm_data a) 0 * nth 0 (rm_data b) 0) mod 12289]%N),
    (fun _ _ => 1), 1, (RawMat 1 1 [1%N]), (RawMat 2 1 [1000; 1308099408975640]%N), (fun _ _ _ => 5%N).
  eexists _, _. split; [reflexivity|]. split; [reflexivity|]. split; [lia|]. split; [discriminate|].
  split; [|split; [|split; [|split; [|split]]]].
  - intros a b Ha Hb. destruct a as [|x [|]]; try discriminate. destruct b as [|y [|]]; try discriminate.
    split; [reflexivity|]. intros r c z Hr Hc Hz. assert (r = 0%nat) by lia. assert (c = 0%nat) by lia.
    assert (z = 0%nat) by lia. subst. cbn [rm_data coeff nth negacyclic zsum map seq fold_right Nat.leb Nat.sub Nat.add Nat.mul].
    unfold coeff, negacyclic, zsum. cbn [rm_data nth Nat.mul Nat.add map seq fold_right Nat.leb Nat.sub].
    rewrite Z.add_0_r, N2Z.inj_mod, N2Z.inj_mul by lia. reflexivity.
  - split; [reflexivity|]. split; [repeat constructor|]. split.
    { intros r i Hr Hi. assert (r = 0%nat) by lia. assert (i = 0%nat) by lia. subst. split; [exists 0; reflexivity|reflexivity]. }
    split; [intros r Hr; discriminate|]. split; [reflexivity|]. split; [reflexivity|]. split; [reflexivity|].
    split; [repeat constructor|]. exists (fun _ _ _ => 0). intros r c z Hr Hc Hz.
    assert (r = 0%nat) by lia. assert (c = 0%nat) by lia. assert (z = 0%nat) by lia. subst.
    split; [reflexivity|]. split; [discriminate|]. exists 0. vm_compute. reflexivity.
  - vm_compute. reflexivity.
  - vm_compute. reflexivity.
  - vm_compute. reflexivity.
  - vm_compute. discriminate.
Qed.

(** The default parameters leave room for a noise of 2^44 under keys of weight 256. *)
Example C58_example_room :
  noise_fits (268369921 * 249561089) 256 (nth 21 k_q2_values 0%N) 256 (2 ^ 44)
  /\ noise_fits (268369921 * 249561089) 256 (nth 22 k_q2_values 0%N) 256 (2 ^ 44)
  /\ (8 * 256 * nth 22 k_q2_values 0 < 2 ^ 62)%N.
Proof. vm_compute. repeat split. Qed.

(** One coefficient under the default moduli: the message 77, key 1, noise 1000000. *)
Example C58_example :
  let ct := RawMat 2 1 [66974689739602969; 20144730899241256]%N in
  let mul := fun a b => RawMat 1 1 [(nth 0 (rm_data a) 0 * nth 0 (rm_data b) 0) mod 786433]%N in
  (66974689739602969 + 20144730899241256)%N
    = (66974689739603969 / 256 * 77 + 1000000 + 66974689739603969)%N /\
  exists resp, mod_switch 1 ct 66974689739603969 256 786433 = Ok resp
  /\ decode_response 1 mul 1 66974689739603969 256 786433 (RawMat 1 1 [1%N]) resp = Ok (RawMat 1 1 [77%N]).
Proof. cbv zeta. split; [reflexivity|]. eexists. split; [vm_compute; reflexivity|]. vm_compute. reflexivity. Qed.

Print Assumptions C58_decode_value.
Print Assumptions C58_decode_exact.
Print Assumptions C58_q2_table.
Print Assumptions C58_offset_refuted.
