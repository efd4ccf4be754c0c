(** Params with good moduli; and an inverse modulo m that can be computed. *)
From Coq Require Import List Arith NArith ZArith Bool Lia Znumtheory.
From Verif Require Import Base StoreModel PirPackModel PirPackProofs2 SpArithModel SpLoopModel SpDecodeSpec SpDecodeProofs2
  NttModel NttSpec NttProofs NttProofs3 NttProofs4 NttProofs5.
Import ListNotations.
Local Open Scope N_scope.

Local Notation zN := Z.of_N.

Lemma root_unit : forall m n r, 1 < m -> (0 < n)%nat -> is_root (zN m) n (zN r) -> N.gcd r m = 1.
Proof.
  intros m n r Hm Hn [k H]. assert (G : zN (N.gcd r m) = 1%Z).
  { assert (E : forall a b, zN (N.gcd a b) = Z.gcd (zN a) (zN b)) by (intros [|p] [|q]; reflexivity). rewrite E.
    assert (D : (Z.gcd (zN r) (zN m) | 1)%Z).
    { destruct (Z.gcd_divide_l (zN r) (zN m)) as [x X]. destruct (Z.gcd_divide_r (zN r) (zN m)) as [y Y].
      set (g := Z.gcd (zN r) (zN m)) in *. destruct n as [|n]; [lia|].
      rewrite Nat2Z.inj_succ, Z.pow_succ_r in H by lia. set (w := (zN r ^ Z.of_nat n)%Z) in *.
      exists (k * y - x * w)%Z. nia. }
    pose proof (Z.gcd_nonneg (zN r) (zN m)). apply Z.divide_1_r in D. lia. }
  lia.
Qed.

Theorem make_params_ok : forall (min_root invert : N -> N -> option N) L moduli psi,
  (2 <= L)%nat -> (1 <= length moduli <= 4)%nat ->
  (forall x m, N.gcd x m = 1 -> 1 < m -> exists y, invert x m = Some y /\ y < m /\ (x * y) mod m = 1) ->
  (forall c, (c < length moduli)%nat -> let m := nth c moduli 0 in
     2 < m /\ m < 2 ^ 30 /\ N.odd m = true
     /\ exists r, min_root (2 * N.of_nat (2 ^ L)) m = Some r /\ 0 < r /\ r < m /\ psi c = zN r /\ is_root (zN m) (2 ^ L) (psi c)) ->
  exists P, make_params min_root invert (2 ^ L) moduli = Ok P /\ np_len P = (2 ^ L)%nat /\ np_moduli P = moduli
    /\ params_ok L psi P.
Proof.
  intros min_root invert L moduli psi HL Hlen Hinv Hm. pose proof (pow_pos2 L) as Hp.
  unfold make_params, build_tables. rewrite (proj2 (Nat.leb_le _ _)), !(proj2 (Nat.ltb_lt _ _)) by lia. cbn [enforce].
  destruct (map_out_seq_nth ntt_table (fun c => build_table min_root invert (2 ^ L) (nth c moduli 0))
     (fun c T => table_ok (nth c moduli 0) L (psi c) T) (length moduli) (NttTable [] [] [] [])) as (Ts & E & LT & HT).
  { intros c Hc. destruct (Hm c Hc) as (M1 & M2 & M3 & r & R1 & R2 & R3 & R4 & R5).
    rewrite R4 in *. destruct (Hinv r (nth c moduli 0)) as (y & Y1 & Y2 & Y3); [eapply root_unit; [|exact Hp|exact R5]; lia|lia|].
    eapply build_ok; eauto. lia. }
  assert (Em : map_out (build_table min_root invert (2 ^ L)) moduli = Ok Ts).
  { rewrite <- E. clear. 
    assert (G : forall (f : N -> outcome ntt_table) l, map_out f l = map_out (fun c => f (nth c l 0)) (seq 0 (length l))).
    { intros f. induction l as [|x l IH]; [reflexivity|]. cbn [length seq map_out nth]. rewrite <- seq_shift.
      assert (S1 : forall A (g : nat -> outcome A) s, map_out g (map S s) = map_out (fun c => g (S c)) s).
      { intros A g s. induction s as [|a s IHs]; [reflexivity|]. cbn [map map_out]. rewrite IHs. reflexivity. }
      rewrite S1, IH. reflexivity. }
    apply G. }
  rewrite Em. cbn [bind]. eexists. split; [reflexivity|]. cbn [np_len np_moduli np_tables].
  split; [reflexivity|]. split; [reflexivity|]. split; [reflexivity|]. split; [exact HL|]. split; [exact LT|].
  intros c Hc. cbn [np_moduli np_tables] in *. cbv zeta. destruct (Hm c Hc) as (M1 & M2 & M3 & r & R1 & R2 & R3 & R4 & R5).
  split; [exact M1|]. split; [exact M2|]. split; [exact M3|]. split; [exact R5|].
  exists (nth c Ts (NttTable [] [] [] [])). split; [apply nth_error_nth'; lia|]. apply HT. exact Hc.
Qed.

(** * An inverse *)
Local Open Scope Z_scope.
Fixpoint egcd (fuel : nat) (a b : Z) {struct fuel} : Z * Z :=
  match fuel with
  | O => (1, 0)
  | S f => if b =? 0 then (1, 0) else let '(u, v) := egcd f b (a mod b) in (v, u - a / b * v)
  end.
Local Close Scope Z_scope.

(** By Euclid's algorithm; by search, should that ever fail. *)
Definition inverse_mod (x m : N) : option N :=
  let y := Z.to_N (fst (egcd 200 (zN x) (zN m)) mod zN m) in
  if (x * y) mod m =? 1 then Some y
  else find (fun y => (x * y) mod m =? 1) (map N.of_nat (seq 0 (N.to_nat m))).

Lemma inverse_mod_ok : forall x m, N.gcd x m = 1 -> 1 < m -> exists y, inverse_mod x m = Some y /\ y < m /\ (x * y) mod m = 1.
Proof.
  intros x m Hg Hm. unfold inverse_mod. cbv zeta. set (y := Z.to_N (fst (egcd 200 (zN x) (zN m)) mod zN m)).
  destruct (N.eqb_spec ((x * y) mod m) 1) as [E|_].
  - exists y. split; [reflexivity|]. split; [|exact E]. unfold y. pose proof (Z.mod_pos_bound (fst (egcd 200 (zN x) (zN m))) (zN m) ltac:(lia)). lia.
  - assert (B : rel_prime (zN x) (zN m)).
    { apply Zgcd_1_rel_prime. apply (f_equal zN) in Hg. assert (E : forall a b, zN (N.gcd a b) = Z.gcd (zN a) (zN b)) by (intros [|p] [|q]; reflexivity).
      rewrite E in Hg. exact Hg. }
    apply rel_prime_bezout in B. destruct B as [u v B].
    set (z := Z.to_N (u mod zN m)). pose proof (Z.mod_pos_bound u (zN m) ltac:(lia)) as Hb.
    assert (Hz : z < m) by (unfold z; lia).
    assert (Ez : (x * z) mod m = 1).
    { apply N2Z.inj. rewrite N2Z.inj_mod, N2Z.inj_mul by lia. unfold z. rewrite Z2N.id by lia.
      rewrite Zmult_mod_idemp_r. replace (zN x * u)%Z with (1 + (- v) * zN m)%Z by lia. rewrite Z_mod_plus_full. apply Z.mod_small. lia. }
    destruct (find (fun y => (x * y) mod m =? 1) (map N.of_nat (seq 0 (N.to_nat m)))) as [w|] eqn:F.
    + apply find_some in F. destruct F as [F1 F2]. apply N.eqb_eq in F2. exists w. split; [reflexivity|]. split; [|exact F2].
      apply in_map_iff in F1. destruct F1 as (k & <- & F1). apply in_seq in F1. lia.
    + exfalso. pose proof (find_none _ _ F z) as Fn. cbn in Fn. rewrite Ez in Fn. discriminate Fn.
      apply in_map_iff. exists (N.to_nat z). split; [lia|]. apply in_seq. lia.
Qed.
