(** Decoding: every path computes the value of the table for the key. *)
From Coq Require Import List Arith NArith Bool Lia.
From Verif Require Import Base BaseProofs StoreModel GfModel GfSpec GfProofs GfProofs2 OkvsModel OkvsSpec OkvsProofs.
Import ListNotations.
Local Open Scope N_scope.

(** Dense part from column col on. *)
Fixpoint dsum (mul : N -> N -> N) (p : list N) (col : nat) (cs : list N) : N :=
  match cs with [] => 0 | c :: r => N.lxor (mul (nth col p 0) c) (dsum mul p (S col) r) end.

Lemma dsum_spec : forall mul p s cs b,
  xor_all (map (fun ic => mul (nth (s + fst ic)%nat p 0) (snd ic)) (combine (seq b (length cs)) cs)) = dsum mul p (s + b) cs.
Proof.
  intros mul p s cs. induction cs as [|c r IH]; intros b; [reflexivity|].
  cbn [length seq combine map fst snd dsum].
  unfold xor_all in *. cbn [fold_right]. rewrite IH. do 2 f_equal. lia.
Qed.

Lemma table_value_dsum : forall mul p s row cs,
  table_value mul p s row cs = N.lxor (xor_all (map (fun c => nth (N.to_nat c) p 0) row)) (dsum mul p s cs).
Proof. intros. unfold table_value. rewrite dsum_spec, Nat.add_0_r. reflexivity. Qed.

Lemma fold_xor : forall p l v, fold_left (fun v c => N.lxor v (pget p c)) l v =
  N.lxor v (xor_all (map (fun c => nth (N.to_nat c) p 0) l)).
Proof.
  intros p l. induction l as [|c r IH]; intros v; cbn [fold_left map].
  - cbn. rewrite N.lxor_0_r. reflexivity.
  - rewrite IH. unfold xor_all. cbn [fold_right]. unfold pget. apply N.lxor_assoc.
Qed.

Definition all_below (m : N) (p : list N) : Prop := Forall (fun x => x < 2 ^ m) p.
Lemma below_nth : forall m p k, all_below m p -> nth k p 0 < 2 ^ m.
Proof.
  intros m p k H. unfold all_below in H. rewrite Forall_forall in H.
  destruct (lt_dec k (length p)) as [L|L].
  - apply H. apply nth_In; assumption.
  - rewrite nth_overflow by lia. assert (2 ^ m <> 0) by (apply N.pow_nonzero; discriminate). lia.
Qed.
Lemma below_mono : forall m n p, m <= n -> all_below m p -> all_below n p.
Proof. intros m n p L. apply Forall_impl. intros a H. assert (2 ^ m <= 2 ^ n) by (apply N.pow_le_mono_r; lia). lia. Qed.

Lemma gmul_below : forall avx a b, a < 2 ^ 128 -> b < 2 ^ 128 -> gf_mul avx a b < 2 ^ 128.
Proof. intros. rewrite mul_any by assumption. apply mul_red; assumption. Qed.

Lemma mult_add_128 : forall avx v a b, a < 2 ^ 128 -> b < 2 ^ 128 ->
  mult_add avx 128 v a b = N.lxor v (gf_mul avx a b).
Proof. intros. unfold mult_add. rewrite (N.mod_small (gf_mul avx a b)); [reflexivity|]. apply gmul_below; assumption. Qed.

Lemma gmul_bit : forall avx a (b : bool), a < 2 ^ 128 -> gf_mul avx a (if b then 1 else 0) = if b then a else 0.
Proof.
  intros avx a b H. assert (O : 1 < 2 ^ 128) by reflexivity. assert (Z : 0 < 2 ^ 128) by reflexivity.
  destruct b; rewrite mul_any by assumption; [apply mul_1_r; assumption|].
  rewrite mul_comm by assumption. apply mul_0_l; assumption.
Qed.

(** Decode1. *)
Lemma dense_gf_is : forall avx p d todo col x v, all_below 128 p -> d < 2 ^ 128 -> x < 2 ^ 128 ->
  dense_gf avx 128 p d todo (N.of_nat col) x v =
  N.lxor v (dsum (gf_mul avx) p col (powers (gf_mul avx) d (gf_mul avx x d) todo)).
Proof.
  intros avx p d todo. induction todo as [|k IH]; intros col x v Hp Hd Hx.
  - cbn [dense_gf powers dsum]. rewrite N.lxor_0_r. reflexivity.
  - cbn [dense_gf powers dsum].
    replace (N.of_nat col + 1) with (N.of_nat (S col)) by lia.
    assert (G : gf_mul avx x d < 2 ^ 128) by (apply gmul_below; assumption).
    rewrite IH by assumption. unfold pget. rewrite Nnat.Nat2N.id.
    rewrite mult_add_128 by (try assumption; apply below_nth; assumption).
    apply N.lxor_assoc.
Qed.

Definition bit01 (d : N) (i : nat) : N := if N.testbit d (N.of_nat i) then 1 else 0.

Lemma dense_bin_is : forall avx p d todo i col v, all_below 128 p ->
  dense_bin p d todo (N.of_nat i) (N.of_nat col) v =
  N.lxor v (dsum (gf_mul avx) p col (map (bit01 d) (seq i todo))).
Proof.
  intros avx p d todo. induction todo as [|k IH]; intros i col v Hp.
  - cbn [dense_bin seq map dsum]. rewrite N.lxor_0_r. reflexivity.
  - cbn [dense_bin seq map dsum].
    replace (N.of_nat i + 1) with (N.of_nat (S i)) by lia.
    replace (N.of_nat col + 1) with (N.of_nat (S col)) by lia.
    rewrite IH by assumption. unfold pget. rewrite Nnat.Nat2N.id.
    unfold bit01 at 2. rewrite gmul_bit by (apply below_nth; assumption).
    destruct (N.testbit d (N.of_nat i)); [apply N.lxor_assoc|rewrite N.lxor_0_l; reflexivity].
Qed.

(** Coefficients of a hash. *)
Definition coefs (mul : N -> N -> N) (q : okvs_param) (h : N) : list N :=
  match ok_dt q with
  | DGF128 => powers mul h h (ok_dense q)
  | DBinary => bits01 h (ok_dense q)
  end.

(** Widths and dense sizes for which decoding is defined. *)
Definition shape_ok (vw : N) (q : okvs_param) : Prop :=
  match ok_dt q with
  | DGF128 => vw = 128 /\ (1 <= ok_dense q)%nat
  | DBinary => vw <= 128 /\ (ok_dense q <= 64)%nat
  end.

Lemma decode1_is : forall avx vw q row d p, shape_ok vw q -> all_below vw p -> d < 2 ^ 128 -> row <> [] ->
  decode1 avx vw q row d p = table_value (gf_mul avx) p (N.to_nat (ok_sparse q)) row (coefs (gf_mul avx) q d).
Proof.
  intros avx vw q row d p Hs Hp Hd Hr.
  rewrite table_value_dsum.
  destruct row as [|r0 row]; [contradiction|]. clear Hr.
  unfold decode1, coefs, shape_ok in *. cbn [hd tl map].
  unfold xor_all. cbn [fold_right]. fold (xor_all (map (fun c => nth (N.to_nat c) p 0) row)).
  rewrite fold_xor.
  destruct (ok_dt q).
  - destruct Hs as [Hv Hd64].
    assert (Hp' : all_below 128 p) by (apply (below_mono vw); assumption).
    rewrite <- (Nnat.N2Nat.id (ok_sparse q)) at 1.
    change 0 with (N.of_nat 0) at 1. rewrite (dense_bin_is avx) by assumption.
    reflexivity.
  - destruct Hs as [-> H1].
    destruct (ok_dense q) as [|k] eqn:E; [lia|].
    replace (S k - 1)%nat with k by lia.
    replace (ok_sparse q + 1) with (N.of_nat (S (N.to_nat (ok_sparse q)))) by lia.
    rewrite dense_gf_is by assumption. cbn [powers dsum].
    rewrite mult_add_128 by (try assumption; apply below_nth; assumption).
    unfold pget. apply N.lxor_assoc.
Qed.

(** Decode32, lane by lane. *)
Fixpoint sparse1 (p : list N) (r : list N) (todo j : nat) (v : N) {struct todo} : N :=
  match todo with O => v | S k => sparse1 p r k (S j) (N.lxor v (pget p (nth j r 0))) end.
Fixpoint bin1 (avx : bool) (vw : N) (p : list N) (todo : nat) (col : N) (d v : N) {struct todo} : N :=
  match todo with
  | O => v
  | S k => bin1 avx vw p k (col + 1) (d / 2) (mult_add avx vw v (pget p col) (d mod 2))
  end.

Lemma zip_cons : forall A B C (f : A -> B -> C) a b x y, zip_with f (a :: x) (b :: y) = f a b :: zip_with f x y.
Proof. reflexivity. Qed.

Lemma lanes_sparse_cons : forall p todo r rows j v vs,
  lanes_sparse p (r :: rows) todo j (v :: vs) = sparse1 p r todo j v :: lanes_sparse p rows todo j vs.
Proof.
  intros p todo. induction todo as [|k IH]; intros; [reflexivity|].
  cbn [lanes_sparse sparse1]. rewrite zip_cons, IH. reflexivity.
Qed.
Lemma lanes_gf_cons : forall avx vw p todo d ds col x xs v vs,
  lanes_gf avx vw p (d :: ds) todo col (x :: xs) (v :: vs) =
  dense_gf avx vw p d todo col x v :: lanes_gf avx vw p ds todo col xs vs.
Proof.
  intros avx vw p todo. induction todo as [|k IH]; intros; [reflexivity|].
  cbn [lanes_gf dense_gf]. rewrite !zip_cons, IH. reflexivity.
Qed.
Lemma lanes_bin_cons : forall avx vw p todo col d ds v vs,
  lanes_bin avx vw p todo col (d :: ds) (v :: vs) =
  bin1 avx vw p todo col d v :: lanes_bin avx vw p todo col ds vs.
Proof.
  intros avx vw p todo. induction todo as [|k IH]; intros; [reflexivity|].
  cbn [lanes_bin bin1 map]. rewrite zip_cons, IH. reflexivity.
Qed.

Lemma lanes_sparse_nil : forall p todo j, lanes_sparse p [] todo j [] = [].
Proof. intros p todo. induction todo; intros; cbn [lanes_sparse]; auto. Qed.
Lemma lanes_gf_nil : forall avx vw p todo col, lanes_gf avx vw p [] todo col [] [] = [].
Proof. intros avx vw p todo. induction todo; intros; cbn [lanes_gf]; auto. Qed.
Lemma lanes_bin_nil : forall avx vw p todo col, lanes_bin avx vw p todo col [] [] = [].
Proof. intros avx vw p todo. induction todo; intros; cbn [lanes_bin]; auto. Qed.

Lemma sparse1_fold : forall p r todo j v, (todo = length r - j)%nat ->
  sparse1 p r todo j v = fold_left (fun v c => N.lxor v (pget p c)) (skipn j r) v.
Proof.
  intros p r todo. induction todo as [|k IH]; intros j v H.
  - rewrite skipn_all2 by lia. reflexivity.
  - cbn [sparse1].
    assert (E : skipn j r = nth j r 0 :: skipn (S j) r).
    { clear IH. assert (L : (j < length r)%nat) by lia. clear H. revert j L.
      induction r as [|x r IHr]; intros j L; [cbn in L; lia|].
      destruct j; [reflexivity|]. cbn [nth]. cbn [length] in L.
      change (skipn (S j) (x :: r)) with (skipn j r). change (skipn (S (S j)) (x :: r)) with (skipn (S j) r).
      apply IHr. lia. }
    rewrite E. cbn [fold_left]. apply IH. lia.
Qed.

Lemma bits01_S : forall d k, bits01 d (S k) = (if N.testbit d 0 then 1 else 0) :: bits01 (d / 2) k.
Proof.
  intros d k. unfold bits01. cbn [seq map]. f_equal.
  rewrite <- seq_shift, map_map. apply map_ext. intros i.
  replace (N.of_nat (S i)) with (N.succ (N.of_nat i)) by lia.
  rewrite N.div2_bits by lia. reflexivity.
Qed.
Lemma bits01_mod : forall d k, (k <= 64)%nat -> bits01 (d mod 2 ^ 64) k = bits01 d k.
Proof.
  intros d k H. unfold bits01. apply map_ext_in. intros i I. apply in_seq in I.
  rewrite N.mod_pow2_bits_low by lia. reflexivity.
Qed.

Lemma bin1_is : forall avx vw p todo col d v, vw <= 128 -> all_below vw p ->
  bin1 avx vw p todo (N.of_nat col) d v = N.lxor v (dsum (gf_mul avx) p col (bits01 d todo)).
Proof.
  intros avx vw p todo. induction todo as [|k IH]; intros col d v Hv Hp.
  - cbn [bin1]. unfold bits01. cbn [seq map dsum]. rewrite N.lxor_0_r. reflexivity.
  - cbn [bin1]. rewrite bits01_S. cbn [dsum].
    replace (N.of_nat col + 1) with (N.of_nat (S col)) by lia.
    rewrite IH by assumption. unfold pget. rewrite Nnat.Nat2N.id.
    assert (B : nth col p 0 < 2 ^ vw) by (apply below_nth; assumption).
    assert (B' : nth col p 0 < 2 ^ 128) by (apply (below_nth 128); apply (below_mono vw); assumption).
    assert (E : d mod 2 = if N.testbit d 0 then 1 else 0).
    { rewrite <- N.bit0_mod. destruct (N.testbit d 0); reflexivity. }
    rewrite E. unfold mult_add. rewrite gmul_bit by assumption.
    rewrite (N.mod_small (if N.testbit d 0 then _ else _)).
    + apply N.lxor_assoc.
    + destruct (N.testbit d 0); [assumption|]. assert (2 ^ vw <> 0) by (apply N.pow_nonzero; discriminate). lia.
Qed.

Lemma decode32_ok : forall avx vw q p hs rowf, shape_ok vw q -> all_below vw p ->
  Forall (fun h => h < 2 ^ 128) hs -> (1 <= ok_weight q)%nat ->
  (forall h, In h hs -> length (rowf h) = ok_weight q) ->
  decode32 avx vw q (map rowf hs) hs p = Ok (map (fun h => decode1 avx vw q (rowf h) h p) hs).
Proof.
  intros avx vw q p hs rowf Hs Hp Hh H1 Hr. unfold decode32.
  assert (S1 : forall hs, (forall h, In h hs -> length (rowf h) = ok_weight q) ->
    lanes_sparse p (map rowf hs) (ok_weight q - 1) 1 (map (fun r => pget p (hd 0 r)) (map rowf hs)) =
    map (fun h => fold_left (fun v c => N.lxor v (pget p c)) (tl (rowf h)) (pget p (hd 0 (rowf h)))) hs).
  { clear - H1. induction hs as [|h r IH]; intros H.
    - apply lanes_sparse_nil.
    - cbn [map]. rewrite lanes_sparse_cons, IH by (intros; apply H; right; assumption). f_equal.
      assert (L := H h (or_introl eq_refl)). rewrite sparse1_fold by (rewrite L; lia).
      destruct (rowf h); [cbn in L; lia|reflexivity]. }
  rewrite S1 by assumption. unfold decode1, shape_ok in *.
  destruct (ok_dt q).
  - destruct Hs as [Hv Hd64].
    replace (Nat.leb (ok_dense q) 64) with true by (symmetry; apply Nat.leb_le; assumption).
    cbn [enforce]. f_equal. clear S1 Hr. induction hs as [|h r IH]; [apply lanes_bin_nil|].
    cbn [map]. rewrite lanes_bin_cons. inversion Hh; subst. rewrite IH by assumption. f_equal.
    rewrite <- (Nnat.N2Nat.id (ok_sparse q)). rewrite bin1_is by assumption.
    assert (D : forall v, dense_bin p h (ok_dense q) 0 (N.of_nat (N.to_nat (ok_sparse q))) v =
       N.lxor v (dsum (gf_mul avx) p (N.to_nat (ok_sparse q)) (map (bit01 h) (seq 0 (ok_dense q)))))
      by (intros v; apply (dense_bin_is avx p h (ok_dense q) 0); apply (below_mono vw); assumption).
    rewrite D, bits01_mod by assumption. reflexivity.
  - destruct Hs as [-> Hd1]. f_equal. clear S1 Hr.
    induction hs as [|h r IH]; [apply lanes_gf_nil|].
    cbn [map]. rewrite zip_cons, lanes_gf_cons. inversion Hh; subst. rewrite IH by assumption. reflexivity.
Qed.

(** Value of a hashed key in a table, by any path. *)
Definition key_val (mul : N -> N -> N) (q : okvs_param) (p : list N) (h : N) : N :=
  table_value mul p (N.to_nat (ok_sparse q)) (row_of q h) (coefs mul q h).

Lemma legal_nonempty : forall k s r, (1 <= k)%nat -> legal_row k s r -> r <> [].
Proof. intros k s r H (L & _) ->. cbn in L. lia. Qed.

Lemma decode_one_ok : forall avx w vw q p h, param_ok w q -> shape_ok vw q -> all_below vw p -> h < 2 ^ 128 ->
  decode_one avx w vw q p h = Ok (key_val (gf_mul avx) q p h).
Proof.
  intros avx w vw q p h Hq Hs Hp Hh. unfold decode_one.
  destruct (build_row_ok avx w q h Hq Hh) as [E L]. rewrite E. cbn [bind]. f_equal.
  apply decode1_is; try assumption. apply (legal_nonempty _ _ _ (proj1 Hq) L).
Qed.

Lemma decode_hashed_ok : forall avx w vw q p fuel hs, param_ok w q -> shape_ok vw q -> all_below vw p ->
  Forall (fun h => h < 2 ^ 128) hs ->
  decode_hashed fuel avx w vw q p hs = Ok (map (key_val (gf_mul avx) q p) hs).
Proof.
  intros avx w vw q p fuel. induction fuel as [|f IH]; intros hs Hq Hs Hp Hh.
  - cbn [decode_hashed]. apply omapM_ok. intros h I. apply decode_one_ok; try assumption.
    rewrite Forall_forall in Hh. apply Hh; assumption.
  - cbn [decode_hashed]. destruct (Nat.leb_spec 32 (length hs)) as [L|L].
    + assert (F : Forall (fun h => h < 2 ^ 128) (firstn 32 hs) /\ Forall (fun h => h < 2 ^ 128) (skipn 32 hs)).
      { apply Forall_app. rewrite firstn_skipn. assumption. }
      destruct F as [F1 F2].
      rewrite build_row32_ok by assumption. cbn [bind].
      rewrite decode32_ok; try assumption; [|apply Hq|].
      2: { intros h I. rewrite Forall_forall in F1. apply (proj2 (build_row_ok true w q h Hq (F1 h I))). }
      cbn [bind]. rewrite IH by assumption. cbn [bind]. f_equal.
      rewrite <- (firstn_skipn 32 hs) at 3. rewrite map_app. f_equal.
      apply map_ext_in. intros h I. rewrite Forall_forall in F1. specialize (F1 h I).
      apply decode1_is; try assumption.
      apply (legal_nonempty _ _ _ (proj1 Hq) (proj2 (build_row_ok true w q h Hq F1))).
    + apply omapM_ok. intros h I. apply decode_one_ok; try assumption.
      rewrite Forall_forall in Hh. apply Hh; assumption.
Qed.
