(** Independence of the multiplier, and linearity of decoding in the table. *)
From Coq Require Import List Arith NArith Bool Lia.
From Verif Require Import Base BaseProofs StoreModel GfModel GfSpec GfProofs GfProofs2 OkvsModel OkvsSpec OkvsProofs OkvsProofs2 OkvsProofs3.
Import ListNotations.
Local Open Scope N_scope.

(** A function computing the field product. *)
Definition is_mul (mul : N -> N -> N) : Prop :=
  forall a b, a < 2 ^ 128 -> b < 2 ^ 128 -> field_product a b (mul a b).

Lemma gf_is_mul : forall avx, is_mul (gf_mul avx).
Proof. intros avx a b Ha Hb. apply gf_mul_correct; assumption. Qed.
Lemma is_mul_eq : forall m m' a b, is_mul m -> is_mul m' -> a < 2 ^ 128 -> b < 2 ^ 128 -> m a b = m' a b.
Proof. intros m m' a b Hm Hm' Ha Hb. apply (field_product_unique a b); auto. Qed.
Lemma is_mul_below : forall m a b, is_mul m -> a < 2 ^ 128 -> b < 2 ^ 128 -> m a b < 2 ^ 128.
Proof. intros m a b Hm Ha Hb. apply (Hm a b Ha Hb). Qed.

Lemma powers_ext : forall m m' d k x, is_mul m -> is_mul m' -> d < 2 ^ 128 -> x < 2 ^ 128 ->
  powers m d x k = powers m' d x k.
Proof.
  intros m m' d k. induction k as [|k IH]; intros x Hm Hm' Hd Hx; [reflexivity|].
  cbn [powers]. rewrite (is_mul_eq m m' x d) by assumption. f_equal. apply IH; try assumption.
  apply is_mul_below; assumption.
Qed.
Lemma powers_below : forall m d k x, is_mul m -> d < 2 ^ 128 -> x < 2 ^ 128 -> all_below 128 (powers m d x k).
Proof.
  intros m d k. induction k as [|k IH]; intros x Hm Hd Hx; constructor; [assumption|].
  apply IH; try assumption. apply is_mul_below; assumption.
Qed.
Lemma bits_ok : forall d k, all_below 128 (bits01 d k).
Proof.
  intros d k. apply Forall_forall. intros x I. apply in_map_iff in I. destruct I as (i & <- & _).
  destruct (N.testbit d (N.of_nat i)); reflexivity.
Qed.
Lemma coefs_ext : forall m m' q h, is_mul m -> is_mul m' -> h < 2 ^ 128 -> coefs m q h = coefs m' q h.
Proof. intros m m' q h Hm Hm' Hh. unfold coefs. destruct (ok_dt q); [reflexivity|]. apply powers_ext; assumption. Qed.
Lemma coefs_below : forall m q h, is_mul m -> h < 2 ^ 128 -> all_below 128 (coefs m q h).
Proof. intros m q h Hm Hh. unfold coefs. destruct (ok_dt q); [apply bits_ok|apply powers_below; assumption]. Qed.

Lemma dsum_ext : forall m m' p cs col, is_mul m -> is_mul m' -> all_below 128 p -> all_below 128 cs ->
  dsum m p col cs = dsum m' p col cs.
Proof.
  intros m m' p cs. induction cs as [|c r IH]; intros col Hm Hm' Hp Hc; [reflexivity|].
  inversion Hc; subst. cbn [dsum]. rewrite (is_mul_eq m m') by (try assumption; apply below_nth; assumption).
  rewrite IH by assumption. reflexivity.
Qed.
Lemma table_ext : forall m m' p s row cs, is_mul m -> is_mul m' -> all_below 128 p -> all_below 128 cs ->
  table_value m p s row cs = table_value m' p s row cs.
Proof. intros. rewrite !table_value_dsum. rewrite (dsum_ext m m') by assumption. reflexivity. Qed.
Lemma key_val_ext : forall m m' q p h, is_mul m -> is_mul m' -> all_below 128 p -> h < 2 ^ 128 ->
  key_val m q p h = key_val m' q p h.
Proof.
  intros m m' q p h Hm Hm' Hp Hh. unfold key_val. rewrite (coefs_ext m m') by assumption.
  apply table_ext; try assumption. apply coefs_below; assumption.
Qed.

(** Linearity. *)
Definition vxor (p p' : list N) : list N := zip_with N.lxor p p'.
Lemma nth_vxor : forall p p' k, length p = length p' -> nth k (vxor p p') 0 = N.lxor (nth k p 0) (nth k p' 0).
Proof.
  induction p as [|x p IH]; intros [|y p'] k H; try discriminate; destruct k; try reflexivity.
  unfold vxor. rewrite zip_cons. cbn [nth]. apply IH. injection H as H. assumption.
Qed.
Lemma vxor_len : forall p p', length p = length p' -> length (vxor p p') = length p.
Proof. intros p p' H. unfold vxor, zip_with. rewrite map_length, combine_length. lia. Qed.
Lemma vxor_below : forall m p p', all_below m p -> all_below m p' -> all_below m (vxor p p').
Proof.
  intros m p. induction p as [|x p IH]; intros [|y p'] H H'; try constructor.
  - inversion H; inversion H'; subst. cbn [fst snd]. apply lxor_below; assumption.
  - inversion H; inversion H'; subst. apply IH; assumption.
Qed.

Lemma mul_lr : forall m a b c, is_mul m -> a < 2 ^ 128 -> b < 2 ^ 128 -> c < 2 ^ 128 ->
  m (N.lxor a b) c = N.lxor (m a c) (m b c).
Proof.
  intros m a b c Hm Ha Hb Hc. assert (N.lxor a b < 2 ^ 128) by (apply lxor_below; assumption).
  rewrite !(is_mul_eq m (gf_mul true)) by (try assumption; apply gf_is_mul). apply mul_lxor_l; assumption.
Qed.

Lemma dsum_below : forall m p cs col, is_mul m -> all_below 128 p -> all_below 128 cs -> dsum m p col cs < 2 ^ 128.
Proof.
  intros m p cs. induction cs as [|c r IH]; intros col Hm Hp Hc; [reflexivity|].
  inversion Hc; subst. cbn [dsum]. apply lxor_below; [apply is_mul_below; try assumption; apply below_nth; assumption|].
  apply IH; assumption.
Qed.
Lemma sparse_below : forall m p row, all_below m p -> xor_all (map (fun c => nth (N.to_nat c) p 0) row) < 2 ^ m.
Proof.
  intros m p row Hp. induction row as [|c r IH]; cbn [map].
  - unfold xor_all. cbn [fold_right]. assert (2 ^ m <> 0) by (apply N.pow_nonzero; discriminate). lia.
  - unfold xor_all in *. cbn [fold_right]. apply lxor_below; [apply below_nth|]; assumption.
Qed.
Lemma table_below : forall m p s row cs, is_mul m -> all_below 128 p -> all_below 128 cs -> table_value m p s row cs < 2 ^ 128.
Proof.
  intros. rewrite table_value_dsum. apply lxor_below; [apply sparse_below|apply dsum_below]; assumption.
Qed.

Lemma dsum_add : forall m p p' cs col, is_mul m -> length p = length p' -> all_below 128 p -> all_below 128 p' ->
  all_below 128 cs -> dsum m (vxor p p') col cs = N.lxor (dsum m p col cs) (dsum m p' col cs).
Proof.
  intros m p p' cs. induction cs as [|c r IH]; intros col Hm L Hp Hp' Hc; [reflexivity|].
  inversion Hc; subst. cbn [dsum]. rewrite nth_vxor by assumption.
  rewrite mul_lr by (try assumption; apply below_nth; assumption). rewrite IH by assumption.
  xsolve.
Qed.
Lemma sparse_add : forall p p' row, length p = length p' ->
  xor_all (map (fun c => nth (N.to_nat c) (vxor p p') 0) row) =
  N.lxor (xor_all (map (fun c => nth (N.to_nat c) p 0) row)) (xor_all (map (fun c => nth (N.to_nat c) p' 0) row)).
Proof.
  intros p p' row L. induction row as [|c r IH]; [reflexivity|].
  unfold xor_all in *. cbn [map fold_right]. rewrite nth_vxor, IH by assumption. xsolve.
Qed.
Lemma table_add : forall m p p' s row cs, is_mul m -> length p = length p' -> all_below 128 p -> all_below 128 p' ->
  all_below 128 cs -> table_value m (vxor p p') s row cs = N.lxor (table_value m p s row cs) (table_value m p' s row cs).
Proof.
  intros. rewrite !table_value_dsum. rewrite sparse_add, dsum_add by assumption. xsolve.
Qed.

Lemma nth_scale : forall d p k, d < 2 ^ 128 -> nth k (map (gf_mul true d) p) 0 = gf_mul true d (nth k p 0).
Proof.
  intros d p k Hd. rewrite <- (map_nth (gf_mul true d)). rewrite (mul_comm d 0) by (try assumption; apply red0).
  rewrite mul_0_l by assumption. reflexivity.
Qed.
Lemma dsum_scale : forall d p cs col, d < 2 ^ 128 -> all_below 128 p -> all_below 128 cs ->
  dsum (gf_mul true) (map (gf_mul true d) p) col cs = gf_mul true d (dsum (gf_mul true) p col cs).
Proof.
  intros d p cs. induction cs as [|c r IH]; intros col Hd Hp Hc.
  - cbn [dsum]. rewrite (mul_comm d 0) by (try assumption; apply red0). rewrite mul_0_l by assumption. reflexivity.
  - inversion Hc; subst. cbn [dsum]. rewrite nth_scale, IH by assumption.
    assert (X := below_nth 128 p col Hp).
    rewrite mul_assoc by assumption. symmetry. apply mul_lxor_r; [assumption|apply mul_red; assumption|].
    apply (dsum_below (gf_mul true)); [apply gf_is_mul| |]; assumption.
Qed.
Lemma sparse_scale : forall d p row, d < 2 ^ 128 -> all_below 128 p ->
  xor_all (map (fun c => nth (N.to_nat c) (map (gf_mul true d) p) 0) row) =
  gf_mul true d (xor_all (map (fun c => nth (N.to_nat c) p 0) row)).
Proof.
  intros d p row Hd Hp. induction row as [|c r IH].
  - unfold xor_all. cbn [map fold_right]. rewrite (mul_comm d 0) by (try assumption; apply red0).
    rewrite mul_0_l by assumption. reflexivity.
  - unfold xor_all in *. cbn [map fold_right]. rewrite nth_scale, IH by assumption.
    symmetry. apply mul_lxor_r; [assumption|apply below_nth; assumption|]. apply (sparse_below 128 p r Hp).
Qed.
Lemma table_scale : forall d p s row cs, d < 2 ^ 128 -> all_below 128 p -> all_below 128 cs ->
  table_value (gf_mul true) (map (gf_mul true d) p) s row cs = gf_mul true d (table_value (gf_mul true) p s row cs).
Proof.
  intros d p s row cs Hd Hp Hc. rewrite !table_value_dsum. rewrite sparse_scale, dsum_scale by assumption.
  symmetry. apply mul_lxor_r; [assumption|apply (sparse_below 128); assumption|].
  apply (dsum_below (gf_mul true)); [apply gf_is_mul| |]; assumption.
Qed.
