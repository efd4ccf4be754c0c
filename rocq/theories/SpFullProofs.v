(** Lemmas for C68. *)
From Coq Require Import List Arith NArith ZArith Bool Lia.
From Verif Require Import Base StoreModel Text PirPackModel PirPackSpec PirPackProofs2 PirPackProofs3 SpArithModel SpGadgetModel SpGadgetSpec SpDecodeModel SpDecodeSpec SpSelModel SpSrvModel SpSrvSpec.
Import ListNotations.
Local Open Scope N_scope.

Lemma map_out_len : forall (A C : Type) (f : A -> outcome C) l l', map_out f l = Ok l' -> length l' = length l.
Proof.
  intros A C f l. induction l as [|x l IH]; intros l' E; cbn [map_out] in E.
  - injection E as <-. reflexivity.
  - destruct (f x) as [y| | |]; try discriminate. cbn [bind] in E. destruct (map_out f l) as [ys| | |]; try discriminate.
    cbn [bind] in E. injection E as <-. cbn. rewrite (IH ys); reflexivity.
Qed.

Lemma rescale_rows_shape : forall pl m a b im om m', rescale_rows pl m a b im om = Ok m' ->
  rm_rows m' = rm_rows m /\ rm_cols m' = rm_cols m /\ length (rm_data m') = length (rm_data m).
Proof.
  intros pl m a b im om m' E. unfold rescale_rows in E. destruct (_ <? _)%nat; [|discriminate]. destruct (_ <=? _)%nat; [|discriminate]. cbn [enforce] in E.
  destruct (map_out _ _) as [d| | |] eqn:Ed; try discriminate. cbn [bind] in E. injection E as <-. cbn [rm_rows rm_cols rm_data].
  apply map_out_len in Ed. rewrite seq_length in Ed. auto.
Qed.
Lemma mod_switch_shape : forall pl m q p q2 m', mod_switch pl m q p q2 = Ok m' ->
  rm_rows m' = rm_rows m /\ rm_cols m' = rm_cols m /\ length (rm_data m') = length (rm_data m).
Proof.
  intros pl m q p q2 m' E. unfold mod_switch in E. destruct (rescale_rows pl m 0 1 q q2) as [m1| | |] eqn:E1; try discriminate. cbn [bind] in E.
  apply rescale_rows_shape in E1 as (A & B & C). apply rescale_rows_shape in E as (D & F & G). rewrite D, F, G. auto.
Qed.
Lemma decode_length : forall pl mul n q p q2 sk resp d, decode_response pl mul n q p q2 sk resp = Ok (RawMat n n d) -> length d = (n * n * pl)%nat.
Proof.
  intros pl mul n q p q2 sk resp d E. unfold decode_response in E.
  repeat match type of E with bind ?x _ = _ => destruct x eqn:?; try discriminate; cbn [bind] in E end. injection E as <-.
  match goal with H : map_out _ (seq 0 (n * n * pl)) = Ok _ |- _ => apply map_out_len in H; rewrite seq_length in H; exact H end.
Qed.

(** A decoded matrix whose entries are the coefficients of a plaintext is that plaintext. *)
Lemma decoded_is_plaintext : forall n L d part idx, length d = (n * n * 2 ^ L)%nat -> length (nth idx part []) = (n * n * 2 ^ L)%nat ->
  (forall r c z, (r < n)%nat -> (c < n)%nat -> (z < 2 ^ L)%nat -> coeff (2 ^ L) n d r c z = pt_of L part (r * n + c) idx z) ->
  d = nth idx part [].
Proof.
  intros n L d part idx Hd Hp H. apply (nth_ext _ _ 0 0); [lia|]. intros x Hx. rewrite Hd in Hx.
  pose proof (Nat.pow_nonzero 2 L ltac:(lia)) as Hl. set (w := (2 ^ L)%nat) in *.
  assert (Hn : n <> 0%nat) by (intros ->; lia).
  set (y := (x / w)%nat). assert (Hy : (y < n * n)%nat) by (apply Nat.div_lt_upper_bound; lia).
  assert (Hr : (y / n < n)%nat) by (apply Nat.div_lt_upper_bound; lia).
  pose proof (H (y / n)%nat (y mod n)%nat (x mod w)%nat Hr ltac:(apply Nat.mod_upper_bound; lia) ltac:(apply Nat.mod_upper_bound; lia)) as E.
  unfold coeff, pt_of in E. fold w in E.
  replace (y / n * n + y mod n)%nat with y in E by (pose proof (Nat.div_mod y n ltac:(lia)); lia).
  replace (y * w + x mod w)%nat with x in E by (unfold y; pose proof (Nat.div_mod x w ltac:(lia)); lia). exact E.
Qed.

Lemma select_all : forall k parts resp, select_pts k parts = Ok resp -> resp = map (fun p => nth k p []) parts /\ Forall (fun p : list (list N) => (k < length p)%nat) parts.
Proof.
  intros k parts. induction parts as [|p parts IH]; intros resp E; unfold select_pts in *; cbn [map_out] in E.
  - injection E as <-. split; [reflexivity|constructor].
  - destruct (nth_error p k) as [c|] eqn:En; [|discriminate]. cbn [bind] in E. destruct (map_out _ parts) as [ys| | |] eqn:Ey; try discriminate.
    cbn [bind] in E. injection E as <-. destruct (IH ys eq_refl) as [-> F]. split.
    + cbn [map]. f_equal. symmetry. apply nth_error_nth. exact En.
    + constructor; [|exact F]. apply nth_error_Some. congruence.
Qed.
