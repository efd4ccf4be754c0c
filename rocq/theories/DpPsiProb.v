(** The probability of what alice sends, and how it changes with one item of alice's. *)
From Coq Require Import List NArith Bool Arith Lia Reals Lra Sorting.Permutation Sorting.Sorted.
From Verif Require Import Base BaseProofs Text TextProofs StoreModel EcdhModel DpPsiModel DpPsiSpec DpPsiProofs.
Import ListNotations.
Local Open Scope R_scope.

Lemma sumR_app : forall {A} (f : A -> R) l l', sumR f (l ++ l') = sumR f l + sumR f l'.
Proof. intros A f l l'. induction l as [|x r IH]; cbn [app sumR]; [lra|]. rewrite IH. lra. Qed.
Lemma sumR_map : forall {A B} (f : B -> R) (g : A -> B) l, sumR f (map g l) = sumR (fun x => f (g x)) l.
Proof. intros A B f g l. induction l as [|x r IH]; cbn [map sumR]; [reflexivity|]. rewrite IH. reflexivity. Qed.
Lemma sumR_ext : forall {A} (f g : A -> R) l, (forall x, f x = g x) -> sumR f l = sumR g l.
Proof. intros A f g l H. induction l as [|x r IH]; cbn [sumR]; [reflexivity|]. rewrite IH, H. reflexivity. Qed.
Lemma sumR_scal : forall {A} (f : A -> R) c l, sumR (fun x => c * f x) l = c * sumR f l.
Proof. intros A f c l. induction l as [|x r IH]; cbn [sumR]; [lra|]. rewrite IH. lra. Qed.
Lemma sumR_plus : forall {A} (f g : A -> R) l, sumR (fun x => f x + g x) l = sumR f l + sumR g l.
Proof. intros A f g l. induction l as [|x r IH]; cbn [sumR]; [lra|]. rewrite IH. lra. Qed.
Lemma sumR_le : forall {A} (f g : A -> R) l, (forall x, In x l -> f x <= g x) -> sumR f l <= sumR g l.
Proof.
  intros A f g l. induction l as [|x r IH]; intros H; cbn [sumR]; [lra|].
  assert (f x <= g x) by (apply H; left; reflexivity). assert (sumR f r <= sumR g r) by (apply IH; intros; apply H; right; assumption). lra.
Qed.

(** One coin per position: [true] means reported. *)
Fixpoint weave (mem x y : list bool) : list bool :=
  match mem with
  | [] => []
  | true :: r => nth 0 x false :: weave r (tl x) y
  | false :: r => nth 0 y false :: weave r x (tl y)
  end.
Definition trues (l : list bool) : nat := length (filter (fun b => b) l).
Definition falses (l : list bool) : nat := length (filter negb l).

Lemma weave_sum : forall p q mem (f : list bool -> R),
  sumR (fun x => sumR (fun y => coins_weight p x * coins_weight q y * f (weave mem x y)) (coin_lists (falses mem)))
       (coin_lists (trues mem)) =
  sumR (fun b => report_weight p q mem b * f b) (coin_lists (length mem)).
Proof.
  intros p q mem. induction mem as [|m r IH]; intros f.
  - cbn. lra.
  - unfold trues, falses. cbn [length coin_lists]. rewrite (sumR_app _ (map (cons true) (coin_lists (length r)))), !sumR_map.
    destruct m; cbn [filter negb length coin_lists].
    + fold (trues r) (falses r). rewrite sumR_app, !sumR_map. cbn [coins_weight weave nth tl report_weight].
      pose proof (IH (fun b => f (true :: b))) as I1. pose proof (IH (fun b => f (false :: b))) as I2. cbv beta in I1, I2.
      f_equal.
      * rewrite (sumR_ext (fun x => p * report_weight p q r x * f (true :: x)) (fun x => p * (report_weight p q r x * f (true :: x)))) by (intros; ring).
        rewrite sumR_scal, <- I1, <- sumR_scal. apply sumR_ext. intros x. rewrite <- sumR_scal. apply sumR_ext. intros y. ring.
      * rewrite (sumR_ext (fun x => (1 - p) * report_weight p q r x * f (false :: x)) (fun x => (1 - p) * (report_weight p q r x * f (false :: x)))) by (intros; ring).
        rewrite sumR_scal, <- I2, <- sumR_scal. apply sumR_ext. intros x. rewrite <- sumR_scal. apply sumR_ext. intros y. ring.
    + fold (trues r) (falses r).
      pose proof (IH (fun b => f (true :: b))) as I1. pose proof (IH (fun b => f (false :: b))) as I2. cbv beta in I1, I2.
      cbn [report_weight].
      rewrite (sumR_ext (fun x => q * report_weight p q r x * f (true :: x)) (fun x => q * (report_weight p q r x * f (true :: x)))) by (intros; ring).
      rewrite (sumR_ext (fun x => (1 - q) * report_weight p q r x * f (false :: x)) (fun x => (1 - q) * (report_weight p q r x * f (false :: x)))) by (intros; ring).
      rewrite !sumR_scal, <- I1, <- I2, <- !sumR_scal, <- sumR_plus. apply sumR_ext. intros x.
      rewrite sumR_app, !sumR_map, <- !sumR_scal. cbn [coins_weight weave nth tl].
      f_equal; apply sumR_ext; intros y; ring.
Qed.


Lemma picked_sorted : forall b i, StronglySorted le (picked i b).
Proof.
  induction b as [|c r IH]; intros i; [constructor|]. unfold picked. cbn [number filter snd].
  destruct c; [|apply IH]. cbn [map fst]. constructor; [apply IH|]. rewrite Forall_forall. intros j Hj.
  apply number_bound in Hj. lia.
Qed.

Lemma coin_of_cons : forall x (l : list nat), dp_samples (coin_of x) 1 l = dp_samples (coin_of (tl x)) 0 l.
Proof.
  intros x l. rewrite samples_shift. generalize 0%nat. induction l as [|a r IH]; intros k; [reflexivity|]. cbn [dp_samples]. rewrite IH.
  unfold coin_of. destruct x; [cbn; destruct k; reflexivity|reflexivity].
Qed.

Section M.
Variable f : bytes -> bool.
Lemma picked_perm : forall l i x y,
  Permutation (dp_samples (coin_of x) 0 (map fst (filter (fun p => f (snd p)) (number i l))) ++
               dp_samples (coin_of y) 0 (map fst (filter (fun p => negb (f (snd p))) (number i l))))
              (picked i (weave (map f l) x y)).
Proof.
  induction l as [|a r IH]; intros i x y; [reflexivity|]. cbn [number filter snd map].
  unfold picked. destruct (f a); cbn [negb weave number filter snd map fst dp_samples].
  - rewrite coin_of_cons. change (coin_of x 0) with (nth 0 x false). destruct (nth 0 x false); cbn [map fst app].
    + constructor. apply IH.
    + apply IH.
  - rewrite coin_of_cons. change (coin_of y 0) with (nth 0 y false). destruct (nth 0 y false); cbn [map fst].
    + rewrite <- Permutation_middle. constructor. apply IH.
    + apply IH.
Qed.
End M.

Lemma trues_map : forall (f : bytes -> bool) l i, trues (map f l) = length (map fst (filter (fun p => f (snd p)) (number i l))).
Proof.
  intros f l. unfold trues. induction l as [|a r IH]; intros i; [reflexivity|]. cbn [map filter number snd].
  destruct (f a); cbn [length map]; rewrite (IH (S i)); reflexivity.
Qed.
Lemma falses_map : forall (f : bytes -> bool) l i, falses (map f l) = length (map fst (filter (fun p => negb (f (snd p))) (number i l))).
Proof.
  intros f l. unfold falses. induction l as [|a r IH]; intros i; [reflexivity|]. cbn [map filter number snd].
  destruct (f a); cbn [length map negb]; rewrite (IH (S i)); reflexivity.
Qed.

(** The probability of an event about the indices alice sends. *)
Definition sent_prob (p q : R) (A B : list bytes) (S : list nat -> bool) : R :=
  probability (length (where_in A B)) p (length (where_out A B)) q
    (fun c2 cq => S (da_sent (dp_alice_choose c2 cq (where_in A B) (where_out A B)))).

Lemma sent_prob_sum : forall p q A B S, where_out A B <> [] ->
  sent_prob p q A B S =
  sumR (fun b => report_weight p q (map (held A) B) b * (if S (picked 0 b) then 1 else 0)) (coin_lists (length B)).
Proof.
  intros p q A B S H. unfold sent_prob, probability.
  rewrite <- (map_length (held A) B), <- weave_sum.
  rewrite (trues_map (held A) B 0), (falses_map (held A) B 0). fold (where_in A B) (where_out A B).
  apply sumR_ext. intros x. apply sumR_ext. intros y.
  unfold dp_alice_choose. destruct (where_out A B) as [|n r] eqn:E; [contradiction|]. cbn [da_sent]. rewrite <- E.
  replace (dp_sort _) with (picked 0 (weave (map (held A) B) x y)); [reflexivity|]. symmetry.
  apply sorted_unique; [apply dp_sort_sorted | apply picked_sorted |]. rewrite dp_sort_perm. apply picked_perm.
Qed.

Lemma weight_nonneg : forall p q, 0 <= p <= 1 -> 0 <= q <= 1 -> forall mem b, 0 <= report_weight p q mem b.
Proof.
  intros p q Hp Hq mem. induction mem as [|m r IH]; intros [|c s]; cbn [report_weight]; try lra.
  apply Rmult_le_pos; [|apply IH]. destruct m, c; cbv zeta; lra.
Qed.

Lemma weight_ratio : forall E q z, 0 < q <= 1/2 -> 1 - q = E * q -> 1 <= E ->
  forall (f g : bytes -> bool) l b, (forall x, In x l -> x <> z -> f x = g x) ->
  report_weight (1 - q) q (map f l) b <= E ^ occurrences z l * report_weight (1 - q) q (map g l) b.
Proof.
  intros E q z Hq HE E1 f g l. unfold occurrences. induction l as [|a r IH]; intros b H.
  - cbn. lra.
  - assert (N : 0 <= report_weight (1 - q) q (map g r) (tl b)) by (apply weight_nonneg; lra).
    assert (EP : 0 < E ^ length (filter (beqb z) r)) by (apply pow_lt; lra).
    assert (E2 : 1 <= E ^ length (filter (beqb z) r)) by (apply pow_R1_Rle; exact E1).
    destruct b as [|c s].
    + cbn [map report_weight]. assert (1 <= E ^ length (filter (beqb z) (a :: r))) by (apply pow_R1_Rle; exact E1). lra.
    + cbn [map report_weight filter tl] in *. specialize (IH s (fun x Hx => H x (or_intror Hx))).
      set (W := report_weight (1 - q) q (map f r) s) in *. set (W' := report_weight (1 - q) q (map g r) s) in *.
      set (K := E ^ length (filter (beqb z) r)) in *.
      assert (W0 : 0 <= W) by (apply weight_nonneg; lra).
      destruct (beqb z a) eqn:Ez.
      * cbn [length pow]. fold K.
        set (u := let t := if f a then 1 - q else q in if c then t else 1 - t).
        set (v := let t := if g a then 1 - q else q in if c then t else 1 - t).
        assert (UV : u <= E * v) by (unfold u, v; destruct (f a), (g a), c; cbv zeta; nra).
        assert (U0 : 0 <= u) by (unfold u; destruct (f a), c; cbv zeta; lra).
        assert (V0 : 0 <= v) by (unfold v; destruct (g a), c; cbv zeta; lra).
        apply Rle_trans with (E * v * (K * W')); [|apply Req_le; ring].
        apply Rmult_le_compat; assumption.
      * rewrite (H a); [|left; reflexivity|].
        2:{ intros Z. subst a. assert (beqb z z = true) by (apply beqb_spec; reflexivity). congruence. }
        set (v := let t := if g a then 1 - q else q in if c then t else 1 - t).
        assert (V0 : 0 <= v) by (unfold v; destruct (g a), c; cbv zeta; lra).
        fold K. apply Rle_trans with (v * (K * W')); [|apply Req_le; ring]. apply Rmult_le_compat_l; assumption.
Qed.

Lemma held_In : forall A x, held A x = true <-> In x A.
Proof.
  intros A x. unfold held. rewrite existsb_exists. split.
  - intros (y & Hy & E). apply beqb_spec in E. subst y. exact Hy.
  - intros H. exists x. split; [exact H|]. apply beqb_spec. reflexivity.
Qed.
Lemma where_out_ne : forall A B y, In y B -> ~ In y A -> where_out A B <> [].
Proof.
  intros A B y HB HA. unfold where_out. generalize 0%nat. revert HB. induction B as [|b r IH]; intros HB i; [contradiction|].
  cbn [number filter snd]. destruct (held A b) eqn:E; cbn [negb].
  - destruct HB as [->|HB]; [apply held_In in E; contradiction|]. apply IH, HB.
  - discriminate.
Qed.
Lemma where_out_nil : forall A B, (forall y, In y B -> In y A) -> where_out A B = [].
Proof.
  intros A B. unfold where_out. generalize 0%nat. induction B as [|b r IH]; intros i H; [reflexivity|].
  cbn [number filter snd]. rewrite (proj2 (held_In A b)) by (apply H; left; reflexivity). cbn [negb].
  apply IH. intros y Hy. apply H. right. exact Hy.
Qed.

Lemma sent_ratio : forall E q z A A' B S, 0 < q <= 1/2 -> 1 - q = E * q -> 1 <= E ->
  (forall x, x <> z -> (In x A <-> In x A')) -> where_out A B <> [] -> where_out A' B <> [] ->
  sent_prob (1 - q) q A B S <= E ^ occurrences z B * sent_prob (1 - q) q A' B S.
Proof.
  intros E q z A A' B S Hq HE E1 H N N'. rewrite !sent_prob_sum by assumption. rewrite <- sumR_scal.
  apply sumR_le. intros b _. rewrite <- Rmult_assoc. apply Rmult_le_compat_r; [destruct (S (picked 0 b)); lra|].
  apply weight_ratio; [exact Hq|exact HE|exact E1|]. intros x _ Hx. apply eq_true_iff_eq. rewrite !held_In. apply H, Hx.
Qed.

Lemma keep_fake : forall eps, 0 <= eps ->
  0 < fake_prob eps <= 1/2 /\ keep_prob eps = 1 - fake_prob eps /\ 1 - fake_prob eps = exp eps * fake_prob eps /\ 1 <= exp eps.
Proof.
  intros eps H. pose proof (exp_ineq1_le eps) as H1.
  assert (E1 : 1 <= exp eps) by lra. unfold fake_prob, keep_prob.
  assert (F : 1 - exp eps / (1 + exp eps) = / (1 + exp eps)) by (field; lra). rewrite F.
  assert (P : 0 < / (1 + exp eps)) by (apply Rinv_0_lt_compat; lra).
  assert (B : / (1 + exp eps) <= / 2) by (apply Rinv_le_contravar; lra).
  repeat split; try lra; field; lra.
Qed.

Lemma coins_total : forall p n, sumR (coins_weight p) (coin_lists n) = 1.
Proof.
  intros p n. induction n as [|n IH]; [cbn; lra|]. cbn [coin_lists]. rewrite sumR_app, !sumR_map. cbn [coins_weight].
  rewrite !sumR_scal, IH. lra.
Qed.
Lemma probability_const : forall n1 p1 n2 p2 (e : (nat -> bool) -> (nat -> bool) -> bool) v, (forall x y, e x y = v) ->
  probability n1 p1 n2 p2 e = if v then 1 else 0.
Proof.
  intros n1 p1 n2 p2 e v H. unfold probability.
  rewrite (sumR_ext _ (fun x => (if v then 1 else 0) * coins_weight p1 x)).
  - rewrite sumR_scal, coins_total. lra.
  - intros x. rewrite (sumR_ext _ (fun y => (coins_weight p1 x * (if v then 1 else 0)) * coins_weight p2 y)).
    + rewrite sumR_scal, coins_total. lra.
    + intros y. rewrite H. lra.
Qed.
Lemma probability_ext : forall n1 p1 n2 p2 (e e' : (nat -> bool) -> (nat -> bool) -> bool), (forall x y, e x y = e' x y) ->
  probability n1 p1 n2 p2 e = probability n1 p1 n2 p2 e'.
Proof. intros. unfold probability. apply sumR_ext. intros x. apply sumR_ext. intros y. rewrite H. reflexivity. Qed.
Lemma sent_full : forall p q A B S, (forall y, In y B -> In y A) -> sent_prob p q A B S = if S [] then 1 else 0.
Proof. intros p q A B S H. unfold sent_prob. apply probability_const. intros x y. rewrite (where_out_nil A B H). reflexivity. Qed.

(** The probability of one particular answer. *)
Lemma picked_first : forall b i, ~ In i (picked (S i) b).
Proof. intros b i H. apply number_bound in H. lia. Qed.
Lemma one_answer : forall p q mem i b, length b = length mem ->
  sumR (fun b' => report_weight p q mem b' * (if list_eq_dec Nat.eq_dec (picked i b') (picked i b) then 1 else 0))
       (coin_lists (length mem)) = report_weight p q mem b.
Proof.
  intros p q mem. induction mem as [|m r IH]; intros i b L.
  - destruct b; [|discriminate L]. cbn. lra.
  - destruct b as [|c s]; [discriminate L|]. cbn [length coin_lists]. rewrite sumR_app, !sumR_map. cbn [report_weight].
    specialize (IH (S i) s (eq_add_S _ _ L)).
    set (t := if m then p else q).
    assert (T : forall c' : bool, sumR (fun x : list bool => (if c' then t else 1 - t) * report_weight p q r x *
                (if list_eq_dec Nat.eq_dec (picked i (c' :: x)) (picked i (c :: s)) then 1 else 0)) (coin_lists (length r)) =
              if Bool.eqb c' c then (if c' then t else 1 - t) * report_weight p q r s else 0).
    { intros c'. destruct (Bool.eqb c' c) eqn:Ec.
      - apply eqb_prop in Ec. subst c'. rewrite <- IH, <- sumR_scal. apply sumR_ext. intros x. rewrite Rmult_assoc. do 2 f_equal.
        destruct (list_eq_dec Nat.eq_dec (picked i (c :: x)) (picked i (c :: s))) as [e|n];
        destruct (list_eq_dec Nat.eq_dec (picked (S i) x) (picked (S i) s)) as [e'|n']; try reflexivity; exfalso.
        + apply n'. unfold picked in *. cbn [number filter snd] in e. destruct c; cbn [map fst] in e; [injection e as e|]; exact e.
        + apply n. unfold picked in *. cbn [number filter snd]. destruct c; cbn [map fst]; rewrite e'; reflexivity.
      - rewrite (sumR_ext _ (fun x : list bool => 0 * 0)); [rewrite (sumR_scal (fun _ : list bool => 0)); lra|]. intros x.
        destruct (list_eq_dec Nat.eq_dec (picked i (c' :: x)) (picked i (c :: s))) as [e|n]; [exfalso|lra].
        unfold picked in e. cbn [number filter snd] in e.
        destruct c', c; try discriminate Ec; cbn [map fst] in e.
        + apply (picked_first s i). unfold picked. rewrite <- e. left. reflexivity.
        + apply (picked_first x i). unfold picked. rewrite e. left. reflexivity. }
    pose proof (T true) as T1. pose proof (T false) as T2. cbv iota in T1, T2. unfold t in T1, T2 |- *. cbv zeta.
    rewrite T1, T2. destruct c; cbn [Bool.eqb]; lra.
Qed.
