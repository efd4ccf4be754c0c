From Coq Require Import List NArith Lia Bool Permutation Sorted Arith.
From Verif Require Import Base BaseProofs JoinModel JoinSpec JoinProofs JoinProofs2 JoinProofs3 JoinProofs4.
Import ListNotations.

Section Exact.
Variable Key : Type.
Variable keqb : Key -> Key -> bool.
Hypothesis keqb_spec : forall a b, keqb a b = true <-> a = b.
Variable Row : Type.
Variable key : Row -> Key.

Lemma exact_index_bounds : forall dk i peer,
  valid_from i (i + N.of_nat (length dk)) (exact_index_from keqb key i dk peer).
Proof.
  induction dk as [|k dk IH]; intros i peer; cbn [exact_index_from length]; [exact I|].
  specialize (IH (i + 1)%N peer).
  replace (i + 1 + N.of_nat (length dk))%N with (i + N.of_nat (S (length dk)))%N in IH by lia.
  destruct (key_count keqb key k peer) as [|n].
  - eapply valid_from_weaken; [|exact IH]. lia.
  - cbn [valid_from]. split; [lia|exact IH].
Qed.

Lemma exact_index_valid : forall dk peer, valid_index (length dk) (exact_index keqb key dk peer).
Proof.
  intros. pose proof (exact_index_bounds dk 0 peer) as H. apply valid_index_from in H.
  destruct H as [H1 H2]. split; auto. eapply Forall_impl; [|exact H2].
  intros a Ha. simpl in *. lia.
Qed.

Lemma key_count_le : forall k peer, key_count keqb key k peer <= length peer.
Proof.
  intros k peer. unfold key_count. induction peer as [|r peer IH]; simpl; auto.
  destruct (keqb k (key r)); simpl; lia.
Qed.

Lemma exact_index_snd : forall dk i peer, (N.of_nat (length peer) < max32)%N ->
  Forall (fun ip => (snd ip < max32)%N) (exact_index_from keqb key i dk peer).
Proof.
  induction dk as [|k dk IH]; intros i peer Hb; cbn [exact_index_from]; [constructor|].
  pose proof (key_count_le k peer).
  destruct (key_count keqb key k peer) as [|n]; auto.
  constructor; auto. simpl. lia.
Qed.

Lemma exact_mult_from : forall dk i a peer k,
  NoDup (a ++ dk) -> N.of_nat (length a) = i -> In k dk ->
  listed_mult keqb (a ++ dk) (exact_index_from keqb key i dk peer) k = key_count keqb key k peer.
Proof.
  induction dk as [|k0 dk IH]; intros i a peer k Hn Hi Hk; [destruct Hk|].
  cbn [exact_index_from].
  assert (Hpos : nth_error (a ++ k0 :: dk) (N.to_nat i) = Some k0).
  { rewrite nth_error_app2 by lia. replace (N.to_nat i - length a) with 0 by lia. reflexivity. }
  assert (HIH : In k dk -> listed_mult keqb (a ++ k0 :: dk) (exact_index_from keqb key (i + 1) dk peer) k
                = key_count keqb key k peer).
  { intros Hin. replace (a ++ k0 :: dk) with ((a ++ [k0]) ++ dk) in * by (rewrite <- app_assoc; reflexivity).
    apply IH; auto. rewrite app_length. simpl. lia. }
  destruct (key_count keqb key k0 peer) as [|n] eqn:Ec.
  - destruct Hk as [->|Hk]; [|auto].
    rewrite Ec. unfold listed_mult.
    destruct (find _ _) as [[j p]|] eqn:Ef; [|reflexivity]. exfalso.
    apply find_some in Ef. destruct Ef as [Hin Hm]. cbn [fst] in Hm.
    destruct (nth_error (a ++ k :: dk) (N.to_nat j)) eqn:En; [|discriminate].
    apply keqb_spec in Hm. subst k0.
    pose proof (exact_index_bounds dk (i + 1) peer) as Hb. apply valid_index_from in Hb.
    destruct Hb as [_ Hb]. rewrite Forall_forall in Hb. specialize (Hb _ Hin). simpl in Hb.
    assert (N.to_nat j = N.to_nat i).
    { rewrite NoDup_nth_error in Hn. apply Hn.
      - apply nth_error_Some. rewrite En. discriminate.
      - rewrite En, Hpos. reflexivity. }
    lia.
  - unfold listed_mult. cbn [find fst]. rewrite Hpos.
    destruct (keqb k0 k) eqn:Ek.
    + apply keqb_spec in Ek. subst k0. rewrite Ec. lia.
    + destruct Hk as [->|Hk]; [rewrite (proj2 (keqb_spec k k) eq_refl) in Ek; discriminate|].
      apply HIH. exact Hk.
Qed.

Lemma exact_mult : forall dk peer k,
  NoDup dk -> In k dk ->
  listed_mult keqb dk (exact_index keqb key dk peer) k = key_count keqb key k peer.
Proof. intros. apply (exact_mult_from dk 0%N [] peer k); auto. Qed.

(** Rows of [peer] whose key is in [dk]. *)
Definition rows_in (dk : list Key) (peer : list Row) : list Row :=
  filter (fun r => existsb (fun k => keqb k (key r)) dk) peer.

Lemma exact_sum_peer : forall dk i peer, NoDup dk ->
  sum_peer (exact_index_from keqb key i dk peer) = N.of_nat (length (rows_in dk peer)).
Proof.
  induction dk as [|k dk IH]; intros i peer Hn; cbn [exact_index_from].
  - unfold rows_in. simpl. rewrite filter_none; auto.
  - inversion Hn as [|? ? Hni Hn']; subst.
    assert (Hs : length (rows_in (k :: dk) peer) = key_count keqb key k peer + length (rows_in dk peer)).
    { unfold rows_in, key_count. clear IH. induction peer as [|r peer IHp]; simpl; auto.
      destruct (keqb k (key r)) eqn:E; simpl.
      - assert (Hex : existsb (fun k0 => keqb k0 (key r)) dk = false).
        { apply not_true_is_false. intros Hex. apply existsb_exists in Hex.
          destruct Hex as (k' & Hin & Hk'). apply keqb_spec in Hk', E. subst. auto. }
        rewrite Hex. simpl in IHp. lia.
      - simpl in IHp. destruct (existsb (fun k0 => keqb k0 (key r)) dk); simpl; lia. }
    rewrite Hs. destruct (key_count keqb key k peer) as [|n]; cbn [sum_peer]; rewrite IH; auto; lia.
Qed.

End Exact.

Lemma sorted_fst_strict : forall l : list (N * N),
  StronglySorted (fun a b => (fst a <=? fst b)%N = true) l -> NoDup (map fst l) ->
  StronglySorted (fun a b => (fst a < fst b)%N) l.
Proof.
  induction 1 as [|x l Hs IH Hf]; intros Hn; simpl in Hn; [constructor|].
  inversion Hn as [|? ? Hni Hn']; subst. constructor; auto.
  rewrite Forall_forall in *. intros y Hy. specialize (Hf _ Hy). apply N.leb_le in Hf.
  assert (fst x <> fst y) by (intros E; apply Hni; rewrite E; apply in_map; auto). lia.
Qed.

Lemma lt_sorted_nodup : forall l, StronglySorted N.lt l -> NoDup l.
Proof.
  induction 1 as [|x l Hs IH Hf]; constructor; auto.
  intros Hin. rewrite Forall_forall in Hf. specialize (Hf _ Hin). lia.
Qed.

Lemma sorted_map_fst : forall l : list (N * N),
  StronglySorted N.lt (map fst l) -> StronglySorted (fun a b => (fst a < fst b)%N) l.
Proof.
  induction l as [|x l IH]; intros H; [constructor|].
  inversion H as [|? ? Hs Hf]; subst. constructor; auto.
  rewrite Forall_forall in *. intros y Hy. apply Hf. apply in_map. auto.
Qed.

Lemma sort_index_unique : forall f l,
  Permutation f l -> StronglySorted N.lt (map fst l) -> sort_index_file f = l.
Proof.
  intros f l Hp Hs. unfold sort_index_file.
  assert (Hp2 : Permutation (sort_by (fun a b : N * N => (fst a <=? fst b)%N) f) l).
  { rewrite sort_perm. exact Hp. }
  apply (sorted_perm_unique _ (fun a b : N * N => (fst a < fst b)%N)); auto.
  - intros x y H1 H2. lia.
  - apply sorted_fst_strict.
    + apply sort_sorted.
      * intros x y. rewrite !N.leb_le. lia.
      * intros x y z. rewrite !N.leb_le. lia.
    + eapply Permutation_NoDup; [|apply lt_sorted_nodup; exact Hs].
      apply Permutation_map. apply Permutation_sym. exact Hp2.
  - apply sorted_map_fst. exact Hs.
Qed.

(* ------------------------------------------------------------------ *)
(** * Rows multiplied by the peer's count *)
Section Two.
Variable Key : Type.
Variable keqb : Key -> Key -> bool.
Hypothesis keqb_spec : forall a b, keqb a b = true <-> a = b.

Definition key_dec : forall a b : Key, {a = b} + {a <> b}.
Proof.
  intros a b. destruct (keqb a b) eqn:E.
  - left. apply keqb_spec. exact E.
  - right. intros H. apply keqb_spec in H. congruence.
Defined.

Lemma keqb_sym : forall a b, keqb a b = keqb b a.
Proof.
  intros a b. destruct (keqb a b) eqn:E; destruct (keqb b a) eqn:E2; auto.
  - apply keqb_spec in E. subst. rewrite (proj2 (keqb_spec b b) eq_refl) in E2. discriminate.
  - apply keqb_spec in E2. subst. rewrite (proj2 (keqb_spec a a) eq_refl) in E. discriminate.
Qed.

Lemma count_occ_keys : forall (Row : Type) (key : Row -> Key) rows k,
  count_occ key_dec (map key rows) k = key_count keqb key k rows.
Proof.
  intros Row key rows k. unfold key_count. induction rows as [|r rows IH]; auto.
  simpl. destruct (key_dec (key r) k) as [E|E].
  - subst. rewrite (proj2 (keqb_spec _ _) eq_refl). simpl. lia.
  - destruct (keqb k (key r)) eqn:Ek; auto. apply keqb_spec in Ek. congruence.
Qed.

Lemma key_count_perm : forall (Row : Type) (key : Row -> Key) a b k,
  Permutation a b -> key_count keqb key k a = key_count keqb key k b.
Proof.
  intros Row key a b k Hp. rewrite <- !count_occ_keys.
  apply Permutation_count_occ. apply Permutation_map. exact Hp.
Qed.

Lemma count_intersect : forall (Row : Type) (key : Row -> Key) (mult : Key -> nat) rows k,
  count_occ key_dec (map key (intersect_rows key mult rows)) k = key_count keqb key k rows * mult k.
Proof.
  intros Row key mult rows k. unfold intersect_rows.
  induction rows as [|r rows IH]; auto.
  simpl. rewrite map_app, count_occ_app, IH. unfold key_count. simpl.
  assert (Hr : forall n, count_occ key_dec (map key (repeat r n)) k = if key_dec (key r) k then n else 0).
  { induction n as [|n IHn]; simpl; [destruct (key_dec (key r) k); auto|].
    destruct (key_dec (key r) k); rewrite IHn; auto. }
  rewrite Hr. destruct (key_dec (key r) k) as [E|E].
  - rewrite E. rewrite (proj2 (keqb_spec k k) eq_refl). simpl. lia.
  - destruct (keqb k (key r)) eqn:Ek; auto. apply keqb_spec in Ek. congruence.
Qed.

Section Sorted.
Variable R : Key -> Key -> Prop.
Hypothesis R_refl : forall x, R x x.
Hypothesis R_anti : forall x y, R x y -> R y x -> x = y.

Lemma intersect_sorted : forall (Row : Type) (key : Row -> Key) (mult : Key -> nat) rows,
  StronglySorted R (map key rows) -> StronglySorted R (map key (intersect_rows key mult rows)).
Proof.
  intros Row key mult rows. unfold intersect_rows.
  induction rows as [|r rows IH]; intros H; simpl; [constructor|].
  simpl in H. inversion H as [|? ? Hs Hf]; subst.
  rewrite map_app. specialize (IH Hs).
  assert (Hin : forall x, In x (map key (flat_map (fun r0 => repeat r0 (mult (key r0))) rows)) ->
                          In x (map key rows)).
  { intros x Hx. apply in_map_iff in Hx. destruct Hx as (y & <- & Hy).
    apply in_flat_map in Hy. destruct Hy as (z & Hz & Hy). apply repeat_spec in Hy. subst.
    apply in_map. auto. }
  rewrite Forall_forall in Hf.
  induction (mult (key r)) as [|n IHn]; simpl; auto.
  constructor; auto. rewrite Forall_forall. intros x Hx. apply in_app_iff in Hx.
  destruct Hx as [Hx|Hx]; auto.
  apply in_map_iff in Hx. destruct Hx as (y & <- & Hy). apply repeat_spec in Hy. subst. auto.
Qed.

Lemma intersect_aligned : forall (L Rr : Type) (lkey : L -> Key) (rkey : Rr -> Key) ls rs,
  StronglySorted R (map lkey ls) -> StronglySorted R (map rkey rs) ->
  map lkey (intersect_rows lkey (fun k => key_count keqb rkey k rs) ls) =
  map rkey (intersect_rows rkey (fun k => key_count keqb lkey k ls) rs).
Proof.
  intros L Rr lkey rkey ls rs H1 H2.
  apply (sorted_perm_unique _ R); auto using intersect_sorted.
  apply (Permutation_count_occ key_dec). intros k. rewrite !count_intersect. lia.
Qed.
End Sorted.

Lemma Forall2_map_eq : forall (A B : Type) (f : A -> Key) (g : B -> Key) l1 l2,
  map f l1 = map g l2 ->
  Forall2 (lines_match f g) (map Some l1) (map Some l2).
Proof.
  induction l1 as [|a l1 IH]; intros [|b l2] H; try discriminate; simpl; constructor.
  - simpl. inversion H. auto.
  - apply IH. inversion H. auto.
Qed.

Lemma Forall2_right_null : forall (A B : Type) (f : A -> Key) (g : B -> Key) l,
  Forall2 (lines_match f g) (map Some l) (repeat None (length l)).
Proof. induction l; simpl; constructor; simpl; auto. Qed.

Lemma Forall2_left_null : forall (A B : Type) (f : A -> Key) (g : B -> Key) l,
  Forall2 (lines_match f g) (repeat None (length l)) (map Some l).
Proof. induction l; simpl; constructor; simpl; auto. Qed.

(** SQL projections. *)
Lemma sql_matched_fst : forall (L Rr : Type) (lkey : L -> Key) (rkey : Rr -> Key) ls rs,
  map fst (sql_matched keqb lkey rkey ls rs) =
  map Some (intersect_rows lkey (fun k => key_count keqb rkey k rs) ls).
Proof.
  intros L Rr lkey rkey ls rs. unfold sql_matched, intersect_rows, key_count.
  induction ls as [|l ls IH]; auto.
  simpl. rewrite !map_app, IH. f_equal.
  rewrite map_map. simpl.
  induction (filter (fun r => keqb (lkey l) (rkey r)) rs); simpl; f_equal; auto.
Qed.

Lemma sql_matched_snd : forall (L Rr : Type) (lkey : L -> Key) (rkey : Rr -> Key) ls rs,
  Permutation (map snd (sql_matched keqb lkey rkey ls rs))
  (map Some (intersect_rows rkey (fun k => key_count keqb lkey k ls) rs)).
Proof.
  intros L Rr lkey rkey ls rs. unfold sql_matched, intersect_rows.
  induction ls as [|l ls IH].
  - simpl. rewrite flat_map_zero; auto.
  - simpl. rewrite map_app, IH. rewrite map_map. simpl.
    rewrite <- map_app. apply Permutation_map.
    clear IH. induction rs as [|r rs IHr]; simpl; auto.
    assert (Hkc : forall k, key_count keqb lkey k (l :: ls) =
              (if keqb k (lkey l) then 1 else 0) + key_count keqb lkey k ls).
    { intros k. unfold key_count. simpl. destruct (keqb k (lkey l)); reflexivity. }
    rewrite Hkc. rewrite (keqb_sym (rkey r) (lkey l)).
    destruct (keqb (lkey l) (rkey r)) eqn:E; simpl.
    + constructor. rewrite <- IHr.
      rewrite !app_assoc. apply Permutation_app_tail. apply Permutation_app_comm.
    + rewrite <- IHr.
      rewrite !app_assoc. apply Permutation_app_tail. apply Permutation_app_comm.
Qed.

Lemma existsb_count : forall (Row : Type) (key : Row -> Key) k rows,
  negb (existsb (fun r => keqb k (key r)) rows) = Nat.eqb (key_count keqb key k rows) 0.
Proof.
  intros Row key k rows. unfold key_count. induction rows as [|r rows IH]; auto.
  simpl. destruct (keqb k (key r)); auto.
Qed.

Lemma sql_left_only_eq : forall (L Rr : Type) (lkey : L -> Key) (rkey : Rr -> Key) ls rs,
  sql_left_only keqb lkey rkey ls rs =
  map (fun l => (Some l, None)) (except_rows lkey (fun k => key_count keqb rkey k rs) ls).
Proof.
  intros. unfold sql_left_only, except_rows. f_equal.
  apply filter_ext_in'. intros a _. apply existsb_count.
Qed.

Lemma sql_right_only_eq : forall (L Rr : Type) (lkey : L -> Key) (rkey : Rr -> Key) ls rs,
  sql_right_only keqb lkey rkey ls rs =
  map (fun r => (None, Some r)) (except_rows rkey (fun k => key_count keqb lkey k ls) rs).
Proof.
  intros. unfold sql_right_only, except_rows. f_equal.
  apply filter_ext_in'. intros a _. rewrite <- existsb_count. f_equal.
  induction ls; auto. simpl. rewrite keqb_sym. f_equal. auto.
Qed.

Lemma except_rows_perm : forall (Row : Type) (key : Row -> Key) m a b,
  Permutation a b -> Permutation (except_rows key m a) (except_rows key m b).
Proof.
  intros Row key m a b H. unfold except_rows. induction H; simpl; auto.
  - destruct (m (key x) =? 0); auto.
  - destruct (m (key y) =? 0), (m (key x) =? 0); auto. apply perm_swap.
  - eapply perm_trans; eauto.
Qed.

Lemma intersect_rows_perm : forall (Row : Type) (key : Row -> Key) m a b,
  Permutation a b -> Permutation (intersect_rows key m a) (intersect_rows key m b).
Proof. intros. unfold intersect_rows. apply Permutation_flat_map. auto. Qed.

Lemma intersect_rows_ext : forall (Row : Type) (key : Row -> Key) m m' a,
  (forall r, In r a -> m (key r) = m' (key r)) -> intersect_rows key m a = intersect_rows key m' a.
Proof. intros. apply flat_map_ext_in. intros r Hr. rewrite H by auto. reflexivity. Qed.

Lemma except_rows_ext : forall (Row : Type) (key : Row -> Key) m m' a,
  (forall r, In r a -> m (key r) = m' (key r)) -> except_rows key m a = except_rows key m' a.
Proof. intros. apply filter_ext_in'. intros r Hr. rewrite H by auto. reflexivity. Qed.

Lemma rows_in_split : forall (L Rr : Type) (lkey : L -> Key) (rkey : Rr -> Key) ls rs,
  length (rows_in Key keqb Rr rkey (distinct keqb (map lkey ls)) rs) +
  length (except_rows rkey (fun k => key_count keqb lkey k ls) rs) = length rs.
Proof.
  intros L Rr lkey rkey ls rs. unfold rows_in, except_rows.
  induction rs as [|r rs IH]; auto. simpl.
  assert (E : existsb (fun k => keqb k (rkey r)) (distinct keqb (map lkey ls)) =
              negb (Nat.eqb (key_count keqb lkey (rkey r) ls) 0)).
  { rewrite <- existsb_count, negb_involutive.
    apply eq_true_iff_eq. rewrite !existsb_exists. split.
    - intros (k & Hk & He). apply (proj1 (in_distinct Key keqb keqb_spec _ _)) in Hk. apply in_map_iff in Hk.
      destruct Hk as (l & <- & Hl). exists l. split; auto. rewrite keqb_sym. auto.
    - intros (l & Hl & He). exists (lkey l). split; [|rewrite keqb_sym; auto].
      apply (in_distinct Key keqb keqb_spec). apply in_map. auto. }
  rewrite E. destruct (key_count keqb lkey (rkey r) ls =? 0); simpl; lia.
Qed.

End Two.
