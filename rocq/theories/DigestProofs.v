(** Lemmas for C47 and C48. *)
From Coq Require Import List NArith Lia Bool Arith Permutation Sorted.
From Verif Require Import Base Text TextProofs JoinModel JoinSpec JoinProps BucketModel DigestModel DigestSpec.
Import ListNotations.

Lemma join_inj : forall sep n (a b : list bytes), length a = n -> length b = n ->
  Forall (fun x => ~ In sep x) (removelast a) -> Forall (fun x => ~ In sep x) (removelast b) ->
  join_with sep a = join_with sep b -> a = b.
Proof.
  intros sep n. induction n as [|n IH]; intros a b La Lb Fa Fb E.
  - destruct a; [|discriminate]. destruct b; [reflexivity|discriminate].
  - destruct a as [|x a]; [discriminate|]. destruct b as [|y b]; [discriminate|].
    destruct a as [|x' a]; destruct b as [|y' b]; cbn [length] in La, Lb; try lia.
    + cbn in E. congruence.
    + change (removelast (x :: x' :: a)) with (x :: removelast (x' :: a)) in Fa.
      change (removelast (y :: y' :: b)) with (y :: removelast (y' :: b)) in Fb.
      inversion Fa as [|? ? Nx Fa']; inversion Fb as [|? ? Ny Fb']; subst.
      change (join_with sep (x :: x' :: a)) with (x ++ sep :: join_with sep (x' :: a)) in E.
      change (join_with sep (y :: y' :: b)) with (y ++ sep :: join_with sep (y' :: b)) in E.
      assert (G : x = y /\ join_with sep (x' :: a) = join_with sep (y' :: b)).
      { clear IH Fa Fb Fa' Fb' La Lb. revert y Ny E.
        generalize (join_with sep (x' :: a)) (join_with sep (y' :: b)). intros u v.
        induction x as [|c x IHx]; intros [|d y] Ny E; cbn in E.
        - split; [reflexivity|congruence].
        - exfalso. apply Ny. left. congruence.
        - exfalso. apply Nx. left. congruence.
        - injection E as -> E. destruct (IHx) with (y := y) as [-> ->]; auto.
          + intro H. apply Nx. right. exact H.
          + intro H. apply Ny. right. exact H. }
      destruct G as [-> G]. f_equal. apply IH; auto; cbn [length]; lia.
Qed.

Lemma concat_inj : forall P, prefix_free P -> forall a b : list bytes,
  Forall P a -> Forall P b -> concat a = concat b -> a = b.
Proof.
  intros P [Hn Hp] a. induction a as [|x a IH]; intros [|y b] Fa Fb E; cbn [concat] in E.
  - reflexivity.
  - inversion Fb; subst. destruct y; [contradiction|discriminate].
  - inversion Fa; subst. destruct x; [contradiction|discriminate].
  - inversion Fa as [|? ? Px Fa']; inversion Fb as [|? ? Py Fb']; subst.
    assert (G : x = y).
    { destruct (Nat.le_ge_cases (length x) (length y)) as [L|L].
      - assert (Y : y = x ++ skipn (length x) y).
        { assert (T := f_equal (firstn (length x)) E). rewrite firstn_app, firstn_all, Nat.sub_diag in T.
          cbn [firstn] in T. rewrite app_nil_r, firstn_app in T.
          replace (length x - length y) with 0 in T by lia. cbn [firstn] in T. rewrite app_nil_r in T.
          rewrite T at 1. symmetry. apply firstn_skipn. }
        rewrite (Hp _ _ _ Px Py Y), app_nil_r in Y. symmetry. exact Y.
      - assert (X : x = y ++ skipn (length y) x).
        { assert (T := f_equal (firstn (length y)) E). rewrite (firstn_app _ y), firstn_all, Nat.sub_diag in T.
          cbn [firstn] in T. rewrite app_nil_r, firstn_app in T.
          replace (length y - length x) with 0 in T by lia. cbn [firstn] in T. rewrite app_nil_r in T.
          rewrite <- T at 1. symmetry. apply firstn_skipn. }
        rewrite (Hp _ _ _ Py Px X), app_nil_r in X. exact X. }
    subst y. f_equal. apply IH; auto. apply app_inv_head in E. exact E.
Qed.

Lemma fixed_length_prefix_free : forall n, 0 < n -> prefix_free (of_length n).
Proof.
  intros n Hn. split.
  - unfold of_length. cbn. lia.
  - unfold of_length. intros a b r Ha Hb ->. rewrite app_length in Hb. destruct r; [reflexivity|cbn in Hb; lia].
Qed.

Lemma hash_list_equal_spec : forall l, l <> [] ->
  exists r, hash_list_equal l = Ok r /\ (r = true <-> forall x y, In x l -> In y l -> x = y).
Proof.
  intros [|h r] H; [contradiction|]. eexists. split; [reflexivity|].
  rewrite forallb_forall. split.
  - intros A x y Hx Hy.
    assert (G : forall z, In z (h :: r) -> z = h).
    { intros z [<-|Hz]; [reflexivity|]. apply beqb_spec. apply A. exact Hz. }
    rewrite (G x Hx), (G y Hy). reflexivity.
  - intros A x Hx. apply beqb_spec. apply A; [right; exact Hx|left; reflexivity].
Qed.

Lemma common_all : forall own others, Forall (fun ks => ks = own) others ->
  common_positions own others = map N.of_nat (seq 0 (length own)).
Proof.
  intros own others H. unfold common_positions. f_equal.
  assert (G : forall i, In i (seq 0 (length own)) ->
    forallb (fun ks => existsb (beqb (nth i own [])) ks) others = true).
  { intros i Hi. apply in_seq in Hi. apply forallb_forall. intros ks Hk.
    rewrite Forall_forall in H. rewrite (H ks Hk). apply existsb_exists. exists (nth i own []).
    split; [apply nth_In; lia|]. apply beqb_spec. reflexivity. }
  induction (seq 0 (length own)) as [|i l IH]; [reflexivity|].
  cbn [filter]. rewrite G by (left; reflexivity). f_equal. apply IH. intros j Hj. apply G. right. exact Hj.
Qed.

Lemma unique_count : forall Key (es : list (kentry Key)) m,
  km_unique (fold_left (@kcount Key) es m) = 
    match es with [] => km_unique m | _ => u32 (km_unique m + N.of_nat (length es)) end.
Proof.
  intros Key es. induction es as [|e es IH]; intros m; [reflexivity|].
  cbn [fold_left]. rewrite IH. destruct es as [|e' es]; cbn [kcount km_unique length].
  - reflexivity.
  - unfold u32. rewrite N.add_mod_idemp_l by discriminate. f_equal. lia.
Qed.

(** A party's key information, built from its table one way or the other. *)
Inductive made (sha : bytes -> bytes) : kinfo -> Prop :=
| made_sorted : forall bs, (N.of_nat (length (ki_keys (sorted_info sha bs))) < max32)%N -> made sha (sorted_info sha bs)
| made_unique : forall ks, (N.of_nat (length ks) < max32)%N -> made sha (unique_info sha ks).

Lemma made_spec : forall sha p, made sha p ->
  ki_hash p = sha (concat (ki_keys p)) /\ ki_cnt p = N.of_nat (length (ki_keys p)).
Proof.
  intros sha p [bs H|ks H].
  - unfold sorted_info in *. unfold key_info_make in *. cbn [ki_keys ki_hash ki_cnt] in *. split; [reflexivity|].
    rewrite unique_count. rewrite map_length in *. cbn [km_unique].
    set (es := ks_out _ ++ _) in *. assert (es <> []) by (subst es; destruct (ks_out _); discriminate).
    destruct es; [contradiction|]. unfold u32. rewrite N.add_0_l. apply N.mod_small. exact H.
  - split; [reflexivity|]. cbn. unfold u32. apply N.mod_small. exact H.
Qed.

Lemma digest_equal_true : forall parties, parties <> [] ->
  exists r, digest_equal true parties = Ok r /\
    (r = true <-> (forall p, In p parties -> ki_dup p = 0%N) /\
                  forall p q, In p parties -> In q parties -> ki_hash p = ki_hash q).
Proof.
  intros parties H. unfold digest_equal.
  destruct (forallb _ parties) eqn:E.
  - destruct (hash_list_equal_spec (map ki_hash parties)) as (r & R & S).
    { destruct parties; [contradiction|discriminate]. }
    exists r. split; [exact R|]. rewrite S. rewrite forallb_forall in E. split.
    + intros A. split; [intros p Hp; apply N.eqb_eq, E, Hp|]. intros p q Hp Hq.
      apply A; apply in_map; assumption.
    + intros [_ A] x y Hx Hy. apply in_map_iff in Hx as (p & <- & Hp). apply in_map_iff in Hy as (q & <- & Hq).
      apply A; assumption.
  - exists false. split; [reflexivity|]. split; [discriminate|]. intros [A _]. rewrite <- E.
    apply forallb_forall. intros p Hp. apply N.eqb_eq. apply A. exact Hp.
Qed.

Lemma same_keys : forall sha P parties,
  (forall a b, sha a = sha b -> a = b) -> prefix_free P ->
  Forall (made sha) parties -> Forall (fun p => Forall P (ki_keys p)) parties ->
  digest_equal true parties = Ok true ->
  (forall p q, In p parties -> In q parties -> ki_keys p = ki_keys q) /\
  forall p, In p parties -> equal_indices p = common_positions (ki_keys p) (map ki_keys parties).
Proof.
  intros sha P parties Hs HP Hm Hk Hd.
  assert (Hne : parties <> []) by (intros ->; discriminate).
  destruct (digest_equal_true parties Hne) as (r & R & S). rewrite R in Hd. injection Hd as ->.
  destruct (proj1 S eq_refl) as [_ S2]. clear S R. rewrite Forall_forall in Hm, Hk.
  assert (A : forall p q, In p parties -> In q parties -> ki_keys p = ki_keys q).
  { intros p q Hp Hq. apply (concat_inj P HP); auto. apply Hs.
    rewrite <- (proj1 (made_spec _ _ (Hm p Hp))), <- (proj1 (made_spec _ _ (Hm q Hq))). apply S2; assumption. }
  split; [exact A|]. intros p Hp. rewrite common_all.
  - unfold equal_indices. rewrite (proj2 (made_spec _ _ (Hm p Hp))), Nnat.Nat2N.id. reflexivity.
  - apply Forall_forall. intros ks Hks. apply in_map_iff in Hks as (q & <- & Hq). apply A; assumption.
Qed.

Lemma legacy_same : forall sha P files, (forall a b, sha a = sha b -> a = b) -> prefix_free P ->
  Forall (Forall P) files -> legacy_equal sha files = Ok true ->
  forall a b, In a files -> In b files -> a = b.
Proof.
  intros sha P files Hs HP HF HE a b Ha Hb. unfold legacy_equal in HE.
  assert (Hne : map (legacy_digest sha) files <> []) by (destruct files; [contradiction|discriminate]).
  destruct (hash_list_equal_spec _ Hne) as (r & R & S). rewrite R in HE. injection HE as ->.
  rewrite Forall_forall in HF. apply (concat_inj P HP); auto. apply Hs.
  apply (proj1 S eq_refl); apply (in_map (legacy_digest sha)); assumption.
Qed.

Definition plain_columns (n : nat) (cols : list bytes) : Prop :=
  length cols = n /\ Forall (fun x => ~ In comma x) (removelast cols).
Lemma row_key_inj : forall n a b, plain_columns n a -> plain_columns n b -> row_key a = row_key b -> a = b.
Proof. intros n a b [La Fa] [Lb Fb] E. exact (join_inj comma n a b La Lb Fa Fb E). Qed.

Lemma count_ge2 : forall (l : list bytes) k,
  1 < key_count beqb (fun x => x) k l -> ~ NoDup l.
Proof.
  intros l. unfold key_count. induction l as [|x l IH]; intros k H N; [cbn in H; lia|].
  inversion N as [|? ? N1 N2]; subst. cbn [filter] in H. destruct (beqb k x) eqn:E.
  - apply beqb_spec in E as ->. cbn [length] in H.
    destruct (filter (fun r => beqb x r) l) as [|y f] eqn:F; [cbn in H; lia|].
    assert (I : In y (filter (fun r => beqb x r) l)) by (rewrite F; left; reflexivity).
    apply filter_In in I as [I1 I2]. apply beqb_spec in I2 as ->. contradiction.
  - exact (IH k H N2).
Qed.

Lemma count_le1 : forall (l : list bytes),
  (forall k, In k l -> key_count beqb (fun x => x) k l <= 1) -> NoDup l.
Proof.
  unfold key_count. induction l as [|x l IH]; intros H; [constructor|]. constructor.
  - intros I. specialize (H x (or_introl eq_refl)). cbn [filter] in H.
    rewrite (proj2 (beqb_spec x x) eq_refl) in H. cbn [length] in H.
    assert (J : In x (filter (fun r => beqb x r) l)) by (apply filter_In; split; [exact I|apply beqb_spec; reflexivity]).
    destruct (filter (fun r => beqb x r) l); [contradiction|cbn in H; lia].
  - apply IH. intros k I. specialize (H k (or_intror I)). cbn [filter] in H.
    destruct (beqb k x); cbn [length] in H; lia.
Qed.

Lemma dup_seen : forall sha (R : bytes -> bytes -> Prop) (bs : list (list bytes)),
  (forall x y, R x y -> R y x -> x = y) ->
  Forall (fun b => b <> []) bs -> bs <> [] -> (N.of_nat (length (concat bs)) < max32)%N ->
  StronglySorted R (concat bs) ->
  (ki_dup (sorted_info sha bs) = 0%N <-> NoDup (concat bs)).
Proof.
  intros sha R bs Ra Hb Hn Hl Hs. unfold sorted_info.
  destruct (key_info_make beqb [] bs) as [es m] eqn:E. cbn [ki_dup].
  assert (Hc : concat bs <> []).
  { destruct bs as [|b bs]; [contradiction|]. inversion Hb; subst. destruct b; [contradiction|discriminate]. }
  destruct (C01_key_summary_exact bytes beqb beqb_spec [] R Ra (concat bs) bs es m eq_refl Hb Hc Hl Hs E)
    as (_ & _ & _ & _ & _ & _ & D).
  rewrite D. split.
  - intros Z. apply count_le1. intros k I.
    destruct (Nat.le_gt_cases (key_count beqb (fun x => x) k (concat bs)) 1) as [L|G]; [exact L|exfalso].
    assert (J : In k (filter (fun k => 1 <? key_count beqb (fun x => x) k (concat bs)) (distinct beqb (concat bs)))).
    { apply filter_In. split; [apply (JoinProofs2.in_distinct bytes beqb beqb_spec); exact I|apply Nat.ltb_lt; exact G]. }
    destruct (filter _ _); [contradiction|discriminate].
  - intros N. destruct (filter _ _) as [|k f] eqn:F; [reflexivity|exfalso].
    assert (J : In k (k :: f)) by (left; reflexivity). rewrite <- F in J. apply filter_In in J as [_ J].
    apply Nat.ltb_lt in J. exact (count_ge2 _ _ J N).
Qed.
