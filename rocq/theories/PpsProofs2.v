(** Sets, sums and one query. *)
From Coq Require Import List NArith Bool Arith Lia Permutation.
From Verif Require Import Base BaseProofs StoreModel KkrtProofs PpsModel PpsSpec PpsProofs.
Import ListNotations.

Lemma pp_lemire_lt : forall v n, (v < max64 * max64)%N -> (0 < n < max64)%N -> (pp_lemire v n < n)%N.
Proof.
  intros v n Hv Hn. unfold pp_lemire, u64. change 18446744073709551616%N with max64.
  assert (A : (v / max64 < max64)%N) by (apply N.div_lt_upper_bound; [unfold max64; lia|exact Hv]).
  assert (B : (v / max64 * n / max64 < n)%N).
  { apply N.div_lt_upper_bound; [unfold max64; lia|]. apply N.mul_lt_mono_pos_r; lia. }
  rewrite N.mod_small; lia.
Qed.
Lemma pp_lemire64_lt : forall v n, (v < max64)%N -> (0 < n < max64)%N -> (pp_lemire64 v n < n)%N.
Proof.
  intros v n Hv Hn. unfold pp_lemire64, u64. change 18446744073709551616%N with max64.
  assert (B : (v * n / max64 < n)%N).
  { apply N.div_lt_upper_bound; [unfold max64; lia|]. apply N.mul_lt_mono_pos_r; lia. }
  rewrite N.mod_small; lia.
Qed.

Definition half : N := 9223372036854775808%N.
Lemma pp_add_mod : forall a b n, (0 < n < half)%N -> (a < n)%N -> (b < n)%N -> pp_add a b n = ((a + b) mod n)%N.
Proof.
  intros a b n Hn Ha Hb. unfold pp_add, u64, half in *. rewrite (N.mod_small (a + b)) by lia. cbv zeta.
  destruct (N.leb_spec n (a + b)) as [H|H].
  - apply N.mod_unique with (q := 1%N); lia.
  - rewrite N.mod_small; lia.
Qed.
Lemma pp_sub_spec : forall i d n, (0 < n < half)%N -> (i < n)%N -> (d < n)%N ->
  (pp_sub i d n < n)%N /\ forall v, (v < n)%N -> (pp_sub i d n = v <-> ((v + d) mod n = i)%N).
Proof.
  intros i d n Hn Hi Hd. unfold pp_sub, half in *. destruct (N.leb_spec d i) as [H|H].
  - split; [lia|]. intros v Hv. split.
    + intros <-. replace (i - d + d)%N with i by lia. apply N.mod_small. exact Hi.
    + intro E. destruct (N.lt_ge_cases (v + d) n) as [L|L].
      * rewrite N.mod_small in E by exact L. lia.
      * assert (E2 : ((v + d) mod n = v + d - n)%N) by (symmetry; apply N.mod_unique with (q := 1%N); lia). lia.
  - assert (E0 : u64 (i + n + max64 - d) = (i + n - d)%N).
    { unfold u64. change 18446744073709551616%N with max64. symmetry. apply N.mod_unique with (q := 1%N); unfold max64; lia. }
    rewrite E0. split; [lia|]. intros v Hv. split.
    + intros <-. replace (i + n - d + d)%N with (i + 1 * n)%N by lia. rewrite N.mod_add by lia. apply N.mod_small. exact Hi.
    + intro E. destruct (N.lt_ge_cases (v + d) n) as [L|L].
      * rewrite N.mod_small in E by exact L. lia.
      * assert (E2 : ((v + d) mod n = v + d - n)%N) by (symmetry; apply N.mod_unique with (q := 1%N); lia). lia.
Qed.

(** ** Maps *)
Lemma emplace_full : forall l acc, NoDup (map fst acc) ->
  length (fold_left pp_emplace l acc) <= length acc + length l /\
  (length (fold_left pp_emplace l acc) = length acc + length l -> fold_left pp_emplace l acc = acc ++ l /\ NoDup (map fst (acc ++ l))).
Proof.
  induction l as [|p l IH]; intros acc ND; cbn [fold_left length].
  - split; [lia|]. intros _. rewrite app_nil_r. split; [reflexivity|exact ND].
  - unfold pp_emplace at 2 4 6. destruct (existsb (fun q => (fst q =? fst p)%N) acc) eqn:E.
    + destruct (IH acc ND) as [A _]. split; [lia|]. intro H. lia.
    + assert (ND' : NoDup (map fst (acc ++ [p]))).
      { rewrite map_app. cbn. apply (Permutation_NoDup (l := fst p :: map fst acc)); [apply Permutation_cons_append|].
        constructor; [|exact ND]. intro J. apply in_map_iff in J. destruct J as (q & Eq & Jq).
        assert (X : existsb (fun q => (fst q =? fst p)%N) acc = true) by (apply existsb_exists; exists q; split; [exact Jq|apply N.eqb_eq; exact Eq]).
        rewrite E in X. discriminate. }
      destruct (IH (acc ++ [p]) ND') as [A B]. rewrite app_length in A, B. cbn [length] in A, B. split; [lia|]. intro H.
      destruct B as [B1 B2]; [lia|]. rewrite <- app_assoc in B1, B2. split; assumption.
Qed.

Lemma find_nodup : forall m v pos, NoDup (map fst m) -> (pp_find m v = Some pos <-> In (v, pos) m).
Proof.
  unfold pp_find. induction m as [|[w q] m IH]; intros v pos ND; cbn [filter].
  - split; [discriminate|intros []].
  - inversion ND as [|? ? N1 N2]; subst. cbn [fst]. destruct (N.eqb_spec w v) as [->|NE].
    + cbn [snd]. split.
      * intro E. injection E as ->. left. reflexivity.
      * intros [E|J]; [injection E as ->; reflexivity|]. exfalso. apply N1. change v with (fst (v, pos)). apply in_map. exact J.
    + rewrite (IH v pos N2). split; [intro J; right; exact J|]. intros [E|J]; [injection E as -> _; contradiction|exact J].
Qed.

(** ** Sums *)
Definition xsum (l : list bool) : bool := fold_right xorb false l.
Lemma xsum_app : forall a b, xsum (a ++ b) = xorb (xsum a) (xsum b).
Proof.
  induction a as [|x a IH]; intros; [cbn [app]; unfold xsum at 2; cbn [fold_right]; symmetry; apply xorb_false_l|].
  cbn [app]. unfold xsum in *. cbn [fold_right]. rewrite IH. symmetry. apply xorb_assoc.
Qed.
Lemma xsum_mid : forall a x b, xsum (a ++ x :: b) = xorb x (xsum (a ++ b)).
Proof. intros. rewrite !xsum_app. change (xsum (x :: b)) with (xorb x (xsum b)). destruct (xsum a), x, (xsum b); reflexivity. Qed.

Section S.
Variable prg : N -> N * N.
Variable n : N.
Variable s : nat.
Hypothesis Hprg : forall x, (fst (prg x) < max64 * max64)%N /\ (snd (prg x) < max64 * max64)%N.
Hypothesis Hn : (0 < n < half)%N.
Hypothesis Hs : 0 < s.

Definition vals (k : N) : list N := map (fun v => pp_lemire v n) (firstn s (pp_leaves prg s k)).

Lemma depth_ge : s <= 2 ^ pp_depth s.
Proof. unfold pp_depth. destruct (Nat.eq_dec s 1) as [->|H]; [cbn; lia|]. pose proof (Nat.log2_up_spec s). lia. Qed.
Lemma leaves_length : forall k, length (pp_leaves prg s k) = 2 ^ pp_depth s.
Proof. intro. apply level_length. Qed.
Lemma vals_length : forall k, length (vals k) = s.
Proof. intro. unfold vals. rewrite map_length, firstn_length, leaves_length. pose proof depth_ge. lia. Qed.
Lemma vals_lt : forall k, (k < max64 * max64)%N -> Forall (fun v => (v < n)%N) (vals k).
Proof.
  intros k Hk. unfold vals. rewrite Forall_map. rewrite Forall_forall. intros v J.
  apply pp_lemire_lt; [|split; [apply Hn|unfold half, max64 in *; lia]].
  assert (J2 : In v (pp_leaves prg s k)) by (rewrite <- (firstn_skipn s); apply in_or_app; left; exact J).
  unfold pp_leaves in J2. destruct (pp_depth s) as [|d].
  - destruct J2 as [<-|[]]. exact Hk.
  - cbn [pp_level] in J2. unfold pp_expand in J2. apply in_flat_map in J2. destruct J2 as (x & _ & [<-|[<-|[]]]); apply Hprg.
Qed.

Definition pairs (k : N) : list (N * nat) := map (fun p => (pp_lemire (snd p) n, fst p)) (number 0 (firstn s (pp_leaves prg s k))).
Lemma pairs_fst : forall k, map fst (pairs k) = vals k.
Proof. intro. unfold pairs, vals. rewrite map_map. cbn [fst]. rewrite <- (number_snd _ (firstn s (pp_leaves prg s k)) 0) at 2. rewrite map_map. reflexivity. Qed.
Lemma pairs_in : forall k v pos, In (v, pos) (pairs k) <-> nth_error (vals k) pos = Some v.
Proof.
  intros. unfold pairs, vals. rewrite in_map_iff. generalize (firstn s (pp_leaves prg s k)). intro l. split.
  - intros ([i x] & E & J). injection E as <- <-. cbn. apply number_in in J. destruct J as [J1 J2].
    rewrite Nat.sub_0_r in J2. rewrite nth_error_map, J2. reflexivity.
  - rewrite nth_error_map. destruct (nth_error l pos) as [x|] eqn:E; [|discriminate]. cbn. intro H. injection H as <-.
    exists (pos, x). split; [reflexivity|]. apply number_in. rewrite Nat.sub_0_r. split; [lia|exact E].
Qed.
Lemma map_full : forall k, length (pp_map prg n s k) = s -> pp_map prg n s k = pairs k /\ NoDup (vals k).
Proof.
  intros k H. unfold pp_map in *. fold (pairs k) in *. destruct (emplace_full (pairs k) []) as [_ B]; [constructor|].
  assert (L : length (pairs k) = s) by (rewrite <- (map_length fst), pairs_fst; apply vals_length).
  destruct B as [B1 B2]; [cbn; lia|]. cbn [app] in *. rewrite pairs_fst in B2. split; assumption.
Qed.
Lemma find_map : forall k v pos, length (pp_map prg n s k) = s -> (pp_find (pp_map prg n s k) v = Some pos <-> nth_error (vals k) pos = Some v).
Proof.
  intros k v pos H. destruct (map_full k H) as [E ND]. rewrite E. rewrite find_nodup by (rewrite pairs_fst; exact ND). apply pairs_in.
Qed.
Lemma map_full_conv : forall k, NoDup (vals k) -> length (pp_map prg n s k) = s.
Proof.
  intros k ND. rewrite <- pairs_fst in ND.
  assert (G : forall l acc, NoDup (map fst (acc ++ l)) -> fold_left pp_emplace l acc = acc ++ l).
  { induction l as [|p l IH]; intros acc N; cbn [fold_left]; [rewrite app_nil_r; reflexivity|].
    unfold pp_emplace at 2. destruct (existsb (fun q => (fst q =? fst p)%N) acc) eqn:E.
    - apply existsb_exists in E. destruct E as (q & J & E). apply N.eqb_eq in E. rewrite map_app in N. cbn in N.
      apply NoDup_remove_2 in N. exfalso. apply N. apply in_or_app. left. rewrite <- E. apply in_map. exact J.
    - rewrite IH by (rewrite <- app_assoc; exact N). rewrite <- app_assoc. reflexivity. }
  unfold pp_map. fold (pairs k). rewrite (G (pairs k) [] ND). cbn [app]. rewrite <- (map_length fst), pairs_fst. apply vals_length.
Qed.

Lemma eval_vals : forall k, NoDup (vals k) -> pp_eval prg n s k = vals k.
Proof. intros. unfold pp_eval. apply nodup_fixed_point. exact H. Qed.
Lemma eval_full : forall k, length (pp_eval prg n s k) = s -> NoDup (vals k).
Proof.
  intros k H. apply (NoDup_incl_NoDup (l := pp_eval prg n s k)); [apply NoDup_nodup| |].
  - rewrite vals_length, H. lia.
  - intros x J. unfold pp_eval in J. apply nodup_In in J. exact J.
Qed.

(** ** The punctured set *)
Lemma filter_number : forall (l : list N) pos i, i + length l <= pos ->
  filter (fun p => negb (N.of_nat (fst p) =? N.of_nat pos)%N) (number i l) = number i l.
Proof.
  induction l; intros pos i H; [reflexivity|]. cbn [number filter fst length] in *.
  destruct (N.eqb_spec (N.of_nat i) (N.of_nat pos)); [lia|]. cbn [negb]. f_equal. apply IHl. lia.
Qed.
Lemma filter_number2 : forall (l : list N) pos i, pos < i ->
  filter (fun p => negb (N.of_nat (fst p) =? N.of_nat pos)%N) (number i l) = number i l.
Proof.
  induction l; intros pos i H; [reflexivity|]. cbn [number filter fst length] in *.
  destruct (N.eqb_spec (N.of_nat i) (N.of_nat pos)); [lia|]. cbn [negb]. f_equal. apply IHl. lia.
Qed.
Lemma split_nth : forall (A : Type) (l : list A) i x, nth_error l i = Some x -> exists a b, l = a ++ x :: b /\ length a = i.
Proof. intros. apply nth_error_split. exact H. Qed.

Lemma evalp_ok : forall k pos v d, no_zero_node prg (pp_depth s) k -> NoDup (vals k) -> nth_error (vals k) pos = Some v ->
  exists a b, vals k = a ++ v :: b /\ length a = pos /\
    pp_evalp prg n s (mk_ppk (pp_copath prg (pp_depth s) (N.of_nat pos) k) (N.of_nat pos) d) = Ok (a ++ b).
Proof.
  intros k pos v d HZ ND E.
  assert (Lp : pos < s) by (rewrite <- (vals_length k); apply nth_error_Some; rewrite E; discriminate).
  pose proof depth_ge as DG. pose proof (leaves_length k) as LL.
  destruct (nth_error (firstn s (pp_leaves prg s k)) pos) as [x|] eqn:Ex.
  2:{ unfold vals in E. rewrite nth_error_map, Ex in E. discriminate. }
  destruct (split_nth _ _ _ _ Ex) as (la & lb & EL & Lla).
  exists (map (fun v => pp_lemire v n) la), (map (fun v => pp_lemire v n) lb).
  assert (EV : vals k = map (fun v => pp_lemire v n) la ++ v :: map (fun v => pp_lemire v n) lb).
  { unfold vals in *. rewrite nth_error_map, Ex in E. cbn in E. injection E as <-. rewrite EL, map_app. reflexivity. }
  split; [exact EV|]. split; [rewrite map_length; exact Lla|].
  unfold pp_evalp. cbn [pk_pos pk_ks]. rewrite (fill_root prg (pp_depth s) pos k) by (try exact HZ; lia). cbn [bind].
  change (pp_level prg (pp_depth s) k) with (pp_leaves prg s k).
  assert (EF : firstn s (upd pos (fun _ => 0%N) (pp_leaves prg s k)) = la ++ 0%N :: lb).
  { rewrite <- (firstn_skipn s (pp_leaves prg s k)) at 1. rewrite EL. rewrite <- app_assoc. cbn [app]. rewrite <- Lla, upd_app.
    assert (LS : length (la ++ 0%N :: lb) = s).
    { rewrite app_length. cbn [length]. assert (H : length (firstn s (pp_leaves prg s k)) = s) by (rewrite firstn_length; lia).
      rewrite EL, app_length in H. cbn [length] in H. lia. }
    replace (la ++ 0%N :: lb ++ skipn s (pp_leaves prg s k)) with ((la ++ 0%N :: lb) ++ skipn s (pp_leaves prg s k)) by (rewrite <- app_assoc; reflexivity).
    rewrite <- LS at 1. rewrite firstn_app, Nat.sub_diag, firstn_all. cbn [firstn]. apply app_nil_r. }
  rewrite EF, number_app. rewrite filter_app, filter_number by lia. cbn [number filter fst]. rewrite Nat.add_0_l.
  rewrite Lla, N.eqb_refl. cbn [negb]. rewrite filter_number2 by lia.
  rewrite map_app. rewrite <- (map_map snd (fun x => pp_lemire x n) (number 0 la)), <- (map_map snd (fun x => pp_lemire x n) (number (S pos) lb)).
  rewrite !number_snd. f_equal. apply nodup_fixed_point. rewrite EV in ND. apply NoDup_remove_1 in ND. exact ND.
Qed.

(** ** Sums over sets *)
Variable bits : list bool.
Hypothesis Hbits : N.to_nat n <= length bits.
Definition at_ (x : N) : bool := nth (N.to_nat x) bits false.
Definition ssum (d : N) (set : list N) : bool := xsum (map (fun v => at_ ((v + d) mod n)%N) set).

Lemma xor_ok : forall d set, (d < n)%N -> Forall (fun v => (v < n)%N) set -> pp_xor n bits d set = Ok (ssum d set).
Proof.
  intros d set Hd. induction 1 as [|v set Hv _ IH]; [reflexivity|]. cbn [pp_xor].
  rewrite pp_add_mod by assumption. unfold pp_bit.
  assert (M : ((v + d) mod n < n)%N) by (apply N.mod_lt; lia).
  rewrite (nth_error_nth' bits false) by lia. cbn [bind]. rewrite IH. cbn [bind]. reflexivity.
Qed.
Lemma ssum_mid : forall d a v b, ssum d (a ++ v :: b) = xorb (at_ ((v + d) mod n)%N) (ssum d (a ++ b)).
Proof. intros. unfold ssum. rewrite !map_app. cbn [map]. apply xsum_mid. Qed.

Lemma answer_ok : forall k pos v d, (k < max64 * max64)%N -> (d < n)%N -> no_zero_node prg (pp_depth s) k -> NoDup (vals k) ->
  nth_error (vals k) pos = Some v ->
  pp_answer prg n s bits (mk_ppk (pp_copath prg (pp_depth s) (N.of_nat pos) k) (N.of_nat pos) d)
  = Ok (xorb (at_ ((v + d) mod n)%N) (ssum d (vals k))).
Proof.
  intros k pos v d Hk Hd HZ ND E. destruct (evalp_ok k pos v d HZ ND E) as (a & b & EV & La & EE).
  unfold pp_answer. rewrite EE. cbn [bind pk_delta]. pose proof (vals_lt k Hk) as F.
  rewrite EV in F. rewrite xor_ok; [|exact Hd|].
  - rewrite EV, ssum_mid. rewrite <- xorb_assoc, xorb_nilpotent. f_equal. destruct (ssum d (a ++ b)); reflexivity.
  - apply Forall_app in F. destruct F as [F1 F2]. inversion F2; subst. apply Forall_app. split; assumption.
Qed.
End S.
