From Coq Require Import List NArith ZArith Lia Bool Arith.
From Verif Require Import Base BaseProofs Text.
Import ListNotations.

Local Ltac Zify.zify_post_hook ::= Z.div_mod_to_equations.

Lemma beqb_spec : forall a b, beqb a b = true <-> a = b.
Proof.
  induction a as [|x a IH]; intros [|y b]; simpl; split; intros H; try discriminate; auto.
  - apply andb_true_iff in H. destruct H as [H1 H2]. apply N.eqb_eq in H1. apply IH in H2. congruence.
  - inversion H; subst. rewrite N.eqb_refl. apply IH. reflexivity.
Qed.

Lemma digits_value_app : forall a b, 
  digits_value (a ++ b) = fold_left (fun a c => 10 * a + (c - 48))%N b (digits_value a).
Proof. intros. unfold digits_value. apply fold_left_app. Qed.

Lemma dec_aux_spec : forall fuel n acc,
  (N.of_nat fuel > N.log2 n)%N ->
  exists d, dec_aux fuel n acc = d ++ acc /\ d <> [] /\ forallb is_digit d = true /\ digits_value d = n.
Proof.
  induction fuel as [|f IH]; intros n acc Hf; [lia|].
  cbn [dec_aux].
  assert (Hd : is_digit (48 + n mod 10) = true).
  { unfold is_digit. pose proof (N.mod_lt n 10 ltac:(discriminate)).
    set (r := (n mod 10)%N) in *. clearbody r.
    apply andb_true_iff. split; apply N.leb_le; lia. }
  destruct (N.eqb_spec (n / 10) 0) as [E|E].
  - exists [(48 + n mod 10)%N]. cbn [forallb]. rewrite Hd. repeat split; [discriminate|].
    unfold digits_value. cbn [fold_left]. pose proof (N.div_mod' n 10) as Hq. rewrite E in Hq.
    set (r := (n mod 10)%N) in *. clearbody r. lia.
  - assert (Hlog : (N.log2 (n / 10) < N.log2 n)%N).
    { assert (n / 10 <= n / 2)%N by (apply N.div_le_compat_l; lia).
      assert (Hn : (n <> 0)%N) by (intros ->; apply E; reflexivity).
      assert (n / 2 <> 0)%N by lia.
      apply N.le_lt_trans with (N.log2 (n / 2)); [apply N.log2_le_mono; auto|].
      apply N.log2_lt_pow2; [lia|].
      assert (n < 2 ^ N.succ (N.log2 n))%N by (apply N.log2_spec; lia).
      rewrite N.pow_succ_r' in *.
      apply N.div_lt_upper_bound; lia. }
    destruct (IH (n / 10)%N ((48 + n mod 10)%N :: acc) ltac:(lia)) as (d & D1 & D2 & D3 & D4).
    exists (d ++ [(48 + n mod 10)%N]). rewrite D1, <- app_assoc. split; [reflexivity|].
    split; [destruct d; discriminate|]. split.
    + rewrite forallb_app, D3. cbn [forallb]. rewrite Hd. reflexivity.
    + rewrite digits_value_app. cbn [fold_left]. rewrite D4.
      pose proof (N.div_mod' n 10) as Hq. set (r := (n mod 10)%N) in *. set (q := (n / 10)%N) in *.
      clearbody r q. lia.
Qed.

Lemma dec_spec : forall n, dec n <> [] /\ forallb is_digit (dec n) = true /\ digits_value (dec n) = n.
Proof.
  intros n. unfold dec. destruct (dec_aux_spec (S (N.to_nat (N.log2 n))) n [] ltac:(lia)) as (d & D1 & D2 & D3 & D4).
  rewrite D1, app_nil_r. auto.
Qed.

Lemma atoi_dec : forall limit n, (n < limit)%N -> atoi limit (dec n) = Some n.
Proof.
  intros limit n Hn. destruct (dec_spec n) as (D1 & D2 & D3). unfold atoi.
  destruct (dec n) eqn:E; [congruence|]. rewrite <- E in *. rewrite D2, D3.
  apply N.ltb_lt in Hn. rewrite Hn. reflexivity.
Qed.

Lemma digit_not : forall c s, ~ (48 <= c <= 57)%N -> forallb is_digit s = true -> ~ In c s.
Proof.
  intros c s Hc Hs Hin. rewrite forallb_forall in Hs. specialize (Hs _ Hin).
  unfold is_digit in Hs. apply andb_true_iff in Hs. destruct Hs as [H1 H2].
  apply N.leb_le in H1. apply N.leb_le in H2. lia.
Qed.

Lemma dec_not : forall c n, ~ (48 <= c <= 57)%N -> ~ In c (dec n).
Proof. intros c n Hc. apply digit_not; auto. apply dec_spec. Qed.

Lemma split_on_nosep : forall sep s, ~ In sep s -> split_on sep s = [s].
Proof.
  induction s as [|c s IH]; intros H; simpl; auto.
  destruct (N.eqb_spec c sep) as [E|E]; [exfalso; apply H; left; auto|].
  rewrite IH; auto. intros Hin. apply H. right. auto.
Qed.

Lemma split_on_app : forall sep x y, ~ In sep x ->
  split_on sep (x ++ sep :: y) = x :: split_on sep y.
Proof.
  induction x as [|c x IH]; intros y H; simpl.
  - rewrite N.eqb_refl. reflexivity.
  - destruct (N.eqb_spec c sep) as [E|E]; [exfalso; apply H; left; auto|].
    rewrite IH; auto. intros Hin. apply H. right. auto.
Qed.

Lemma split_on_ne : forall sep s, split_on sep s <> [].
Proof.
  intros sep s. destruct s as [|c s]; simpl; [discriminate|].
  destruct (c =? sep)%N; [discriminate|]. destruct (split_on sep s); discriminate.
Qed.

Lemma split_join : forall sep l, l <> [] -> Forall (fun s => ~ In sep s) l ->
  split_on sep (join_with sep l) = l.
Proof.
  induction l as [|x l IH]; intros Hn Hf; [congruence|].
  inversion Hf as [|? ? Hx Hl]; subst. destruct l as [|y l].
  - simpl. apply split_on_nosep. auto.
  - change (join_with sep (x :: y :: l)) with (x ++ sep :: join_with sep (y :: l)).
    rewrite split_on_app by auto. rewrite IH; auto. discriminate.
Qed.

(** Writing lines one after the other and reading them back. *)
Lemma split_lines_last : forall ls, Forall (fun s => ~ In newline s) ls ->
  split_on newline (concat (map (fun s => s ++ [newline]) ls)) = ls ++ [[]].
Proof.
  induction ls as [|s ls IH]; intros H; simpl; auto.
  inversion H as [|? ? Hs Hl]; subst. rewrite <- app_assoc. simpl.
  rewrite split_on_app by auto. rewrite IH; auto.
Qed.

Lemma lines_written : forall ls, Forall (fun s => ~ In newline s) ls ->
  lines (concat (map (fun s => s ++ [newline]) ls)) = ls.
Proof.
  intros ls H. unfold lines, drop_last_empty. rewrite split_lines_last by auto.
  rewrite rev_app_distr. simpl. apply rev_involutive.
Qed.

(** base64 *)
Definition sextets : list N := map N.of_nat (seq 0 64).

Lemma sextet_in : forall s, (s < 64)%N -> In s sextets.
Proof.
  intros s H. unfold sextets. apply in_map_iff. exists (N.to_nat s). split; [lia|].
  apply in_seq. lia.
Qed.

Lemma b64char_inj : forall s t, (s < 64)%N -> (t < 64)%N -> b64char s = b64char t -> s = t.
Proof.
  assert (H : forallb (fun s => forallb (fun t => implb (b64char s =? b64char t)%N (s =? t)%N) sextets) sextets = true)
    by (vm_compute; reflexivity).
  intros s t Hs Ht E. rewrite forallb_forall in H. specialize (H s (sextet_in s Hs)).
  rewrite forallb_forall in H. specialize (H t (sextet_in t Ht)).
  rewrite E, N.eqb_refl in H. simpl in H. apply N.eqb_eq. auto.
Qed.

Lemma b64char_range : forall s, (s < 64)%N ->
  b64char s <> comma /\ b64char s <> newline /\ b64char s <> pad.
Proof.
  assert (H : forallb (fun s => negb (b64char s =? comma)%N && negb (b64char s =? newline)%N && negb (b64char s =? pad)%N) sextets = true)
    by (vm_compute; reflexivity).
  intros s Hs. rewrite forallb_forall in H. specialize (H s (sextet_in s Hs)).
  apply andb_true_iff in H. destruct H as [H H3]. apply andb_true_iff in H. destruct H as [H1 H2].
  apply negb_true_iff in H1, H2, H3. apply N.eqb_neq in H1, H2, H3. auto.
Qed.

Lemma div_lt : forall a k m, (0 < k -> a < k * m -> a / k < m)%N.
Proof. intros. apply N.div_lt_upper_bound; lia. Qed.

Lemma sx0 : forall a, (a < 256 -> a / 4 < 64)%N.
Proof. intros. apply div_lt; lia. Qed.
Lemma sx1 : forall a b, (b < 256 -> a mod 4 * 16 + b / 16 < 64)%N.
Proof. intros. pose proof (N.mod_lt a 4 ltac:(discriminate)). pose proof (div_lt b 16 16 ltac:(lia) ltac:(lia)). lia. Qed.
Lemma sx1' : forall a, (a mod 4 * 16 < 64)%N.
Proof. intros. pose proof (N.mod_lt a 4 ltac:(discriminate)). lia. Qed.
Lemma sx2 : forall b c, (c < 256 -> b mod 16 * 4 + c / 64 < 64)%N.
Proof. intros. pose proof (N.mod_lt b 16 ltac:(discriminate)). pose proof (div_lt c 64 4 ltac:(lia) ltac:(lia)). lia. Qed.
Lemma sx2' : forall b, (b mod 16 * 4 < 64)%N.
Proof. intros. pose proof (N.mod_lt b 16 ltac:(discriminate)). lia. Qed.
Lemma sx3 : forall c, (c mod 64 < 64)%N.
Proof. intros. apply N.mod_lt. discriminate. Qed.

Lemma list_ind3 : forall (A : Type) (P : list A -> Prop),
  P [] -> (forall a, P [a]) -> (forall a b, P [a; b]) ->
  (forall a b c r, P r -> P (a :: b :: c :: r)) -> forall l, P l.
Proof.
  intros A P H0 H1 H2 H3 l.
  assert (H : P l /\ (forall a, P (a :: l)) /\ (forall a b, P (a :: b :: l))).
  { induction l as [|x l (I1 & I2 & I3)]; auto. }
  tauto.
Qed.

Lemma base64_chars : forall s, Forall is_byte s -> ~ In comma (base64 s) /\ ~ In newline (base64 s).
Proof.
  intros s. induction s as [|a|a b|a b c r IH] using list_ind3; intros H.
  - simpl. tauto.
  - inversion H; subst. unfold is_byte in *.
    pose proof (b64char_range _ (sx0 a ltac:(auto))).
    pose proof (b64char_range _ (sx1' a)).
    cbn [base64 In]. unfold comma, newline, pad in *. split; intros Hin; intuition congruence.
  - inversion H as [|? ? H1 H2]; subst. inversion H2; subst. unfold is_byte in *.
    pose proof (b64char_range _ (sx0 a ltac:(auto))).
    pose proof (b64char_range _ (sx1 a b ltac:(auto))).
    pose proof (b64char_range _ (sx2' b)).
    cbn [base64 In]. unfold comma, newline, pad in *. split; intros Hin; intuition congruence.
  - inversion H as [|? ? H1 H2]; subst. inversion H2 as [|? ? H3 H4]; subst. inversion H4; subst. unfold is_byte in *.
    pose proof (b64char_range _ (sx0 a ltac:(auto))).
    pose proof (b64char_range _ (sx1 a b ltac:(auto))).
    pose proof (b64char_range _ (sx2 b c ltac:(auto))).
    pose proof (b64char_range _ (sx3 c)).
    specialize (IH ltac:(auto)).
    cbn [base64 In]. unfold comma, newline, pad in *. split; intros Hin; intuition congruence.
Qed.

Lemma divmod_eq : forall a b k, (k <> 0)%N -> (a / k = b / k -> a mod k = b mod k -> a = b)%N.
Proof.
  intros a b k Hk H1 H2. rewrite (N.div_mod a k Hk), (N.div_mod b k Hk). congruence.
Qed.

Lemma digit2 : forall k x y x' y', (y < k -> y' < k -> x * k + y = x' * k + y' -> x = x' /\ y = y')%N.
Proof.
  intros k x y x' y' Hy Hy' E.
  assert (x = x') by nia.
  subst. split; auto. lia.
Qed.

Lemma base64_inj : forall s t, Forall is_byte s -> Forall is_byte t -> base64 s = base64 t -> s = t.
Proof.
  intros s. induction s as [|a|a b|a b c r IH] using list_ind3; intros t Hs Ht E.
  - destruct t as [|x [|y [|z t]]]; try discriminate; auto.
  - inversion Hs as [|? ? Ba _]; subst. unfold is_byte in Ba.
    destruct t as [|x [|y [|z t]]]; try discriminate.
    + inversion Ht as [|? ? Bx _]; subst. unfold is_byte in Bx. cbn [base64] in E.
      injection E as E0 E1. apply b64char_inj in E0; try (apply sx0; auto).
      apply b64char_inj in E1; try apply sx1'.
      f_equal. apply (divmod_eq a x 4); [discriminate|auto|lia].
    + exfalso. cbn [base64] in E. injection E as _ _ E2. 
      pose proof (b64char_range _ (sx2' y)) as (_ & _ & Hp). congruence.
    + exfalso. inversion Ht as [|? ? H1 H2]; subst. inversion H2 as [|? ? H3 H4]; subst. inversion H4; subst.
      cbn [base64] in E. injection E as _ _ E2 _.
      pose proof (b64char_range _ (sx2 y z ltac:(auto))) as (_ & _ & Hp). congruence.
  - inversion Hs as [|? ? Ba Hs']; subst. inversion Hs' as [|? ? Bb _]; subst. unfold is_byte in Ba, Bb.
    destruct t as [|x [|y [|z t]]]; try discriminate.
    + exfalso. cbn [base64] in E. injection E as _ _ E2. 
      pose proof (b64char_range _ (sx2' b)) as (_ & _ & Hp). congruence.
    + inversion Ht as [|? ? Bx Ht']; subst. inversion Ht' as [|? ? By _]; subst. unfold is_byte in Bx, By.
      cbn [base64] in E. injection E as E0 E1 E2.
      apply b64char_inj in E0; try (apply sx0; auto).
      apply b64char_inj in E1; try (apply sx1; auto).
      apply b64char_inj in E2; try (apply sx2'; auto).
      apply digit2 in E1; try (apply div_lt; lia). destruct E1 as [E1a E1b].
      assert (a = x) by (apply (divmod_eq a x 4); [discriminate|auto|auto]).
      assert (b = y) by (apply (divmod_eq b y 16); [discriminate|auto|lia]).
      subst. reflexivity.
    + exfalso. inversion Ht as [|? ? H1 H2]; subst. inversion H2 as [|? ? H3 H4]; subst. inversion H4; subst.
      cbn [base64] in E. injection E as _ _ _ E3.
      pose proof (b64char_range _ (sx3 z)) as (_ & _ & Hp). congruence.
  - inversion Hs as [|? ? Ba Hs']; subst. inversion Hs' as [|? ? Bb Hs'']; subst. inversion Hs'' as [|? ? Bc Hr]; subst.
    unfold is_byte in Ba, Bb, Bc.
    destruct t as [|x [|y [|z t]]]; try discriminate.
    + exfalso. cbn [base64] in E. injection E as _ _ E2 _. 
      pose proof (b64char_range _ (sx2 b c ltac:(auto))) as (_ & _ & Hp). congruence.
    + exfalso. cbn [base64] in E. injection E as _ _ _ E3 _. 
      pose proof (b64char_range _ (sx3 c)) as (_ & _ & Hp). congruence.
    + inversion Ht as [|? ? Bx Ht']; subst. inversion Ht' as [|? ? By Ht'']; subst. inversion Ht'' as [|? ? Bz Htr]; subst.
      unfold is_byte in Bx, By, Bz.
      cbn [base64] in E. injection E as E0 E1 E2 E3 E4.
      apply b64char_inj in E0; try (apply sx0; auto).
      apply b64char_inj in E1; try (apply sx1; auto).
      apply b64char_inj in E2; try (apply sx2; auto).
      apply b64char_inj in E3; try (apply sx3; auto).
      apply digit2 in E1; try (apply div_lt; lia). destruct E1 as [E1a E1b].
      apply digit2 in E2; try (apply div_lt; lia). destruct E2 as [E2a E2b].
      assert (a = x) by (apply (divmod_eq a x 4); [discriminate|auto|auto]).
      assert (b = y) by (apply (divmod_eq b y 16); [discriminate|auto|auto]).
      assert (c = z) by (apply (divmod_eq c z 64); [discriminate|auto|auto]).
      subst. f_equal. f_equal. f_equal. apply IH; auto.
Qed.
