(** Lemmas about the KKRT exchange: sender side. *)
From Coq Require Import List NArith Lia Bool Arith Permutation ZifyN ZifyNat.
From Verif Require Import Base BaseProofs Text StoreModel CuckooModel CuckooSpec CuckooProofs SyncModel KkrtModel KkrtSpec.
Import ListNotations.

Lemma nth_upd : forall (A : Type) n m f (l : list A),
  nth_error (upd n f l) m = if Nat.eqb n m then option_map f (nth_error l m) else nth_error l m.
Proof.
  induction n; intros m f l; destruct l as [ | x l]; destruct m; simpl; auto.
  destruct (Nat.eqb n m); reflexivity.
Qed.

Lemma seg3 : forall (A : Type) (g : nat -> nat -> A) n i buf,
  (forall t h, t < n -> h < 3 -> nth_error buf ((i + t) * 3 + h) = Some (g (i + t) h)) ->
  firstn (n * 3) (skipn (i * 3) buf) = flat_map (fun t => [g t 0; g t 1; g t 2]) (seq i n).
Proof.
  induction n; intros i buf H; [reflexivity | ].
  assert (E : forall h, h < 3 -> nth_error buf (i * 3 + h) = Some (g i h)).
  { intros h Hh. specialize (H 0 h ltac:(lia) Hh). rewrite Nat.add_0_r in H. exact H. }
  pose proof (E 0 ltac:(lia)) as E0. pose proof (E 1 ltac:(lia)) as E1. pose proof (E 2 ltac:(lia)) as E2.
  rewrite Nat.add_0_r in E0.
  rewrite (skipn_nth _ _ _ _ E0).
  replace (S (i * 3)) with (i * 3 + 1) by lia. rewrite (skipn_nth _ _ _ _ E1).
  replace (S (i * 3 + 1)) with (i * 3 + 2) by lia. rewrite (skipn_nth _ _ _ _ E2).
  replace (S (i * 3 + 2)) with (S i * 3) by lia.
  replace (S n * 3) with (S (S (S (n * 3)))) by lia. cbn [firstn seq flat_map app].
  do 3 f_equal. apply IHn. intros t h Ht Hh. replace (S i + t) with (i + S t) by lia. apply H; lia.
Qed.

  Lemma lor_none : forall a, (a < 2 ^ 64)%N -> N.lor a k_none = k_none.
  Proof.
    intros a H. change k_none with (N.ones 64). apply N.bits_inj. intro m. rewrite N.lor_spec.
    destruct (N.lt_ge_cases m 64) as [L | L].
    - rewrite N.ones_spec_low by assumption. apply orb_true_r.
    - rewrite N.ones_spec_high by assumption. rewrite orb_false_r.
      destruct (N.eq_dec a 0) as [-> | Z]; [apply N.bits_0 | ].
      apply N.bits_above_log2. apply N.lt_le_trans with 64%N; [ | assumption].
      apply N.log2_lt_pow2; lia.
  Qed.

Section Send.
  Context (oprf : N -> N -> bytes) (num_bins : N) (ot_batch psi_batch : nat)
          (perm : list nat) (fill : nat -> nat -> bytes) (garbage : nat -> bytes) (items : list hitem).
  Context (NB : (0 < num_bins < k_none)%N) (OB : 0 < ot_batch) (PB : 0 < psi_batch)
          (PP : Permutation perm (seq 0 (length items))).
  Local Notation n := (length items).

  Lemma perm_len : length perm = n.
  Proof using PP. clear - PP. rewrite (Permutation_length PP). apply seq_length. Qed.
  Lemma perm_nodup : NoDup perm.
  Proof using PP. clear - PP. eapply Permutation_NoDup; [apply Permutation_sym; exact PP | apply seq_NoDup]. Qed.
  Lemma perm_get : forall t, t < n -> exists inp it, nth_error perm t = Some inp /\ inp < n /\ nth_error items inp = Some it.
  Proof using PP. clear - PP.
    intros t Ht. destruct (nth_error perm t) as [inp | ] eqn:E.
    - assert (I : inp < n).
      { apply nth_error_In in E. eapply Permutation_in in E; [ | exact PP]. apply in_seq in E. lia. }
      destruct (nth_error items inp) as [it | ] eqn:F.
      + exists inp, it. auto.
      + apply nth_error_None in F. lia.
    - apply nth_error_None in E. rewrite perm_len in E. lia.
  Qed.
  Lemma perm_inj : forall t t' inp, nth_error perm t = Some inp -> nth_error perm t' = Some inp -> t = t'.
  Proof using PP. clear - PP.
    intros t t' inp A B. eapply NoDup_nth_error; [apply perm_nodup | | congruence].
    apply nth_error_Some. congruence.
  Qed.

  (** The bin of slot h, or none when an earlier hash gives the same bin. *)
  Definition orig (it : hitem) (h : nat) : N := nth h (item_bins num_bins it) k_none.

  Lemma sbin_lt : forall x h, (sbin num_bins x h < num_bins)%N.
  Proof using NB. clear - NB. intros. unfold sbin. apply N.mod_lt. lia. Qed.

  Definition fresh (x : N) (h : nat) : Prop :=
    forall h', h' < h -> sbin num_bins x (N.of_nat h') <> sbin num_bins x (N.of_nat h).

  Lemma orig_cases : forall it h, h < 3 ->
    (fresh (fst it) h /\ orig it h = sbin num_bins (fst it) (N.of_nat h)) \/
    (~ fresh (fst it) h /\ orig it h = k_none).
  Proof using NB. clear - NB.
    intros it h Hh. unfold orig, item_bins, fresh.
    assert (K : forall h', (sbin num_bins (fst it) h' < 2 ^ 64)%N).
    { intros h'. pose proof (sbin_lt (fst it) h'). unfold k_none in NB. change (2^64)%N with 18446744073709551616%N. lia. }
    destruct h as [ | [ | [ | h]]]; try lia; cbn [nth].
    - left. split; [intros; lia | reflexivity].
    - unfold c01. destruct (sbin num_bins (fst it) 0 =? sbin num_bins (fst it) 1)%N eqn:E.
      + right. apply N.eqb_eq in E. split.
        * intro H. apply (H 0 ltac:(lia)). exact E.
        * rewrite N.mul_1_l. apply lor_none. auto.
      + left. apply N.eqb_neq in E. split.
        * intros h' Hh'. assert (h' = 0) by lia. subst h'. exact E.
        * rewrite N.mul_0_l, N.lor_0_r. reflexivity.
    - unfold c02. destruct (sbin num_bins (fst it) 0 =? sbin num_bins (fst it) 2)%N eqn:E.
      + right. apply N.eqb_eq in E. split; [intro H; apply (H 0 ltac:(lia)); exact E | ].
        cbn [orb]. rewrite N.mul_1_l. apply lor_none. auto.
      + apply N.eqb_neq in E. cbn [orb].
        destruct (sbin num_bins (fst it) 1 =? sbin num_bins (fst it) 2)%N eqn:E1.
        * right. apply N.eqb_eq in E1. split; [intro H; apply (H 1 ltac:(lia)); exact E1 | ].
          rewrite N.mul_1_l. apply lor_none. auto.
        * left. apply N.eqb_neq in E1. split.
          -- intros h' Hh'. assert (h' = 0 \/ h' = 1) as [-> | ->] by lia; assumption.
          -- rewrite N.mul_0_l, N.lor_0_r. reflexivity.
  Qed.

  Lemma sbin_not_none : forall x h, sbin num_bins x h <> k_none.
  Proof using NB. clear - NB. intros. pose proof (sbin_lt x h). lia. Qed.

  Lemma bin_indices_len : forall l, length (flat_map (item_bins num_bins) l) = length l * 3.
  Proof. induction l; simpl; [reflexivity | ]. rewrite IHl. reflexivity. Qed.

  Lemma bin_indices_nth : forall l i it h, nth_error l i = Some it -> h < 3 ->
    nth_error (flat_map (item_bins num_bins) l) (i * 3 + h) = Some (orig it h).
  Proof using Type. clear.
    induction l as [ | a l IH]; intros i it h H Hh; [destruct i; discriminate | ].
    destruct i as [ | i].
    - simpl in H. injection H as ->. cbn [flat_map].
      rewrite nth_error_app1 by (simpl; lia). unfold orig. simpl (0 * 3 + h).
      apply nth_error_nth'. simpl. lia.
    - simpl in H. cbn [flat_map]. rewrite nth_error_app2 by (simpl; lia).
      replace (S i * 3 + h - length (item_bins num_bins a)) with (i * 3 + h) by (simpl; lia).
      apply IH; assumption.
  Qed.

  (** What slot (t, h) holds in the end. *)
  Definition canon (inp : nat) (it : hitem) (h : nat) : bytes :=
    if (orig it h =? k_none)%N then fill inp h else oprf (orig it h) (fst it).

  (** perm_inv *)
  Lemma invert_len : forall p i inv, length (invert i p inv) = length inv.
  Proof. induction p; intros; simpl; [reflexivity | ]. rewrite IHp. apply upd_len. Qed.
  Lemma invert_other : forall p i inv x, ~ In x p -> nth_error (invert i p inv) x = nth_error inv x.
  Proof.
    induction p as [ | a p IH]; intros i inv x H; [reflexivity | ]. cbn [invert].
    rewrite IH by (intro; apply H; right; assumption). rewrite nth_upd.
    destruct (Nat.eqb_spec a x); [subst; destruct H; left; reflexivity | reflexivity].
  Qed.
  Lemma invert_spec : forall p i inv t x, NoDup p -> nth_error p t = Some x -> x < length inv ->
    nth_error (invert i p inv) x = Some (i + t).
  Proof.
    induction p as [ | a p IH]; intros i inv t x ND H L; [destruct t; discriminate | ].
    inversion ND as [ | ? ? N1 N2]; subst. cbn [invert]. destruct t as [ | t].
    - simpl in H. injection H as ->. rewrite invert_other by assumption. rewrite nth_upd, Nat.eqb_refl.
      destruct (nth_error inv x) eqn:E; [simpl; f_equal; lia | ]. apply nth_error_None in E. lia.
    - simpl in H. rewrite (IH (S i) _ t x N2 H) by (rewrite upd_len; assumption). f_equal. lia.
  Qed.
  Lemma perm_inv_spec : forall t inp, nth_error perm t = Some inp -> nth inp (perm_inv perm items) 0 = t.
  Proof.
    intros t inp H. apply nth_error_nth. unfold perm_inv.
    rewrite (invert_spec perm 0 _ t inp perm_nodup H); [reflexivity | ].
    rewrite repeat_length. apply nth_error_In in H. eapply Permutation_in in H; [ | exact PP].
    apply in_seq in H. lia.
  Qed.

  (** buf0: after filling the slots of the first items. *)
  Lemma fill1_nth : forall buf i it t h, nth_error perm t = Some i -> h < 3 -> t * 3 + 2 < length buf ->
    nth_error (fill1 num_bins perm fill items buf (i, it)) (t * 3 + h) =
      if (orig it h =? k_none)%N then Some (fill i h) else nth_error buf (t * 3 + h).
  Proof.
    intros buf i it t h Ht Hh L. unfold fill1. rewrite (perm_inv_spec t i Ht).
    assert (B : nth_error buf (t * 3 + h) <> None) by (apply nth_error_Some; lia).
    unfold orig, item_bins.
    destruct h as [ | [ | [ | h]]]; try lia; cbn [nth].
    - replace (sbin num_bins (fst it) 0 =? k_none)%N with false
        by (symmetry; apply N.eqb_neq, sbin_not_none).
      destruct (c01 num_bins (fst it)); destruct (c02 num_bins (fst it)); rewrite ?nth_upd;
        rewrite ?(proj2 (Nat.eqb_neq (t * 3 + 1) (t * 3 + 0))) by lia;
        rewrite ?(proj2 (Nat.eqb_neq (t * 3 + 2) (t * 3 + 0))) by lia; reflexivity.
    - assert (K : forall h', (sbin num_bins (fst it) h' < 2 ^ 64)%N).
      { intros h'. pose proof (sbin_lt (fst it) h'). unfold k_none in NB. change (2^64)%N with 18446744073709551616%N. lia. }
      destruct (c01 num_bins (fst it)).
      + rewrite N.mul_1_l, lor_none by auto. rewrite N.eqb_refl.
        destruct (c02 num_bins (fst it)); rewrite ?nth_upd;
        rewrite ?(proj2 (Nat.eqb_neq (t * 3 + 2) (t * 3 + 1))) by lia;
        rewrite Nat.eqb_refl; destruct (nth_error buf (t * 3 + 1)); congruence || reflexivity.
      + rewrite N.mul_0_l, N.lor_0_r.
        replace (sbin num_bins (fst it) 1 =? k_none)%N with false by (symmetry; apply N.eqb_neq, sbin_not_none).
        destruct (c02 num_bins (fst it)); rewrite ?nth_upd;
        rewrite ?(proj2 (Nat.eqb_neq (t * 3 + 2) (t * 3 + 1))) by lia; reflexivity.
    - assert (K : forall h', (sbin num_bins (fst it) h' < 2 ^ 64)%N).
      { intros h'. pose proof (sbin_lt (fst it) h'). unfold k_none in NB. change (2^64)%N with 18446744073709551616%N. lia. }
      destruct (c02 num_bins (fst it)).
      + rewrite N.mul_1_l, lor_none by auto. rewrite N.eqb_refl.
        destruct (c01 num_bins (fst it)); rewrite ?nth_upd, Nat.eqb_refl;
        rewrite ?(proj2 (Nat.eqb_neq (t * 3 + 1) (t * 3 + 2))) by lia;
        destruct (nth_error buf (t * 3 + 2)); congruence || reflexivity.
      + rewrite N.mul_0_l, N.lor_0_r.
        replace (sbin num_bins (fst it) 2 =? k_none)%N with false by (symmetry; apply N.eqb_neq, sbin_not_none).
        destruct (c01 num_bins (fst it)); rewrite ?nth_upd;
        rewrite ?(proj2 (Nat.eqb_neq (t * 3 + 1) (t * 3 + 2))) by lia; reflexivity.
  Qed.

  Lemma fill1_len : forall buf p, length (fill1 num_bins perm fill items buf p) = length buf.
  Proof.
    intros buf [i it]. unfold fill1. destruct (c01 _ _), (c02 _ _); rewrite ?upd_len; reflexivity.
  Qed.

  Lemma fill1_other : forall buf i it t' t h, nth_error perm t' = Some i -> t <> t' -> h < 3 ->
    nth_error (fill1 num_bins perm fill items buf (i, it)) (t * 3 + h) = nth_error buf (t * 3 + h).
  Proof.
    intros buf i it t' t h Ht NT Hh. unfold fill1. rewrite (perm_inv_spec t' i Ht).
    destruct (c01 _ _), (c02 _ _); rewrite ?nth_upd;
      rewrite ?(proj2 (Nat.eqb_neq (t' * 3 + 1) (t * 3 + h))) by lia;
      rewrite ?(proj2 (Nat.eqb_neq (t' * 3 + 2) (t * 3 + h))) by lia; reflexivity.
  Qed.

  Lemma fills_nth : forall l i buf, i + length l <= n -> length buf = n * 3 ->
    (forall k it, nth_error l k = Some it -> nth_error items (i + k) = Some it) ->
    let buf' := fold_left (fill1 num_bins perm fill items) (number i l) buf in
    length buf' = n * 3 /\
    forall t inp it h, nth_error perm t = Some inp -> nth_error items inp = Some it -> h < 3 ->
      i <= inp < i + length l -> orig it h = k_none -> nth_error buf' (t * 3 + h) = Some (fill inp h).
  Proof.
    assert (KEEP : forall l i buf t inp h, nth_error perm t = Some inp -> inp < i -> h < 3 -> i + length l <= n ->
      nth_error (fold_left (fill1 num_bins perm fill items) (number i l) buf) (t * 3 + h) = nth_error buf (t * 3 + h)).
    { induction l as [ | a l IH]; intros i buf t inp h Ht Li Hh Ln; [reflexivity | ].
      cbn [number fold_left]. cbn [length] in Ln. rewrite (IH (S i) _ t inp h Ht ltac:(lia) Hh ltac:(lia)).
      assert (exists t', nth_error perm t' = Some i) as (t' & Ht').
      { assert (In i perm) by (eapply Permutation_in; [apply Permutation_sym; exact PP | apply in_seq; lia]).
        apply In_nth_error in H. exact H. }
      apply (fill1_other _ _ _ t'); auto. intro; subst t'. rewrite Ht in Ht'. injection Ht' as ->. lia. }
    induction l as [ | a l IH]; intros i buf Ln LB HI; cbn zeta.
    - cbn [number fold_left]. split; [assumption | ]. intros t inp it h _ _ _ [A B]. cbn [length] in B. lia.
    - cbn [number fold_left]. cbn [length] in Ln |- *.
      destruct (IH (S i) (fill1 num_bins perm fill items buf (i, a))) as [L' H'].
      + lia.
      + rewrite fill1_len. assumption.
      + intros k it Hk. replace (S i + k) with (i + S k) by lia. apply HI. assumption.
      + cbn zeta in *. split; [assumption | ].
        intros t inp it h Ht Hit Hh Ri Ho.
        destruct (Nat.eq_dec inp i) as [-> | NI].
        * rewrite (KEEP l (S i) _ t i h Ht ltac:(lia) Hh ltac:(lia)).
          assert (it = a).
          { specialize (HI 0 a eq_refl). rewrite Nat.add_0_r in HI. congruence. }
          subst it.
          assert (t < n) by (rewrite <- perm_len; apply nth_error_Some; congruence).
          rewrite (fill1_nth buf i a t h Ht Hh ltac:(rewrite LB; lia)).
          rewrite Ho, N.eqb_refl. reflexivity.
        * apply (H' t inp it h); auto. lia.
  Qed.

  (** Invariant of the encoding state. *)
  Definition J (st : list N * list bytes) : Prop :=
    length (fst st) = n * 3 /\ length (snd st) = n * 3 /\
    forall t inp it h, nth_error perm t = Some inp -> nth_error items inp = Some it -> h < 3 ->
      (nth_error (fst st) (inp * 3 + h) = Some k_none /\ nth_error (snd st) (t * 3 + h) = Some (canon inp it h)) \/
      (nth_error (fst st) (inp * 3 + h) = Some (orig it h) /\ orig it h <> k_none).

  Lemma J_init : J (bin_indices num_bins items, buf0 num_bins perm fill garbage items).
  Proof.
    unfold J, bin_indices, buf0. cbn [fst snd].
    destruct (fills_nth items 0 (map garbage (seq 0 (length items * 3)))) as [LB HB].
    - lia.
    - rewrite map_length, seq_length. reflexivity.
    - intros k it Hk. exact Hk.
    - cbn zeta in *. split; [apply bin_indices_len | ]. split; [assumption | ].
      intros t inp it h Ht Hit Hh. rewrite (bin_indices_nth items inp it h Hit Hh).
      destruct (N.eq_dec (orig it h) k_none) as [E | E]; [left | right; auto].
      rewrite E. split; [reflexivity | ]. unfold canon. rewrite E, N.eqb_refl.
      apply HB with it; auto. split; [lia | ]. simpl. apply nth_error_Some. congruence.
  Qed.

  Lemma try_slot_J : forall r arrived t h st, (r <= arrived)%N -> (r <= num_bins)%N -> t < n -> h < 3 -> J st ->
    exists st', try_slot oprf perm items r arrived t h st = Ok st' /\ J st'.
  Proof.
    intros r arrived t h [bi buf] RA RN Ht Hh (L1 & L2 & H). cbn [fst snd] in *.
    destruct (perm_get t Ht) as (inp & it & Ep & Li & Ei).
    unfold try_slot. rewrite Ep, Ei.
    destruct (H t inp it h Ep Ei Hh) as [[A B] | [A B]]; rewrite A.
    - replace (k_none <? r)%N with false by (symmetry; apply N.ltb_ge; lia).
      exists (bi, buf). split; [reflexivity | ]. repeat split; auto.
    - destruct (orig it h <? r)%N eqn:EL.
      2: { exists (bi, buf). split; [reflexivity | ]. repeat split; auto. }
      apply N.ltb_lt in EL. unfold s_encode.
      replace (orig it h <? arrived)%N with true by (symmetry; apply N.ltb_lt; lia). cbn [bind].
      eexists. split; [reflexivity | ]. split; [cbn [fst]; rewrite upd_len; assumption | ].
      split; [cbn [snd]; rewrite upd_len; assumption | ]. cbn [fst snd].
      intros t' inp' it' h' Ep' Ei' Hh'. rewrite !nth_upd.
      destruct (Nat.eqb_spec (inp * 3 + h) (inp' * 3 + h')) as [EE | EE].
      + assert (inp = inp' /\ h = h') as [-> ->] by lia.
        assert (t = t') by (eapply perm_inj; eauto). subst t'.
        assert (it' = it) by congruence. subst it'. left. rewrite A. split; [reflexivity | ].
        rewrite Nat.eqb_refl.
        destruct (nth_error buf (t * 3 + h')) eqn:EB; [ | apply nth_error_None in EB; lia].
        simpl. f_equal. unfold canon. replace (orig it h' =? k_none)%N with false; [reflexivity | ].
        symmetry. apply N.eqb_neq. assumption.
      + assert (t * 3 + h <> t' * 3 + h').
        { intro Q. assert (t = t' /\ h = h') as [-> ->] by lia. apply EE. congruence. }
        replace (t * 3 + h =? t' * 3 + h') with false by (symmetry; apply Nat.eqb_neq; assumption).
        apply H; assumption.
  Qed.

  Lemma try_item_J : forall r arrived t st, (r <= arrived)%N -> (r <= num_bins)%N -> t < n -> J st ->
    exists st', try_item oprf perm items r arrived t st = Ok st' /\ J st'.
  Proof.
    intros r a t st RA RN Ht HJ. unfold try_item.
    destruct (try_slot_J r a t 0 st RA RN Ht ltac:(lia) HJ) as (s1 & E1 & J1). rewrite E1. cbn [bind].
    destruct (try_slot_J r a t 1 s1 RA RN Ht ltac:(lia) J1) as (s2 & E2 & J2). rewrite E2. cbn [bind].
    apply try_slot_J; auto. 
  Qed.

  Context (arr : nat -> N) (AR : arrivals num_bins arr).

  Lemma spin_batch_J : forall m k r t st, (r <= arr k)%N -> t < n -> J st ->
    exists t' st', spin_batch oprf perm arr items m k r t st = Ok (t', st') /\ t' < n /\ J st'.
  Proof.
    induction m; intros k r t st RA Ht HJ.
    - exists t, st. auto.
    - cbn [spin_batch]. destruct AR as (A1 & A2 & A3).
      assert (RN : (r <= num_bins)%N) by (specialize (A2 k); lia).
      destruct (try_item_J r (arr k) t st RA RN Ht HJ) as (s1 & E1 & J1). rewrite E1. cbn [bind].
      apply IHm; auto.
      + specialize (A1 k (S k) ltac:(lia)). lia.
      + apply Nat.mod_upper_bound. lia.
  Qed.

  Lemma spin_J : forall T, arr T = num_bins -> forall fuel k r t st,
    T < k + fuel -> (T < k -> r = num_bins) -> (r <= arr k)%N -> t < n -> J st ->
    exists st', spin oprf num_bins ot_batch perm arr items fuel k r t st = Ok st' /\ J st'.
  Proof.
    intros T HT. induction fuel; intros k r t st F K R Ht HJ.
    - unfold spin. rewrite K by lia. rewrite N.eqb_refl. exists st. auto.
    - cbn [spin]. destruct (r =? num_bins)%N eqn:E; [exists st; auto | ].
      destruct (spin_batch_J ot_batch k r t st R Ht HJ) as (t' & s1 & E1 & Ht' & J1).
      rewrite E1. cbn [bind fst snd]. apply IHfuel; auto; try lia.
      intros TK. destruct AR as (A1 & A2 & A3). specialize (A1 T (k + ot_batch) ltac:(lia)).
      specialize (A2 (k + ot_batch)). lia.
  Qed.

  (** The batches to be sent. *)
  Definition slot_val (t h : nat) : bytes :=
    match nth_error perm t with
    | Some inp => match nth_error items inp with Some it => canon inp it h | None => [] end
    | None => []
    end.
  Definition cnt_at (t : nat) : N :=
    match nth_error perm t with
    | Some inp => match nth_error items inp with Some it => snd it | None => 0%N end
    | None => 0%N
    end.
  Definition dups_of (i a m : nat) : dupcnt :=
    flat_map (fun j => if (1 <? cnt_at (i + j))%N then [(N.of_nat j, cnt_at (i + j))] else []) (seq a m).
  Definition batch_of (i m : nat) : dbatch :=
    mk_db m (concat (flat_map (fun t => [slot_val t 0; slot_val t 1; slot_val t 2]) (seq i m)))
      (dups_of i 0 m) (i + m =? n).
  Fixpoint batches_from (fuel i : nat) : list dbatch :=
    if n <=? i then []
    else match fuel with
         | O => []
         | S f => let m := Nat.min psi_batch (n - i) in batch_of i m :: batches_from f (i + m)
         end.

  Lemma slot_val_eq : forall t inp it h, nth_error perm t = Some inp -> nth_error items inp = Some it ->
    slot_val t h = canon inp it h.
  Proof. intros t inp it h A B. unfold slot_val. rewrite A, B. reflexivity. Qed.

  Lemma final_slot : forall bi buf t inp it h, J (bi, buf) ->
    nth_error perm t = Some inp -> nth_error items inp = Some it -> h < 3 ->
    exists buf', (match nth_error bi (inp * 3 + h) with
                  | None => UB
                  | Some b => if (b =? k_none)%N then Ok buf
                              else do e <- s_encode oprf num_bins b (fst it); Ok (upd (t * 3 + h) (fun _ => e) buf)
                  end) = Ok buf' /\ J (bi, buf') /\ length buf' = length buf /\
      nth_error buf' (t * 3 + h) = Some (canon inp it h) /\
      forall k, k <> t * 3 + h -> nth_error buf' k = nth_error buf k.
  Proof.
    intros bi buf t inp it h (L1 & L2 & H) Ep Ei Hh. cbn [fst snd] in *.
    assert (Ht : t < n) by (rewrite <- perm_len; apply nth_error_Some; congruence).
    destruct (H t inp it h Ep Ei Hh) as [[A B] | [A B]]; rewrite A.
    - rewrite N.eqb_refl. exists buf. repeat split; auto.
    - replace (orig it h =? k_none)%N with false by (symmetry; apply N.eqb_neq; assumption).
      unfold s_encode. assert (LO : (orig it h < num_bins)%N).
      { destruct (orig_cases it h Hh) as [[_ E] | [_ E]]; [rewrite E; apply sbin_lt | contradiction]. }
      replace (orig it h <? num_bins)%N with true by (symmetry; apply N.ltb_lt; assumption). cbn [bind].
      eexists. split; [reflexivity | ].
      assert (CE : canon inp it h = oprf (orig it h) (fst it)).
      { unfold canon. replace (orig it h =? k_none)%N with false; [reflexivity | ].
        symmetry. apply N.eqb_neq. assumption. }
      assert (AT : nth_error (upd (t * 3 + h) (fun _ => oprf (orig it h) (fst it)) buf) (t * 3 + h) = Some (canon inp it h)).
      { rewrite nth_upd, Nat.eqb_refl. destruct (nth_error buf (t * 3 + h)) eqn:EB; [ | apply nth_error_None in EB; lia].
        simpl. rewrite CE. reflexivity. }
      split; [ | split; [apply upd_len | split; [exact AT | ]]].
      + split; [assumption | ]. split; [cbn [snd]; rewrite upd_len; assumption | ]. cbn [fst snd].
        intros t' inp' it' h' Ep' Ei' Hh'.
        destruct (Nat.eq_dec (t * 3 + h) (t' * 3 + h')) as [Q | Q].
        * assert (t = t' /\ h = h') as [<- <-] by lia.
          assert (inp' = inp) by congruence. subst inp'. assert (it' = it) by congruence. subst it'. right. auto.
        * rewrite nth_upd. replace (t * 3 + h =? t' * 3 + h') with false by (symmetry; apply Nat.eqb_neq; assumption).
          apply H; assumption.
      + intros k Hk. rewrite nth_upd. replace (t * 3 + h =? k) with false; [reflexivity | ].
        symmetry. apply Nat.eqb_neq. lia.
  Qed.

  Lemma final_items_ok : forall m i j bi buf dup, i + j + m <= n -> J (bi, buf) ->
    (forall t h, t < i + j -> h < 3 -> nth_error buf (t * 3 + h) = Some (slot_val t h)) ->
    exists buf', final_items oprf num_bins perm items i j m bi buf dup = Ok (buf', dup ++ dups_of i j m) /\
      J (bi, buf') /\
      (forall t h, t < i + j + m -> h < 3 -> nth_error buf' (t * 3 + h) = Some (slot_val t h)).
  Proof.
    induction m; intros i j bi buf dup L HJ DONE.
    - exists buf. unfold dups_of. simpl. rewrite app_nil_r. rewrite Nat.add_0_r. auto.
    - cbn [final_items].
      destruct (perm_get (i + j) ltac:(lia)) as (inp & it & Ep & Li & Ei).
      rewrite Ep, Ei. cbv zeta.
      destruct (final_slot bi buf (i + j) inp it 0 HJ Ep Ei ltac:(lia)) as (b1 & E1 & J1 & L1 & A1 & K1).
      rewrite E1. cbn [bind].
      destruct (final_slot bi b1 (i + j) inp it 1 J1 Ep Ei ltac:(lia)) as (b2 & E2 & J2 & L2 & A2 & K2).
      rewrite E2. cbn [bind].
      destruct (final_slot bi b2 (i + j) inp it 2 J2 Ep Ei ltac:(lia)) as (b3 & E3 & J3 & L3 & A3 & K3).
      rewrite E3. cbn [bind].
      assert (CN : cnt_at (i + j) = snd it) by (unfold cnt_at; rewrite Ep, Ei; reflexivity).
      destruct (IHm i (S j) bi b3 (if (1 <? snd it)%N then dup ++ [(N.of_nat j, snd it)] else dup) ltac:(lia) J3)
        as (b4 & E4 & J4 & D4).
      + intros t h Ht Hh.
        destruct (Nat.eq_dec t (i + j)) as [-> | NT].
        * rewrite (slot_val_eq _ _ _ _ Ep Ei).
          destruct h as [ | [ | [ | h]]]; try lia.
          -- rewrite K3, K2 by lia. exact A1.
          -- rewrite K3 by lia. exact A2.
          -- exact A3.
        * rewrite K3, K2, K1 by lia. apply DONE; lia.
      + exists b4. split; [ | split; [assumption | ]].
        * rewrite E4. f_equal. f_equal. unfold dups_of. cbn [seq flat_map]. rewrite CN.
          destruct (1 <? snd it)%N; [rewrite <- app_assoc; reflexivity | reflexivity].
        * intros t h Ht Hh. apply D4; lia.
  Qed.

  Lemma final_loop_ok : forall fuel i bi buf, n <= i + fuel -> i <= n -> J (bi, buf) ->
    (forall t h, t < i -> h < 3 -> nth_error buf (t * 3 + h) = Some (slot_val t h)) ->
    final_loop oprf num_bins psi_batch perm items fuel i bi buf = Ok (batches_from fuel i).
  Proof.
    induction fuel; intros i bi buf F L HJ D.
    - unfold final_loop, batches_from. replace (n <=? i) with true by (symmetry; apply Nat.leb_le; lia). reflexivity.
    - cbn [final_loop batches_from]. destruct (n <=? i) eqn:E; [reflexivity | ].
      apply Nat.leb_gt in E.
      set (m := Nat.min psi_batch (n - i)).
      assert (M : 0 < m <= n - i) by (unfold m; lia).
      destruct (final_items_ok m i 0 bi buf [] ltac:(lia) HJ) as (b' & E1 & J1 & D1).
      { intros t h Ht Hh. apply D; lia. }
      rewrite E1. cbn [bind app]. rewrite Nat.add_0_r in D1.
      rewrite (IHfuel (i + m) bi b'); try assumption; try lia.
      unfold omap. cbn [bind]. do 2 f_equal. unfold batch_of. f_equal.
      f_equal. apply (seg3 _ slot_val m i b'). intros t h Ht Hh. apply D1; lia.
  Qed.

  Lemma kkrt_send_ok : 0 < n -> exists fuel0, forall fuel, fuel0 <= fuel ->
    kkrt_send oprf num_bins ot_batch psi_batch perm fill garbage arr items fuel = Ok (batches_from (S n) 0).
  Proof.
    intros NP. destruct AR as (A1 & A2 & T & HT). exists (S T). intros fuel F. unfold kkrt_send.
    destruct (spin_J T HT fuel 0 0%N 0 (bin_indices num_bins items, buf0 num_bins perm fill garbage items))
      as (st & E & JS); try lia; auto using J_init.
    rewrite E. cbn [bind]. apply final_loop_ok; try lia.
    destruct st; exact JS.
  Qed.

  (** Item-wise view of the batches. *)
  Lemma batches_view : forall (R : Type) (f : nat -> list R) (look : dbatch -> list R),
    (forall i m, i + m <= n -> look (batch_of i m) = flat_map f (seq i m)) ->
    forall fuel i, n <= i + fuel -> i <= n -> flat_map look (batches_from fuel i) = flat_map f (seq i (n - i)).
  Proof using PB. clear - PB.
    intros R f look HL. induction fuel; intros i F L.
    - unfold batches_from. replace (n <=? i) with true by (symmetry; apply Nat.leb_le; lia).
      replace (n - i) with 0 by lia. reflexivity.
    - cbn [batches_from]. destruct (n <=? i) eqn:E.
      + apply Nat.leb_le in E. replace (n - i) with 0 by lia. reflexivity.
      + apply Nat.leb_gt in E. set (m := Nat.min psi_batch (n - i)).
        assert (M : 0 < m <= n - i) by (unfold m; lia).
        cbn [flat_map]. rewrite HL by lia. rewrite IHfuel by lia.
        replace (n - i) with (m + (n - (i + m))) by lia.
        rewrite seq_app, flat_map_app. reflexivity.
  Qed.

  Lemma batches_last : forall fuel i, n <= i + fuel -> i < n ->
    exists bs b, batches_from fuel i = bs ++ [b] /\ db_last b = true /\ Forall (fun x => db_last x = false) bs.
  Proof using PB. clear - PB.
    induction fuel; intros i F L; [lia | ].
    cbn [batches_from]. replace (n <=? i) with false by (symmetry; apply Nat.leb_gt; lia).
    set (m := Nat.min psi_batch (n - i)). assert (M : 0 < m <= n - i) by (unfold m; lia).
    destruct (Nat.eq_dec (i + m) n) as [E | E].
    - exists [], (batch_of i m). split.
      + cbn [app]. f_equal. rewrite E. destruct fuel; unfold batches_from; rewrite Nat.leb_refl; reflexivity.
      + split; [ | constructor]. unfold batch_of. cbn [db_last]. apply Nat.eqb_eq. assumption.
    - destruct (IHfuel (i + m) ltac:(lia) ltac:(lia)) as (bs & b & EB & LB & FB).
      exists (batch_of i m :: bs), b. rewrite EB. split; [reflexivity | ]. split; [assumption | ].
      constructor; [ | assumption]. unfold batch_of. cbn [db_last]. apply Nat.eqb_neq. assumption.
  Qed.

  Lemma batches_in : forall fuel i b, In b (batches_from fuel i) -> exists i' m, b = batch_of i' m /\ i' + m <= n.
  Proof using Type. clear.
    induction fuel; intros i b H.
    - unfold batches_from in H. destruct (n <=? i); destruct H.
    - cbn [batches_from] in H. destruct (n <=? i) eqn:E; [destruct H | ]. apply Nat.leb_gt in E.
      destruct H as [<- | H]; [eexists _, _; split; [reflexivity | lia] | eapply IHfuel; eauto].
  Qed.
End Send.
