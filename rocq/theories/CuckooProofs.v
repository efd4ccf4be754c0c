(** Lemmas about the cuckoo table. *)
From Coq Require Import List NArith Lia Bool Arith Permutation ZifyN ZifyNat.
From Verif Require Import Base StoreModel CuckooModel CuckooSpec.
Import ListNotations.
Local Open Scope N_scope.

Definition p56 : N := 2 ^ 56.

Lemma input_idx_mod : forall e, input_idx e = e mod 2 ^ 56.
Proof. intros. unfold input_idx. apply N.land_ones. Qed.
Lemma hash_idx_div : forall e, hash_idx e = e / 2 ^ 56.
Proof. intros. unfold hash_idx. apply N.shiftr_div_pow2. Qed.

Lemma encode_val : forall i h, i < 2 ^ 56 -> h < 5 -> encode i h = i + h * 2 ^ 56.
Proof.
  intros i h Hi Hh. unfold encode, u64. rewrite N.shiftl_mul_pow2.
  rewrite (N.mod_small (h * 2 ^ 56)) by (change (2^56) with 72057594037927936 in *; lia).
  assert (L : N.lor i (h * 2 ^ 56) = i + h * 2 ^ 56).
  { assert (A : N.land i (h * 2 ^ 56) = 0).
    { apply N.bits_inj. intro k. rewrite N.land_spec, N.bits_0.
      destruct (N.lt_ge_cases k 56) as [K | K].
      - rewrite N.mul_pow2_bits_low by assumption. apply andb_false_r.
      - replace (N.testbit i k) with false; [reflexivity | ]. symmetry.
        destruct (N.eq_dec i 0) as [-> | Z]; [apply N.bits_0 | ].
        apply N.bits_above_log2. apply N.lt_le_trans with 56; [ | assumption].
        apply N.log2_lt_pow2; lia. }
    rewrite <- N.lxor_lor by assumption. rewrite <- N.add_nocarry_lxor by assumption. reflexivity. }
  rewrite L. apply N.mod_small. change (2^56) with 72057594037927936 in *. lia.
Qed.

Lemma idx_of_sum : forall i h, i < 2 ^ 56 -> input_idx (i + h * 2 ^ 56) = i /\ hash_idx (i + h * 2 ^ 56) = h.
Proof.
  intros. rewrite input_idx_mod, hash_idx_div. split.
  - rewrite N.mod_add by discriminate. apply N.mod_small. assumption.
  - rewrite N.div_add by discriminate. rewrite N.div_small by assumption. lia.
Qed.

(** Entries referring to one of the first [n] inputs. *)
Definition entry (n hn e : N) : Prop := exists i h, e = i + h * 2 ^ 56 /\ i < n /\ h < hn.

Lemma entry_facts : forall n hn e, n < 2 ^ 56 -> hn <= 5 -> entry n hn e ->
  is_empty e = false /\ input_idx e < n /\ hash_idx e < hn /\ e <> k_empty.
Proof.
  intros n hn e Hn Hh (i & h & -> & I & H).
  assert (i < 2 ^ 56) as I56 by lia.
  destruct (idx_of_sum i h I56) as [A B]. rewrite A, B.
  assert (NE : i + h * 2 ^ 56 <> k_empty).
  { unfold k_empty. change (2 ^ 56) with 72057594037927936 in *. lia. }
  repeat split; try assumption. unfold is_empty. apply N.eqb_neq. assumption.
Qed.

Lemma entry_mono : forall n m hn e, n <= m -> entry n hn e -> entry m hn e.
Proof. intros n m hn e L (i & h & E & I & H). exists i, h. repeat split; auto; lia. Qed.

Lemma entry_encode : forall n hn e, n < 2 ^ 56 -> 1 <= hn <= 5 -> entry n hn e ->
  entry n hn (encode (input_idx e) ((hash_idx e + 1) mod hn)) /\
  input_idx (encode (input_idx e) ((hash_idx e + 1) mod hn)) = input_idx e.
Proof.
  intros n hn e Hn Hh E. destruct (entry_facts n hn e Hn (proj2 Hh) E) as (_ & I & H & _).
  assert (M : (hash_idx e + 1) mod hn < hn) by (apply N.mod_lt; lia).
  rewrite encode_val by lia. split.
  - exists (input_idx e), ((hash_idx e + 1) mod hn). auto.
  - apply idx_of_sum. lia.
Qed.

(** Inputs held by a list of bins. *)
Definition held (bins : list N) : list N :=
  flat_map (fun e => if is_empty e then [] else [input_idx e]) bins.

Lemma held_app : forall a b, held (a ++ b) = held a ++ held b.
Proof. intros. unfold held. apply flat_map_app. Qed.

Lemma held_repeat : forall n, held (repeat k_empty n) = [].
Proof. induction n; simpl; auto. Qed.

Lemma upd_split : forall (A : Type) n (l : list A) x y, nth_error l n = Some x ->
  exists a b, l = a ++ x :: b /\ length a = n /\ upd n (fun _ => y) l = a ++ y :: b.
Proof.
  induction n; intros l x y H; destruct l as [ | z l]; try discriminate.
  - simpl in H. injection H as ->. exists [], l. auto.
  - simpl in H. destruct (IHn l x y H) as (a & b & E & L & U).
    exists (z :: a), b. simpl. rewrite E at 1. rewrite L, U. auto.
Qed.

Lemma upd_len : forall (A : Type) n f (l : list A), length (upd n f l) = length l.
Proof. induction n; intros f l; destruct l; simpl; auto. Qed.

Lemma upd_firstn : forall (A : Type) w (l : list A) x, (w < length l)%nat ->
  firstn (S w) (upd w (fun _ => x) l) = firstn w l ++ [x].
Proof.
  induction w; intros l x L; destruct l as [ | y l]; simpl in L; try lia; [reflexivity | ].
  cbn [upd]. change (firstn (S (S w)) (y :: upd w (fun _ : A => x) l)) with (y :: firstn (S w) (upd w (fun _ => x) l)).
  rewrite IHw by lia. reflexivity.
Qed.

Lemma upd_skipn : forall (A : Type) w i (l : list A) f, (w < i)%nat -> skipn i (upd w f l) = skipn i l.
Proof.
  induction w; intros i l f L; destruct i; try lia; destruct l as [ | y l]; try reflexivity.
  simpl. apply IHw. lia.
Qed.

Lemma skipn_nth : forall (A : Type) i (l : list A) x, nth_error l i = Some x -> skipn i l = x :: skipn (S i) l.
Proof.
  induction i; intros l x H; destruct l as [ | y l]; try discriminate.
  - simpl in H. injection H as ->. reflexivity.
  - simpl in H. cbn [skipn]. apply IHi in H. exact H.
Qed.

Section Opts.
  Context (o : ck_opts) (G : good_opts o).
  Let hn := ko_hash o.

  (** A bin entry at position p. *)
  Definition placed (hs : list N) (p : nat) (e : N) : Prop :=
    e = k_empty \/
    (entry (N.of_nat (length hs)) hn e /\ bin_of o hs (input_idx e) (hash_idx e) = Ok (N.of_nat p)).
  Definition table_ok (hs bins : list N) : Prop :=
    length bins = N.to_nat (ko_bins o) /\ (forall p e, nth_error bins p = Some e -> placed hs p e).

  Lemma bin_of_ok : forall hs i h, i < N.of_nat (length hs) -> h < 5 ->
    exists b, bin_of o hs i h = Ok b /\ b < ko_bins o.
  Proof.
    intros hs i h I H. unfold bin_of.
    destruct (nth_error hs (N.to_nat i)) as [code | ] eqn:E.
    - unfold get_hash. replace (h * 2 + 8 <=? 16) with true by (symmetry; apply N.leb_le; lia).
      simpl. replace (ko_bins o =? 0) with false.
      2: { symmetry. apply N.eqb_neq. destruct G as (_ & B & _). lia. }
      eexists; split; [reflexivity | ]. apply N.mod_lt. destruct G as (_ & B & _). lia.
    - apply nth_error_None in E. lia.
  Qed.

  Lemma pass_ok : forall fuel i w hs cands bins,
    N.of_nat (length hs) < 2 ^ 56 ->
    (i + fuel = length cands)%nat -> (w <= i)%nat ->
    Forall (entry (N.of_nat (length hs)) hn) cands ->
    table_ok hs bins ->
    exists cands' bins', ck_pass o fuel i w hs cands bins = Ok (cands', bins') /\
      Forall (entry (N.of_nat (length hs)) hn) cands' /\ table_ok hs bins' /\
      Permutation (held bins' ++ map input_idx cands')
                  (held bins ++ map input_idx (firstn w cands) ++ map input_idx (skipn i cands)).
  Proof.
    induction fuel; intros i w hs cands bins HN L W FC T.
    - exists (firstn w cands), bins. split; [reflexivity | ]. split; [ | split; [assumption | ]].
      + rewrite Forall_forall in FC |- *. intros x Hx. apply FC. revert Hx. apply (fun H => H).
        intros Hx. rewrite <- (firstn_skipn w cands). apply in_or_app. auto.
      + rewrite (skipn_all2 cands) by lia. simpl. rewrite app_nil_r. apply Permutation_refl.
    - cbn [ck_pass]. destruct (nth_error cands i) as [c | ] eqn:EC.
      2: { apply nth_error_None in EC. lia. }
      assert (Ec : entry (N.of_nat (length hs)) hn c).
      { rewrite Forall_forall in FC. apply FC. eapply nth_error_In; eauto. }
      destruct G as (GH & GB & GI).
      destruct (entry_facts _ hn c HN (proj2 GH) Ec) as (NEc & Ic & Hc & NKc).
      destruct (bin_of_ok hs (input_idx c) (hash_idx c) Ic ltac:(unfold hn in *; lia)) as (b & Eb & Lb).
      rewrite Eb. cbn [bind].
      destruct T as [TL TP].
      destruct (nth_error bins (N.to_nat b)) as [ev | ] eqn:EV.
      2: { apply nth_error_None in EV. lia. }
      destruct (upd_split _ _ _ _ c EV) as (ba & bb & EB & LA & EU).
      assert (T' : table_ok hs (upd (N.to_nat b) (fun _ => c) bins)).
      { split; [rewrite upd_len; assumption | ]. intros p e Hp.
        destruct (Nat.eq_dec p (N.to_nat b)) as [-> | NP].
        - rewrite EU in Hp. rewrite nth_error_app2 in Hp by lia. rewrite LA, Nat.sub_diag in Hp.
          simpl in Hp. injection Hp as <-. right. split; [assumption | ]. rewrite N2Nat.id. assumption.
        - apply TP. rewrite <- Hp. rewrite EU, EB.
          destruct (Nat.lt_ge_cases p (length ba)) as [Q | Q].
          + rewrite !nth_error_app1 by assumption. reflexivity.
          + rewrite !nth_error_app2 by assumption.
            destruct (p - length ba)%nat eqn:EP; [lia | reflexivity]. }
      assert (SK : map input_idx (skipn i cands) = input_idx c :: map input_idx (skipn (S i) cands)).
      { rewrite (skipn_nth _ _ _ _ EC). reflexivity. }
      assert (HU : held (upd (N.to_nat b) (fun _ => c) bins) = held ba ++ input_idx c :: held bb).
      { rewrite EU, held_app. f_equal. unfold held at 1. cbn [flat_map]. rewrite NEc. reflexivity. }
      assert (HB : held bins = held ba ++ (if is_empty ev then [] else [input_idx ev]) ++ held bb).
      { rewrite EB, held_app. f_equal. }
      destruct (is_empty ev) eqn:EE.
      + destruct (IHfuel (S i) w hs cands (upd (N.to_nat b) (fun _ => c) bins) HN ltac:(lia) ltac:(lia) FC T')
          as (c' & b' & E1 & F1 & T1 & P1).
        exists c', b'. split; [assumption | ]. split; [assumption | ]. split; [assumption | ].
        eapply Permutation_trans; [exact P1 | ]. rewrite HU, HB, SK. simpl.
        rewrite <- !app_assoc. apply Permutation_app_head. simpl.
        rewrite (app_assoc (held bb)), (app_assoc (held bb)).
        apply Permutation_middle.
      + replace (ko_hash o =? 0) with false by (symmetry; apply N.eqb_neq; lia).
        assert (Eev : entry (N.of_nat (length hs)) hn ev).
        { destruct (TP _ _ EV) as [K | [K _]]; [ | exact K]. subst ev. discriminate EE. }
        destruct (entry_encode _ hn ev HN GH Eev) as [EN1 EN2].
        set (ne := encode (input_idx ev) ((hash_idx ev + 1) mod ko_hash o)) in *.
        assert (EN2' : input_idx ne = input_idx ev) by exact EN2.
        assert (FC' : Forall (entry (N.of_nat (length hs)) hn) (upd w (fun _ => ne) cands)).
        { destruct (nth_error cands w) as [cw | ] eqn:EW.
          2: { apply nth_error_None in EW. lia. }
          destruct (upd_split _ _ _ _ ne EW) as (ca & cb & ECS & _ & ECU). rewrite ECU.
          rewrite ECS in FC. apply Forall_app in FC as [FA FB]. inversion FB as [ | ? ? FB1 FB2]; subst.
          apply Forall_app. split; [assumption | ]. constructor; assumption. }
        destruct (IHfuel (S i) (S w) hs (upd w (fun _ => ne) cands) (upd (N.to_nat b) (fun _ => c) bins) HN)
          as (c' & b' & E1 & F1 & T1 & P1); try assumption; try (rewrite upd_len; lia); try lia.
        exists c', b'. split; [assumption | ]. split; [assumption | ]. split; [assumption | ].
        eapply Permutation_trans; [exact P1 | ].
        rewrite upd_firstn by lia. rewrite upd_skipn by lia. rewrite HU, HB, SK, map_app. simpl. rewrite EN2'.
        rewrite <- !app_assoc. apply Permutation_app_head. simpl.
        eapply perm_trans; [ | apply perm_swap || apply Permutation_refl ].
        (* c :: bb ++ w ++ ev :: rest  ~  ev :: bb ++ w ++ c :: rest *)
        rewrite !(app_assoc (held bb)).
        eapply Permutation_trans.
        { apply perm_skip. apply Permutation_sym. apply Permutation_middle. }
        eapply Permutation_trans; [apply perm_swap | ].
        apply perm_skip. apply Permutation_middle.
  Qed.

  Lemma rounds_ok : forall tries hs cands bins,
    N.of_nat (length hs) < 2 ^ 56 ->
    Forall (entry (N.of_nat (length hs)) hn) cands -> table_ok hs bins ->
    exists cands' bins', ck_rounds o tries hs cands bins = Ok (cands', bins') /\
      Forall (entry (N.of_nat (length hs)) hn) cands' /\ table_ok hs bins' /\
      Permutation (held bins' ++ map input_idx cands') (held bins ++ map input_idx cands).
  Proof.
    induction tries; intros hs cands bins HN FC T.
    - exists cands, bins. destruct cands; simpl; auto.
    - destruct cands as [ | c cs]; [exists [], bins; simpl; auto | ].
      cbn [ck_rounds].
      destruct (pass_ok (length (c :: cs)) 0 0 hs (c :: cs) bins HN eq_refl (le_n 0) FC T)
        as (c1 & b1 & E1 & F1 & T1 & P1).
      rewrite E1. cbn [bind fst snd].
      destruct (IHtries hs c1 b1 HN F1 T1) as (c2 & b2 & E2 & F2 & T2 & P2).
      exists c2, b2. split; [assumption | ]. split; [assumption | ]. split; [assumption | ].
      eapply Permutation_trans; [exact P2 | exact P1].
  Qed.

  (** The stash. *)
  Definition stash_ok (n : N) (st : list N) : Prop := Forall (fun e => e = k_empty \/ e < n) st.

  Lemma held_small : forall n e, n < 2 ^ 56 -> e < n -> is_empty e = false /\ input_idx e = e.
  Proof.
    intros n e Hn L. split.
    - unfold is_empty, k_empty. apply N.eqb_neq. change (2^56) with 72057594037927936 in Hn. lia.
    - rewrite input_idx_mod. apply N.mod_small. lia.
  Qed.

  Lemma put_to_stash_ok : forall n st i, n < 2 ^ 56 -> i < n -> stash_ok n st ->
    put_to_stash st i = Throw \/
    exists st', put_to_stash st i = Ok st' /\ stash_ok n st' /\ Permutation (held st') (i :: held st) /\ length st' = length st.
  Proof.
    induction st as [ | s st IH]; intros i Hn Li S.
    - left. reflexivity.
    - inversion S as [ | ? ? S1 S2]; subst. cbn [put_to_stash].
      destruct (is_empty s) eqn:ES.
      + right. exists (i :: st). split; [reflexivity | ]. split; [constructor; auto | ]. split; [ | reflexivity].
        destruct (held_small n i Hn Li) as [A B].
        unfold held. cbn [flat_map]. rewrite A, B, ES. apply Permutation_refl.
      + destruct (IH i Hn Li S2) as [E | (st' & E & O & P & L)]; rewrite E; simpl; [left; reflexivity | right].
        exists (s :: st'). split; [reflexivity | ]. split; [constructor; assumption | ]. split; [ | simpl; lia].
        unfold held in *. cbn [flat_map]. rewrite ES. simpl.
        eapply Permutation_trans; [apply perm_skip; exact P | apply perm_swap].
  Qed.

  Lemma put_all_ok : forall n cands st, n < 2 ^ 56 -> Forall (fun c => input_idx c < n) cands -> stash_ok n st ->
    put_all st cands = Throw \/
    exists st', put_all st cands = Ok st' /\ stash_ok n st' /\
      Permutation (held st') (map input_idx cands ++ held st) /\ length st' = length st.
  Proof.
    induction cands as [ | c cs IH]; intros st Hn F S.
    - right. exists st. simpl. auto using Permutation_refl.
    - inversion F as [ | ? ? F1 F2]; subst. cbn [put_all].
      destruct (put_to_stash_ok n st (input_idx c) Hn F1 S) as [E | (s1 & E & O1 & P1 & L1)]; rewrite E; cbn [bind]; [auto | ].
      destruct (IH s1 Hn F2 O1) as [E2 | (s2 & E2 & O2 & P2 & L2)]; [auto | right].
      exists s2. split; [assumption | ]. split; [assumption | ]. split; [ | lia].
      eapply Permutation_trans; [exact P2 | ]. simpl.
      eapply Permutation_trans; [apply Permutation_app_head; exact P1 | ].
      apply Permutation_sym, Permutation_middle.
  Qed.

  (** Invariant of a table holding all inputs inserted so far. *)
  Definition ck_inv (t : cuckoo) : Prop :=
    N.of_nat (length (ck_hashes t)) < 2 ^ 56 /\
    table_ok (ck_hashes t) (ck_bins t) /\
    stash_ok (N.of_nat (length (ck_hashes t))) (ck_stash t) /\
    length (ck_stash t) = ko_stash o /\
    Permutation (held (ck_bins t) ++ held (ck_stash t)) (map N.of_nat (seq 0 (length (ck_hashes t)))).

  Lemma ck_new_inv : exists t, ck_new o = Ok t /\ ck_inv t /\ ck_hashes t = [].
  Proof.
    unfold ck_new. destruct G as (GH & GB & GI).
    replace (u64 (u64 ((ko_hash o + 18446744073709551615) * 2) + 8) <=? 16) with true.
    2: { symmetry. apply N.leb_le. assert (ko_hash o = 1 \/ ko_hash o = 2 \/ ko_hash o = 3 \/ ko_hash o = 4 \/ ko_hash o = 5)
           as [-> | [-> | [-> | [-> | ->]]]] by lia; vm_compute; discriminate. }
    eexists. split; [reflexivity | ]. split; [ | reflexivity].
    repeat split; cbn [ck_hashes ck_bins ck_stash].
    - apply repeat_length.
    - intros p e H. apply nth_error_In in H. apply repeat_spec in H. left. assumption.
    - apply Forall_forall. intros x Hx. apply repeat_spec in Hx. auto.
    - apply repeat_length.
    - rewrite !held_repeat. apply Permutation_refl.
  Qed.

  Lemma placed_mono : forall hs more p e, N.of_nat (length hs) < 2 ^ 56 -> placed hs p e -> placed (hs ++ more) p e.
  Proof.
    intros hs more p e HN [-> | [E B]]; [left; reflexivity | right]. split.
    - eapply entry_mono; [ | exact E]. rewrite app_length. lia.
    - destruct G as (GH & _). destruct (entry_facts _ hn e HN (proj2 GH) E) as (_ & I & _).
      unfold bin_of in *. rewrite nth_error_app1 by lia. exact B.
  Qed.

  Lemma ck_insert_inv : forall t codes, ck_inv t ->
    ck_insert o t codes = Throw \/
    exists t', ck_insert o t codes = Ok t' /\ ck_inv t' /\ ck_hashes t' = ck_hashes t ++ codes.
  Proof.
    intros t codes (HN & T & S & SL & P). unfold ck_insert, enforce.
    destruct (N.of_nat (length (ck_hashes t ++ codes)) <=? ko_input o) eqn:EL; [ | left; reflexivity].
    apply N.leb_le in EL. cbv zeta.
    set (hs := ck_hashes t ++ codes) in *.
    destruct G as (GH & GB & GI).
    assert (HN' : N.of_nat (length hs) < 2 ^ 56) by lia.
    assert (LH : length hs = (length (ck_hashes t) + length codes)%nat) by apply app_length.
    set (cands := map (fun i => u64 (N.of_nat (length (ck_hashes t) + i))) (seq 0 (length codes))).
    assert (CE : cands = map N.of_nat (seq (length (ck_hashes t)) (length codes))).
    { unfold cands. replace (seq (length (ck_hashes t)) (length codes)) with (seq (length (ck_hashes t) + 0) (length codes)) by (rewrite Nat.add_0_r; reflexivity).
      assert (K : forall n b, (n + b <= length codes)%nat ->
        map (fun i => u64 (N.of_nat (length (ck_hashes t) + i))) (seq b n) = map N.of_nat (seq (length (ck_hashes t) + b) n)).
      { induction n; intros b Hb; simpl; [reflexivity | ]. rewrite IHn by lia. f_equal.
        - unfold u64. apply N.mod_small. change (2^56) with 72057594037927936 in *. lia.
        - rewrite Nat.add_succ_r. reflexivity. }
      apply K. lia. }
    assert (FC : Forall (entry (N.of_nat (length hs)) hn) cands).
    { rewrite CE. apply Forall_forall. intros x Hx. apply in_map_iff in Hx as (k & <- & Hk). apply in_seq in Hk.
      exists (N.of_nat k), 0. repeat split; try lia. }
    assert (T' : table_ok hs (ck_bins t)).
    { destruct T as [TL TP]. split; [assumption | ]. intros p e Hp. apply placed_mono; auto. }
    destruct (rounds_ok (ko_try o) hs cands (ck_bins t) HN' FC T') as (c1 & b1 & E1 & F1 & T1 & P1).
    rewrite E1. cbn [bind fst snd].
    destruct (put_all_ok (N.of_nat (length hs)) c1 (ck_stash t) HN') as [E2 | (st & E2 & O2 & P2 & L2)].
    - eapply Forall_impl; [ | exact F1]. intros a Ha. apply (entry_facts _ hn a HN' (proj2 GH) Ha).
    - unfold stash_ok in *. eapply Forall_impl; [ | exact S]. simpl. intros a [-> | L]; [auto | right; lia].
    - rewrite E2. simpl. auto.
    - rewrite E2. cbn [bind]. right. eexists. split; [reflexivity | ]. split; [ | reflexivity].
      repeat split; cbn [ck_hashes ck_bins ck_stash]; auto; try apply T1; try lia.
      eapply Permutation_trans; [apply Permutation_app_head; exact P2 | ].
      rewrite app_assoc.
      eapply Permutation_trans; [apply Permutation_app_tail; exact P1 | ].
      assert (CI : map input_idx cands = cands).
      { rewrite CE at 2. rewrite CE. rewrite map_map. apply map_ext_in. intros a Ha. apply in_seq in Ha.
        apply (held_small (N.of_nat (length hs))); [assumption | lia]. }
      rewrite CI, <- app_assoc.
      eapply Permutation_trans; [apply Permutation_app_head; apply Permutation_app_comm | ].
      rewrite app_assoc.
      eapply Permutation_trans; [apply Permutation_app_tail; exact P | ].
      rewrite CE, LH, seq_app, map_app. apply Permutation_refl.
  Qed.

  Lemma ck_insert_all_inv : forall inserts t, ck_inv t ->
    ck_insert_all o t inserts = Throw \/
    exists t', ck_insert_all o t inserts = Ok t' /\ ck_inv t' /\ ck_hashes t' = ck_hashes t ++ concat inserts.
  Proof.
    induction inserts as [ | c r IH]; intros t I.
    - right. exists t. simpl. rewrite app_nil_r. auto.
    - cbn [ck_insert_all concat]. destruct (ck_insert_inv t c I) as [E | (t1 & E & I1 & H1)]; rewrite E; cbn [bind]; [auto | ].
      destruct (IH t1 I1) as [E2 | (t2 & E2 & I2 & H2)]; [auto | right].
      exists t2. rewrite H2, H1, app_assoc. auto.
  Qed.

  (** From the invariant to places. *)
  Lemma held_pos : forall l i, In i (held l) -> exists p e, nth_error l p = Some e /\ e <> k_empty /\ input_idx e = i.
  Proof.
    induction l as [ | a l IH]; intros i H; [destruct H | ].
    unfold held in H. cbn [flat_map] in H. apply in_app_or in H as [H | H].
    - destruct (is_empty a) eqn:EA; [destruct H | ]. destruct H as [<- | []].
      exists 0%nat, a. repeat split. apply N.eqb_neq. exact EA.
    - destruct (IH i H) as (p & e & A & B & C). exists (S p), e. auto.
  Qed.

  Lemma pos_held : forall l p e, nth_error l p = Some e -> e <> k_empty -> In (input_idx e) (held l).
  Proof.
    intros l p e H NE. unfold held. apply in_flat_map. exists e. split; [eapply nth_error_In; eauto | ].
    replace (is_empty e) with false by (symmetry; apply N.eqb_neq; assumption). left. reflexivity.
  Qed.

  Lemma nodup_held_pos : forall l p q e f, NoDup (held l) -> nth_error l p = Some e -> nth_error l q = Some f ->
    e <> k_empty -> f <> k_empty -> input_idx e = input_idx f -> p = q.
  Proof.
    induction l as [ | a l IH]; intros p q e f ND Hp Hq NE NF EQ; [destruct p; discriminate | ].
    unfold held in ND. cbn [flat_map] in ND. fold (held l) in ND.
    destruct p as [ | p], q as [ | q]; simpl in Hp, Hq; [reflexivity | | | ].
    - injection Hp as ->. replace (is_empty e) with false in ND by (symmetry; apply N.eqb_neq; assumption).
      inversion ND as [ | ? ? N1 N2]; subst. destruct N1. rewrite EQ. eapply pos_held; eauto.
    - injection Hq as ->. replace (is_empty f) with false in ND by (symmetry; apply N.eqb_neq; assumption).
      inversion ND as [ | ? ? N1 N2]; subst. destruct N1. rewrite <- EQ. eapply pos_held; eauto.
    - f_equal. apply (IH p q e f); auto.
      destruct (is_empty a); [exact ND | ]. inversion ND; assumption.
  Qed.

  Lemma bin_of_nr : forall hs i h b, h < 5 -> bin_of o hs i h = Ok b ->
    exists code, nth_error hs (N.to_nat i) = Some code /\ b = hash_nr code h mod ko_bins o.
  Proof.
    intros hs i h b Hh H. unfold bin_of in H.
    destruct (nth_error hs (N.to_nat i)) as [code | ]; [ | discriminate].
    unfold get_hash in H. replace (h * 2 + 8 <=? 16) with true in H by (symmetry; apply N.leb_le; lia).
    simpl in H. destruct (ko_bins o =? 0); [discriminate | ]. injection H as <-.
    exists code. split; [reflexivity | ]. unfold hash_nr. rewrite N.shiftr_div_pow2. reflexivity.
  Qed.

  Lemma k_empty_eq : k_empty = 2 ^ 64 - 1.
  Proof. reflexivity. Qed.

  Lemma inv_places : forall t, ck_inv t ->
    (forall i, i < N.of_nat (length (ck_hashes t)) ->
       exists pl, stored t i pl /\ forall pl', stored t i pl' -> pl' = pl) /\
    (forall i pl, stored t i pl -> i < N.of_nat (length (ck_hashes t))) /\
    (forall i p h, stored t i (InBin p h) -> h < ko_hash o /\
       exists code, nth_error (ck_hashes t) (N.to_nat i) = Some code /\ N.of_nat p = hash_nr code h mod ko_bins o).
  Proof.
    intros t (HN & (TL & TP) & S & SL & P).
    assert (ND : NoDup (held (ck_bins t) ++ held (ck_stash t))).
    { eapply Permutation_NoDup; [apply Permutation_sym; exact P | ].
      apply FinFun.Injective_map_NoDup; [intros a b E; lia | apply seq_NoDup]. }
    assert (IDX : forall i, In i (held (ck_bins t) ++ held (ck_stash t)) <-> i < N.of_nat (length (ck_hashes t))).
    { intros i. split; intro H.
      - eapply Permutation_in in H; [ | exact P]. apply in_map_iff in H as (k & <- & Hk). apply in_seq in Hk. lia.
      - eapply Permutation_in; [apply Permutation_sym; exact P | ]. apply in_map_iff. exists (N.to_nat i).
        split; [lia | ]. apply in_seq. lia. }
    assert (UNIQ : forall i pl pl', stored t i pl -> stored t i pl' -> pl' = pl).
    { assert (NB : NoDup (held (ck_bins t)) /\ NoDup (held (ck_stash t)) /\
                   forall x, In x (held (ck_bins t)) -> ~ In x (held (ck_stash t))).
      { clear -ND. induction (held (ck_bins t)) as [ | a l IH]; simpl in *.
        - repeat split; auto using NoDup_nil.
        - inversion ND as [ | ? ? N1 N2]; subst. destruct (IH N2) as (A & B & C).
          repeat split; auto.
          + constructor; auto. intro H. apply N1. apply in_or_app. auto.
          + intros x [<- | H] Hs; [apply N1; apply in_or_app; auto | eapply C; eauto]. }
      destruct NB as (N1 & N2 & N3).
      assert (X : forall i p h, stored t i (InBin p h) -> In i (held (ck_bins t))).
      { intros i p h (e & A & B & C & D). rewrite <- C, <- input_idx_mod. eapply pos_held; eauto. }
      assert (Y : forall i p, stored t i (InStash p) -> In i (held (ck_stash t))).
      { intros i p (e & A & B & C). rewrite <- C, <- input_idx_mod. eapply pos_held; eauto. }
      intros i [p h | p] [q g | q] H1 H2.
      - destruct H1 as (e & A & B & C & D), H2 as (f & A' & B' & C' & D').
        assert (p = q).
        { eapply (nodup_held_pos (ck_bins t) p q e f); eauto. rewrite !input_idx_mod. congruence. }
        subst q. rewrite A in A'. injection A' as <-. congruence.
      - destruct (N3 i); [eapply X; eauto | eapply Y; eauto].
      - destruct (N3 i); [eapply X; eauto | eapply Y; eauto].
      - destruct H1 as (e & A & B & C), H2 as (f & A' & B' & C').
        f_equal. symmetry. eapply (nodup_held_pos (ck_stash t) p q e f); eauto. rewrite !input_idx_mod. congruence. }
    split; [ | split].
    - intros i Hi. apply IDX in Hi. apply in_app_or in Hi as [Hi | Hi].
      + apply held_pos in Hi as (p & e & A & B & C).
        assert (stored t i (InBin p (e / 2 ^ 56))).
        { exists e. repeat split; auto. rewrite <- C. symmetry. apply input_idx_mod. }
        eexists. split; [eassumption | ]. intros. eapply UNIQ; eauto.
      + apply held_pos in Hi as (p & e & A & B & C).
        assert (stored t i (InStash p)).
        { exists e. repeat split; auto. rewrite <- C. symmetry. apply input_idx_mod. }
        eexists. split; [eassumption | ]. intros. eapply UNIQ; eauto.
    - intros i pl H. apply IDX. apply in_or_app. destruct pl as [p h | p].
      + left. destruct H as (e & A & B & C & D). rewrite <- C, <- input_idx_mod. eapply pos_held; eauto.
      + right. destruct H as (e & A & B & C). rewrite <- C, <- input_idx_mod. eapply pos_held; eauto.
    - intros i p h (e & A & B & C & D). destruct (TP p e A) as [K | [E BO]]; [destruct (B K) | ].
      destruct G as (GH & _). destruct (entry_facts _ hn e HN (proj2 GH) E) as (_ & I & H & _).
      rewrite hash_idx_div, D in H. split; [exact H | ].
      rewrite input_idx_mod, hash_idx_div, C, D in BO.
      apply bin_of_nr in BO; [exact BO | unfold hn in H; lia].
  Qed.

  (** MinCollidingHashIdx. *)
  Lemma min_loop_spec : forall fuel i hs input bin code, nth_error hs (N.to_nat input) = Some code ->
    i + N.of_nat fuel <= 5 ->
    (exists h, i <= h < i + N.of_nat fuel /\ hash_nr code h mod ko_bins o = bin) ->
    exists m, min_colliding_loop o fuel i hs input bin = Ok m /\ i <= m < i + N.of_nat fuel /\
      hash_nr code m mod ko_bins o = bin /\ forall h, i <= h < m -> hash_nr code h mod ko_bins o <> bin.
  Proof.
    induction fuel; intros i hs input bin code EC L (h & Hh & EH); [lia | ].
    cbn [min_colliding_loop].
    assert (I : input < N.of_nat (length hs)).
    { assert (N.to_nat input < length hs)%nat by (apply nth_error_Some; congruence). lia. }
    destruct (bin_of_ok hs input i I ltac:(lia)) as (b & Eb & Lb). rewrite Eb. cbn [bind].
    assert (BV : b = hash_nr code i mod ko_bins o).
    { apply bin_of_nr in Eb; [ | lia]. destruct Eb as (c' & Ec' & ->). congruence. }
    destruct (b =? bin) eqn:EB.
    - apply N.eqb_eq in EB. exists i. split; [reflexivity | ]. split; [lia | ]. split; [congruence | ].
      intros; lia.
    - apply N.eqb_neq in EB.
      destruct (IHfuel (i + 1) hs input bin code EC ltac:(lia)) as (m & E & Lm & HM & Least).
      { exists h. split; [ | assumption]. assert (h <> i) by (intro; subst h; congruence). lia. }
      exists m. split; [exact E | ]. split; [lia | ]. split; [assumption | ].
      intros k Hk. destruct (N.eq_dec k i) as [-> | NK]; [congruence | ]. apply Least. lia.
  Qed.

  Lemma min_colliding_spec : forall t p h i, ck_inv t -> stored t i (InBin p h) ->
    exists m code, min_colliding o t (N.of_nat p) = Ok m /\ nth_error (ck_hashes t) (N.to_nat i) = Some code /\
      m <= h /\ hash_nr code m mod ko_bins o = N.of_nat p /\
      forall k, k < m -> hash_nr code k mod ko_bins o <> N.of_nat p.
  Proof.
    intros t p h i I ST. destruct (inv_places t I) as (_ & _ & X).
    destruct (X i p h ST) as (Hh & code & EC & EP).
    destruct ST as (e & A & B & C & D).
    unfold min_colliding. rewrite Nat2N.id, A. rewrite input_idx_mod, C.
    destruct G as (GH & _).
    destruct (min_loop_spec (N.to_nat (ko_hash o)) 0 (ck_hashes t) i (N.of_nat p) code EC ltac:(lia))
      as (m & E & Lm & HM & Least).
    { exists h. split; [lia | congruence]. }
    exists m, code. split; [assumption | ]. split; [assumption | ].
    split; [ | split; [assumption | intros k Hk; apply Least; lia]].
    destruct (N.le_gt_cases m h) as [Q | Q]; [assumption | ].
    exfalso. apply (Least h); [lia | congruence].
  Qed.
End Opts.

(** SanityCheck. *)
Inductive ssorted : list N -> Prop :=
| ss_nil : ssorted []
| ss_cons : forall x l, (forall y, In y l -> x < y) -> ssorted l -> ssorted (x :: l).

Lemma set_insert_ok : forall s x, ssorted s -> ~ In x s ->
  exists s', set_insert s x = Ok s' /\ ssorted s' /\ Permutation s' (x :: s).
Proof.
  induction s as [ | y r IH]; intros x SS NI.
  - exists [x]. split; [reflexivity | ]. split; [constructor; [intros ? [] | constructor] | auto].
  - cbn [set_insert]. inversion SS as [ | ? ? S1 S2]; subst.
    destruct (x <? y) eqn:EL.
    + apply N.ltb_lt in EL. exists (x :: y :: r). split; [reflexivity | ]. split; [ | auto].
      constructor; [ | assumption]. intros z [<- | Hz]; [assumption | ]. specialize (S1 z Hz). lia.
    + destruct (x =? y) eqn:EE; [apply N.eqb_eq in EE; subst; destruct NI; left; reflexivity | ].
      apply N.ltb_ge in EL. apply N.eqb_neq in EE.
      destruct (IH x S2) as (s' & E & SS' & P); [intro H; apply NI; right; assumption | ].
      exists (y :: s'). rewrite E. split; [reflexivity | ]. split.
      * constructor; [ | assumption]. intros z Hz. eapply Permutation_in in Hz; [ | exact P].
        destruct Hz as [<- | Hz]; [lia | auto].
      * eapply Permutation_trans; [apply perm_skip; exact P | apply perm_swap].
Qed.

Lemma collect_ok : forall l s, ssorted s -> NoDup (s ++ held l) ->
  exists s', collect s l = Ok s' /\ ssorted s' /\ Permutation s' (s ++ held l).
Proof.
  induction l as [ | e l IH]; intros s SS ND.
  - exists s. unfold held. simpl. rewrite app_nil_r. auto.
  - cbn [collect]. unfold held in ND |- *. cbn [flat_map] in ND |- *. fold (held l) in *.
    destruct (is_empty e) eqn:EE.
    + simpl in *. apply IH; assumption.
    + simpl in ND |- *.
      assert (NI : ~ In (input_idx e) (s ++ held l)) by (apply NoDup_remove_2; assumption).
      assert (ND' : NoDup (s ++ held l)) by (apply NoDup_remove_1 in ND; assumption).
      destruct (set_insert_ok s (input_idx e) SS) as (s1 & E & SS1 & P1).
      { intro H. apply NI. apply in_or_app. auto. }
      rewrite E. cbn [bind].
      destruct (IH s1 SS1) as (s2 & E2 & SS2 & P2).
      { eapply Permutation_NoDup; [ | exact ND].
        eapply Permutation_trans; [apply Permutation_sym, Permutation_middle | ].
        change (Permutation ((input_idx e :: s) ++ held l) (s1 ++ held l)).
        apply Permutation_app_tail, Permutation_sym. assumption. }
      exists s2. split; [assumption | ]. split; [assumption | ].
      eapply Permutation_trans; [exact P2 | ].
      eapply Permutation_trans; [apply Permutation_app_tail; exact P1 | ]. simpl. apply Permutation_middle.
Qed.

Lemma ssorted_seq : forall n b, ssorted (map N.of_nat (seq b n)).
Proof.
  induction n; intros b; simpl; constructor; auto.
  intros y Hy. apply in_map_iff in Hy as (k & <- & Hk). apply in_seq in Hk. lia.
Qed.

Lemma ssorted_perm : forall a b, ssorted a -> ssorted b -> Permutation a b -> a = b.
Proof.
  induction a as [ | x a IH]; intros b SA SB P.
  - apply Permutation_nil in P. congruence.
  - destruct b as [ | y b]; [apply Permutation_sym, Permutation_nil in P; discriminate | ].
    inversion SA as [ | ? ? A1 A2]; inversion SB as [ | ? ? B1 B2]; subst.
    assert (x = y).
    { assert (H1 : In x (y :: b)) by (eapply Permutation_in; [exact P | left; reflexivity]).
      assert (H2 : In y (x :: a)) by (eapply Permutation_in; [apply Permutation_sym; exact P | left; reflexivity]).
      destruct H1 as [<- | H1]; [reflexivity | ]. destruct H2 as [-> | H2]; [reflexivity | ].
      specialize (A1 y H2). specialize (B1 x H1). lia. }
    subst y. f_equal. apply IH; auto. eapply Permutation_cons_inv; eauto.
Qed.

Lemma check_seq_ok : forall n b, check_seq (N.of_nat b) (map N.of_nat (seq b n)) = Ok tt.
Proof.
  induction n; intros b; simpl; [reflexivity | ]. unfold enforce. rewrite N.eqb_refl.
  replace (N.of_nat b + 1) with (N.of_nat (S b)) by lia. apply IHn.
Qed.

Lemma sanity_ok : forall o t, ck_inv o t ->
  sanity_check o t = if N.of_nat (length (ck_hashes t)) =? ko_input o then Ok tt else Throw.
Proof.
  intros o t (HN & T & S & SL & P). unfold sanity_check.
  assert (ND : NoDup (held (ck_bins t) ++ held (ck_stash t))).
  { eapply Permutation_NoDup; [apply Permutation_sym; exact P | ].
    apply FinFun.Injective_map_NoDup; [intros a b E; lia | apply seq_NoDup]. }
  assert (ND1 : NoDup (held (ck_bins t))).
  { clear -ND. induction (held (ck_bins t)); [constructor | ]. inversion ND as [ | ? ? N1 N2]; subst.
    constructor; [intro H; apply N1, in_or_app; auto | auto]. }
  destruct (collect_ok (ck_bins t) [] ss_nil ND1) as (s1 & E1 & SS1 & P1). rewrite E1. cbn [bind]. simpl in P1.
  destruct (collect_ok (ck_stash t) s1 SS1) as (s2 & E2 & SS2 & P2).
  { eapply Permutation_NoDup; [ | exact ND]. apply Permutation_app_tail, Permutation_sym. assumption. }
  rewrite E2. cbn [bind]. unfold enforce.
  assert (E : s2 = map N.of_nat (seq 0 (length (ck_hashes t)))).
  { apply ssorted_perm; auto using ssorted_seq. eapply Permutation_trans; [exact P2 | ].
    eapply Permutation_trans; [apply Permutation_app_tail; exact P1 | exact P]. }
  subst s2. rewrite map_length, seq_length.
  destruct (N.of_nat (length (ck_hashes t)) =? ko_input o); [ | reflexivity].
  apply (check_seq_ok _ 0).
Qed.
