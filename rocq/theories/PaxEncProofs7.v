(** Lemmas about the Paxos encoder: the binary dense part, and the whole of Encode. *)
From Coq Require Import List Arith NArith Bool Lia Permutation.
From Verif Require Import Base BaseProofs StoreModel GfModel GfSpec GfProofs GfProofs2 OkvsModel OkvsSpec OkvsProofs OkvsProofs2 OkvsProofs4
  PaxEncModel PaxEncProofs PaxEncProofs2 PaxEncProofs3 PaxEncProofs4 PaxEncProofs5 PaxEncProofs6.
Import ListNotations.
Local Open Scope nat_scope.

Definition bitval (b : bool) (x : N) : N := if b then x else 0%N.
Lemma bitval_lt : forall m b x, (x < 2 ^ m)%N -> (bitval b x < 2 ^ m)%N.
Proof. intros m [|] x H; [assumption|]. apply pow_pos. Qed.
Lemma xsum_perm : forall (A : Type) (f : A -> N) l l', Permutation l l' -> xsum f l = xsum f l'.
Proof.
  intros A f l l' P. induction P; [reflexivity| | |congruence].
  - rewrite !xsum_cons, IHP. reflexivity.
  - rewrite !xsum_cons. apply lxor_swap.
Qed.
Lemma xsum_filter : forall (A : Type) (f : A -> N) (g : A -> bool) l, (forall x, In x l -> g x = false -> f x = 0%N) ->
  xsum f l = xsum f (filter g l).
Proof.
  intros A f g l. induction l as [|x l IH]; intros H; [reflexivity|]. cbn [filter]. rewrite xsum_cons, IH by (intros; apply H; [right|]; assumption).
  destruct (g x) eqn:E; [reflexivity|]. rewrite H by (auto; left; reflexivity). apply N.lxor_0_l.
Qed.
Lemma xsum_subset : forall (f : nat -> N) n cols, NoDup cols -> (forall c, In c cols -> c < n) ->
  (forall i, i < n -> ~ In i cols -> f i = 0%N) -> xsum f (seq 0 n) = xsum f cols.
Proof.
  intros f n cols N B Z. rewrite (xsum_filter _ f (fun i => existsb (Nat.eqb i) cols)).
  - apply xsum_perm. apply NoDup_Permutation; [apply NoDup_filter, seq_NoDup|assumption|].
    intros x. rewrite filter_In, existsb_in, in_seq. split; [tauto|]. intros I. split; [apply B in I; lia|assumption].
  - intros x I E. apply in_seq in I. apply Z; [lia|]. intros X. apply existsb_in in X. congruence.
Qed.
Lemma xsum_swap : forall (A B : Type) (f : A -> B -> N) la lb, xsum (fun a => xsum (f a) lb) la = xsum (fun b => xsum (fun a => f a b) la) lb.
Proof.
  intros A B f la lb. induction la as [|a la IH].
  - cbn. symmetry. apply xsum_zero. reflexivity.
  - rewrite xsum_cons, IH, <- xsum_add. apply xsum_ext. intros b _. reflexivity.
Qed.
Lemma xsum_bit : forall (A : Type) (f : A -> N) l i x, xsum (fun a => bitval (N.testbit (f a) i) x) l = bitval (N.testbit (xsum f l) i) x.
Proof.
  intros A f l i x. induction l as [|a l IH]; [unfold xsum; cbn [fold_right]; rewrite N.bits_0; reflexivity|]. rewrite !xsum_cons, IH, N.lxor_spec.
  destruct (N.testbit (f a) i), (N.testbit (xsum f l) i); cbn; rewrite ?N.lxor_nilpotent, ?N.lxor_0_r, ?N.lxor_0_l; reflexivity.
Qed.

(** The dense part of a key over bits. *)
Lemma dn_bits : forall q p h, ok_dt q = DBinary -> (forall i, (at0 p i < 2 ^ 128)%N) ->
  dn q p h = xsum (fun i => bitval (N.testbit h (N.of_nat i)) (at0 p (N.to_nat (ok_sparse q) + i))) (seq 0 (ok_dense q)).
Proof.
  intros q p h Hdt Hp. unfold dn, coefs, bits01. rewrite Hdt. generalize (N.to_nat (ok_sparse q)). intros s.
  assert (G : forall k b, dsum (gf_mul true) p (s + b) (map (fun i => if N.testbit h (N.of_nat i) then 1%N else 0%N) (seq b k)) =
    xsum (fun i => bitval (N.testbit h (N.of_nat i)) (at0 p (s + i))) (seq b k)).
  { intros k. induction k as [|k IH]; intros b; [reflexivity|]. cbn [seq map dsum]. rewrite xsum_cons. f_equal.
    - rewrite gmul_bit by apply Hp. reflexivity.
    - rewrite <- IH. f_equal. lia. }
  specialize (G (ok_dense q) 0). rewrite Nat.add_0_r in G. exact G.
Qed.
Lemma bin_dense_facts : forall s p d cols y z, Forall (fun c => c < 64) cols -> bin_dense_sum s p d cols y = Ok z ->
  z = N.lxor y (xsum (fun c => bitval (N.testbit d (N.of_nat c)) (at0 p (s + c))) cols).
Proof.
  intros s p d cols. unfold bin_dense_sum. induction cols as [|c cols IH]; intros y z F H; cbn [ofold] in H.
  - injection H as <-. cbn. rewrite N.lxor_0_r. reflexivity.
  - pose proof (Forall_inv F) as F1. cbn beta in F1. apply bind_ok in H. destruct H as (y1 & E & H). apply IH in H; [|apply (Forall_inv_tail F)]. rewrite H, xsum_cons.
    rewrite N.mod_pow2_bits_low in E by lia. destruct (N.testbit d (N.of_nat c)); cbn [bitval].
    + apply bind_ok in E. destruct E as (v & E & E'). injection E' as <-. apply (vget_ok _ 0%N) in E. destruct E as [_ <-]. apply N.lxor_assoc.
    + injection E as <-. rewrite N.lxor_0_l. reflexivity.
Qed.
Lemma comb_outer_len : forall k index cur c n acc l, comb_outer k index cur c n acc = Ok l -> length l = k + length acc.
Proof.
  intros k. induction k as [|k IH]; intros index cur c n acc l H; cbn [comb_outer] in H.
  - injection H as <-. reflexivity.
  - destruct (n =? 0)%N; [discriminate|]. apply bind_ok in H. destruct H as ([[cur' c'] n'] & _ & H). apply IH in H. cbn [length] in H. lia.
Qed.
Lemma gap_search_facts : forall fuel ci e dsz ds cols, gap_search fuel ci e dsz ds = Ok cols -> length cols = length ds.
Proof.
  intros fuel. induction fuel as [|f IH]; intros ci e dsz ds cols H; [discriminate|]. cbn [gap_search] in H.
  apply bind_ok in H. destruct H as (cs & E & H). apply enf_ok in H. destruct H as [_ H]. destruct (bm_invert _ _).
  - injection H as <-. unfold ith_combination in E. apply comb_outer_len in E. cbn in E. lia.
  - apply IH in H. assumption.
Qed.
Lemma gap_cols_len : forall dsz ds cols, gap_cols dsz ds = Ok cols -> length cols = length ds.
Proof. intros dsz [|d ds] cols H; [injection H as <-; reflexivity|]. apply gap_search_facts in H. assumption. Qed.

Lemma eprime_len : forall cols ds, length (e_prime cols ds) = length ds.
Proof. intros. apply map_length. Qed.
Lemma eprime_nth : forall cols ds k, k < length ds -> nth k (e_prime cols ds) [] = map (fun c => N.testbit (at0 ds k) (N.of_nat c)) cols.
Proof.
  intros cols ds k H. unfold e_prime, at0.
  rewrite (nth_indep _ [] (map (fun c => N.testbit 0 (N.of_nat c)) cols)) by (rewrite map_length; assumption).
  rewrite (map_nth (fun d => map (fun c => N.testbit d (N.of_nat c)) cols)). reflexivity.
Qed.
Lemma eprime_dot : forall cols ds k v, k < length ds ->
  dot (nth k (e_prime cols ds) []) v = xsum (fun i => bitval (N.testbit (at0 ds k) (N.of_nat (nth i cols 0))) (v i)) (seq 0 (length cols)).
Proof.
  intros cols ds k v H. rewrite eprime_nth, dot_xsum, map_length by assumption. apply xsum_ext. intros i I. apply in_seq in I.
  rewrite (nth_indep _ false (N.testbit (at0 ds k) (N.of_nat 0))) by (rewrite map_length; lia).
  rewrite (map_nth (fun c => N.testbit (at0 ds k) (N.of_nat c))). reflexivity.
Qed.
Lemma eprime_square : forall cols ds, length cols = length ds -> square (length ds) (e_prime cols ds).
Proof.
  intros cols ds L. split; [apply eprime_len|]. intros i Hi. rewrite eprime_nth, map_length by assumption. assumption.
Qed.
(** An invertible choice of columns has no repetition. *)
Lemma invert_nodup : forall cols ds inv, length cols = length ds -> bm_invert (length ds) (e_prime cols ds) = Some inv -> NoDup cols.
Proof.
  intros cols ds iv L H. destruct (invert_facts (length ds) _ _ (eprime_square cols ds L) H) as (_ & Q).
  apply (NoDup_nth cols 0). intros a b Ha Hb E. destruct (Nat.eq_dec a b) as [->|D]; [reflexivity|exfalso].
  pose (v := fun i => if (i =? a) || (i =? b) then 1%N else 0%N).
  assert (V : forall k, k < length ds -> dot (nth k (e_prime cols ds) []) v = 0%N).
  { intros k Hk. rewrite eprime_dot by assumption. set (bt := fun i => N.testbit (at0 ds k) (N.of_nat (nth i cols 0))).
    rewrite (xsum_ext _ _ (fun i => N.lxor (if i =? a then bitval (bt i) 1 else 0%N) (if i =? b then bitval (bt i) 1 else 0%N))).
    - rewrite xsum_add, !xsum_pick by (try apply seq_NoDup; apply in_seq; lia).
      replace (bt b) with (bt a) by (unfold bt; rewrite E; reflexivity). apply N.lxor_nilpotent.
    - intros i _. unfold v. fold (bt i). destruct (Nat.eqb_spec i a), (Nat.eqb_spec i b); try congruence; cbn [orb]; destruct (bt i); reflexivity. }
  pose proof (proj1 (Q v (fun _ => 0%N)) V a ltac:(lia)) as X. unfold v in X. rewrite Nat.eqb_refl in X. cbn [orb] in X.
  rewrite dot_xsum, xsum_zero in X; [discriminate|]. intros i _. destruct (nth i _ false); reflexivity.
Qed.
Lemma solve_row : forall row xx b y, length row = length xx ->
  ofold (fun jx y => Ok (if nth (fst jx - b) row false then N.lxor y (snd jx) else y)) (number b xx) y = Ok (N.lxor y (dot row (fun j => at0 xx j))).
Proof.
  intros row. induction row as [|r row IH]; intros [|x xx] b y L; try discriminate.
  - cbn. rewrite N.lxor_0_r. reflexivity.
  - cbn [number ofold fst snd]. rewrite Nat.sub_diag. cbn [nth bind dot]. cbn in L.
    assert (G : forall l y0, (forall jx, In jx l -> b < fst jx) ->
      ofold (fun (jx : nat * N) y => Ok (if match fst jx - b with 0 => r | S m => nth m row false end then N.lxor y (snd jx) else y)) l y0 =
      ofold (fun (jx : nat * N) y => Ok (if nth (fst jx - S b) row false then N.lxor y (snd jx) else y)) l y0).
    { intros l. induction l as [|jx l IHl]; intros y0 Hl; [reflexivity|]. cbn [ofold bind].
      pose proof (Hl jx (or_introl eq_refl)). replace (fst jx - b) with (S (fst jx - S b)) by lia. apply IHl. intros; apply Hl; right; assumption. }
    rewrite G.
    + rewrite IH by lia. f_equal. change (at0 (x :: xx) 0) with x. destruct r; [rewrite N.lxor_assoc; reflexivity|rewrite N.lxor_0_l; reflexivity].
    + intros [j x'] I. apply number_in in I. cbn [fst]. lia.
Qed.
Lemma bin_solve_facts : forall s cols iv xx p p', square (length cols) iv -> length xx = length cols -> NoDup cols ->
  bin_solve s cols iv xx p = Ok p' ->
  length p' = length p /\ (forall c, In c cols -> s + c < length p) /\
  (forall i, i < length cols -> at0 p' (s + nth i cols 0) = N.lxor (at0 p (s + nth i cols 0)) (dot (nth i iv []) (fun j => at0 xx j))) /\
  (forall j, (forall c, In c cols -> j <> s + c) -> at0 p' j = at0 p j).
Proof.
  intros s cols iv xx p p' [_ SQ] Lx ND H. unfold bin_solve in H.
  assert (G : forall l b p p', NoDup l -> (forall i, i < length l -> length (nth (b + i) iv []) = length xx) ->
    ofold (fun ic p => do y <- vget p (s + snd ic);
      do y <- ofold (fun jx y => Ok (if bit_at iv (fst ic) (fst jx) then N.lxor y (snd jx) else y)) (number 0 xx) y;
      vset p (s + snd ic) y) (number b l) p = Ok p' ->
    length p' = length p /\ (forall c, In c l -> s + c < length p) /\
    (forall i, i < length l -> at0 p' (s + nth i l 0) = N.lxor (at0 p (s + nth i l 0)) (dot (nth (b + i) iv []) (fun j => at0 xx j))) /\
    (forall j, (forall c, In c l -> j <> s + c) -> at0 p' j = at0 p j)).
  { clear. intros l. induction l as [|c l IH]; intros b p p' N SQ H; cbn [number ofold fst snd] in H.
    - injection H as <-. split; [reflexivity|]. split; [intros c []|]. split; [cbn; lia|auto].
    - apply bind_ok in H. destruct H as (p1 & E & H). apply bind_ok in E. destruct E as (y & E1 & E). apply (vget_ok _ 0%N) in E1. destruct E1 as [L1 E1].
      apply bind_ok in E. destruct E as (y' & E2 & E). apply vset_ok in E. destruct E as [_ ->].
      assert (E3 : y' = N.lxor y (dot (nth b iv []) (fun j => at0 xx j))).
      { assert (S0 : ofold (fun jx y => Ok (if bit_at iv b (fst jx) then N.lxor y (snd jx) else y)) (number 0 xx) y = Ok (N.lxor y (dot (nth b iv []) (fun j => at0 xx j)))).
        { rewrite <- (solve_row (nth b iv []) xx 0) by (specialize (SQ 0 ltac:(cbn; lia)); rewrite Nat.add_0_r in SQ; assumption).
          generalize (number 0 xx) y. clear. intros l. induction l as [|jx l IH]; intros y; [reflexivity|]. cbn [ofold bind]. rewrite Nat.sub_0_r. apply IH. }
        rewrite S0 in E2. congruence. }
      apply NoDup_cons_iff in N. destruct N as [H3 H4]. subst y' y. 
      assert (SQ' : forall i, i < length l -> length (nth (S b + i) iv []) = length xx).
      { intros i Hi. specialize (SQ (S i) ltac:(cbn; lia)). replace (b + S i) with (S b + i) in SQ by lia. assumption. }
      destruct (IH (S b) _ _ H4 SQ' H) as (A1 & A2 & A3 & A4).
      rewrite upd_len in A1, A2. split; [assumption|]. split; [intros c' [<-|I]; [assumption|auto]|]. split.
      + intros [|i] Hi.
        * cbn [nth]. rewrite A4, at0_upd, Nat.eqb_refl, Nat.add_0_r; [reflexivity|assumption|]. intros c' I X. replace c' with c in I by lia. contradiction.
        * cbn in Hi. cbn [nth]. rewrite A3 by lia. rewrite at0_upd by assumption.
          destruct (Nat.eqb_spec (s + nth i l 0) (s + c)) as [X|X].
          -- exfalso. apply H3. replace c with (nth i l 0) by lia. apply nth_In. lia.
          -- do 2 f_equal. f_equal. lia.
      + intros j Hj. rewrite A4 by (intros; apply Hj; right; assumption). rewrite at0_upd by assumption.
        destruct (Nat.eqb_spec j (s + c)) as [X|X]; [|reflexivity]. exfalso. apply (Hj c); [left; reflexivity|assumption]. }
  destruct (G cols 0 p p' ND) as (A1 & A2 & A3 & A4); [|exact H|auto].
  intros i Hi. cbn [plus]. rewrite SQ, Lx by assumption. reflexivity.
Qed.
