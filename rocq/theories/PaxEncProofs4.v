(** Lemmas about the Paxos encoder: inverting a matrix of bits. *)
From Coq Require Import List Arith NArith Bool Lia.
From Verif Require Import Base BaseProofs StoreModel OkvsModel PaxEncModel PaxEncProofs PaxEncProofs2 PaxEncProofs3.
Import ListNotations.
Local Open Scope nat_scope.

(** A row of bits times a vector. *)
Fixpoint dot (row : list bool) (v : nat -> N) : N :=
  match row with [] => 0%N | b :: r => N.lxor (if b then v 0 else 0%N) (dot r (fun i => v (S i))) end.
Lemma dot_xsum : forall row v, dot row v = xsum (fun i => if nth i row false then v i else 0%N) (seq 0 (length row)).
Proof.
  intros row. induction row as [|b r IH]; intros v; [reflexivity|]. cbn [dot length seq]. rewrite xsum_cons. cbn [nth]. f_equal.
  rewrite IH, <- seq_shift, xsum_map. reflexivity.
Qed.
Lemma zip_len : forall (A B C : Type) (f : A -> B -> C) a b, length (zip_with f a b) = Nat.min (length a) (length b).
Proof. intros. unfold zip_with. rewrite map_length, combine_length. reflexivity. Qed.
Lemma dot_zip : forall a b v, length a = length b -> dot (zip_with xorb a b) v = N.lxor (dot a v) (dot b v).
Proof.
  intros a. induction a as [|x a IH]; intros [|y b] v L; try discriminate; [reflexivity|]. cbn in L.
  change (zip_with xorb (x :: a) (y :: b)) with (xorb x y :: zip_with xorb a b). cbn [dot]. rewrite IH by lia.
  rewrite <- lxor_4. f_equal. destruct x, y; cbn [xorb]; rewrite ?N.lxor_nilpotent, ?N.lxor_0_l, ?N.lxor_0_r; reflexivity.
Qed.
Lemma zip_nth : forall a b i, length a = length b -> nth i (zip_with xorb a b) false = xorb (nth i a false) (nth i b false).
Proof.
  intros a. induction a as [|x a IH]; intros [|y b] i L; try discriminate; [destruct i; reflexivity|]. cbn in L.
  change (zip_with xorb (x :: a) (y :: b)) with (xorb x y :: zip_with xorb a b). destruct i as [|i]; [reflexivity|]. cbn [nth]. apply IH. lia.
Qed.
Lemma xsum_pick : forall (f : nat -> N) i l, NoDup l -> In i l -> xsum (fun k => if k =? i then f k else 0%N) l = f i.
Proof.
  intros f i l. induction l as [|x l IH]; intros N I; [destruct I|]. inversion N; subst. rewrite xsum_cons.
  destruct I as [->|I].
  - rewrite Nat.eqb_refl, xsum_zero; [apply N.lxor_0_r|]. intros y Hy. destruct (Nat.eqb_spec y i); [subst; contradiction|reflexivity].
  - destruct (Nat.eqb_spec x i); [subst; contradiction|]. rewrite IH by assumption. apply N.lxor_0_l.
Qed.

Section BM.
Variable n : nat.
Definition square (m : list (list bool)) : Prop := length m = n /\ forall i, i < n -> length (nth i m []) = n.
(** The system A v = B x. *)
Definition sys (A B : list (list bool)) (v x : nat -> N) : Prop :=
  forall i, i < n -> dot (nth i A []) v = dot (nth i B []) x.

Lemma swap_get : forall i j m k, i < length m -> j < length m ->
  nth k (bm_swap i j m) [] = if k =? j then nth i m [] else if k =? i then nth j m [] else nth k m [].
Proof using.
  intros i j m k Hi Hj. unfold bm_swap. rewrite upd_get by (rewrite upd_len; assumption).
  destruct (k =? j); [reflexivity|]. rewrite upd_get by assumption. reflexivity.
Qed.
Lemma swap_square : forall i j m, i < n -> j < n -> square m -> square (bm_swap i j m).
Proof using.
  intros i j m Hi Hj [L R]. split; [unfold bm_swap; rewrite !upd_len; assumption|]. intros k Hk.
  rewrite swap_get by (rewrite L; assumption). destruct (k =? j); [auto|]. destruct (k =? i); auto.
Qed.
Lemma swap_sys : forall i j A B v x, i < n -> j < n -> square A -> square B ->
  (sys (bm_swap i j A) (bm_swap i j B) v x <-> sys A B v x).
Proof using.
  intros i j A B v x Hi Hj [LA _] [LB _]. split; intros H k Hk.
  - destruct (Nat.eq_dec k i) as [->|Di]; [|destruct (Nat.eq_dec k j) as [->|Dj]].
    + specialize (H j Hj). rewrite !swap_get in H by (rewrite ?LA, ?LB; assumption). rewrite Nat.eqb_refl in H. assumption.
    + specialize (H i Hi). rewrite !swap_get in H by (rewrite ?LA, ?LB; assumption). rewrite Nat.eqb_refl in H.
      destruct (Nat.eqb_spec i j); [subst; assumption|assumption].
    + specialize (H k Hk). rewrite !swap_get in H by (rewrite ?LA, ?LB; assumption).
      destruct (Nat.eqb_spec k j); [contradiction|]. destruct (Nat.eqb_spec k i); [contradiction|]. assumption.
  - rewrite !swap_get by (rewrite ?LA, ?LB; assumption). destruct (k =? j); [auto|]. destruct (k =? i); auto.
Qed.
Lemma add_get : forall i j m k, j < length m ->
  nth k (bm_addrow i j m) [] = if k =? j then zip_with xorb (nth j m []) (nth i m []) else nth k m [].
Proof using. intros i j m k Hj. unfold bm_addrow. rewrite upd_get by assumption. reflexivity. Qed.
Lemma add_square : forall i j m, i < n -> j < n -> square m -> square (bm_addrow i j m).
Proof using.
  intros i j m Hi Hj [L R]. split; [unfold bm_addrow; rewrite upd_len; assumption|]. intros k Hk.
  rewrite add_get by (rewrite L; assumption). destruct (k =? j); [|auto]. rewrite zip_len, !R by assumption. lia.
Qed.
Lemma add_sys : forall i j A B v x, i < n -> j < n -> j <> i -> square A -> square B ->
  (sys (bm_addrow i j A) (bm_addrow i j B) v x <-> sys A B v x).
Proof using.
  intros i j A B v x Hi Hj D [LA RA] [LB RB]. split; intros H.
  - assert (Hi' := H i Hi). rewrite !add_get in Hi' by (rewrite ?LA, ?LB; assumption).
    destruct (Nat.eqb_spec i j); [congruence|]. intros k Hk. specialize (H k Hk). rewrite !add_get in H by (rewrite ?LA, ?LB; assumption).
    destruct (Nat.eqb_spec k j) as [Ek|Ek]; [rewrite Ek|assumption]. rewrite !dot_zip in H by (rewrite ?RA, ?RB by assumption; reflexivity).
    rewrite Hi' in H. apply lxor_move in H. rewrite N.lxor_assoc, N.lxor_nilpotent, N.lxor_0_r in H. assumption.
  - intros k Hk. rewrite !add_get by (rewrite ?LA, ?LB; assumption). destruct (k =? j); [|auto].
    rewrite !dot_zip by (rewrite ?RA, ?RB by assumption; reflexivity). rewrite (H j Hj), (H i Hi). reflexivity.
Qed.

(** Columns below i are those of the identity. *)
Definition left_id (i : nat) (A : list (list bool)) : Prop :=
  forall j k, j < n -> k < i -> bit_at A j k = (j =? k).
(** What a step preserves. *)
Definition keeps (mi mi' : list (list bool) * list (list bool)) : Prop :=
  square (fst mi') /\ square (snd mi') /\ forall v x, sys (fst mi') (snd mi') v x <-> sys (fst mi) (snd mi) v x.

Lemma find_facts : forall i todo j mi, square (fst mi) -> square (snd mi) -> i < n -> i < j -> j + todo = n -> left_id i (fst mi) ->
  keeps mi (bm_find i todo j mi) /\ left_id i (fst (bm_find i todo j mi)).
Proof using.
  intros i todo. induction todo as [|t IH]; intros j mi SA SB Hi Hj E L; cbn [bm_find].
  - split; [split; [assumption|split; [assumption|intros; tauto]]|assumption].
  - destruct (bit_at (fst mi) j i) eqn:B; [|apply IH; auto; lia]. cbn [fst snd]. split.
    + split; [apply swap_square; auto; lia|]. split; [apply swap_square; auto; lia|]. intros v x. cbn [fst snd]. apply swap_sys; auto; lia.
    + intros a k Ha Hk. unfold bit_at. destruct SA as [LA _]. rewrite swap_get by (rewrite LA; lia).
      destruct (Nat.eqb_spec a j) as [->|].
      * change (bit_at (fst mi) i k = (j =? k)). rewrite L by lia. destruct (Nat.eqb_spec i k), (Nat.eqb_spec j k); lia || reflexivity.
      * destruct (Nat.eqb_spec a i) as [->|]; [|apply L; assumption].
        change (bit_at (fst mi) j k = (i =? k)). rewrite L by lia. destruct (Nat.eqb_spec j k), (Nat.eqb_spec i k); lia || reflexivity.
Qed.
Lemma clear_facts : forall i l mi, square (fst mi) -> square (snd mi) -> i < n -> left_id i (fst mi) ->
  bit_at (fst mi) i i = true -> (forall j, In j l -> j < n) -> NoDup l ->
  (forall j, j < n -> j <> i -> ~ In j l -> bit_at (fst mi) j i = false) ->
  let mi' := fold_left (bm_clear i) l mi in
  keeps mi mi' /\ left_id i (fst mi') /\ bit_at (fst mi') i i = true /\ (forall j, j < n -> j <> i -> bit_at (fst mi') j i = false).
Proof using.
  intros i l. induction l as [|j l IH]; intros mi SA SB Hi L P H N Z; cbn [fold_left].
  - split; [split; [assumption|split; [assumption|intros; tauto]]|]. split; [assumption|]. split; [assumption|].
    intros j Hj D. apply Z; auto.
  - inversion N; subst. assert (Hj : j < n) by (apply H; left; reflexivity).
    assert (G : keeps mi (bm_clear i mi j) /\ left_id i (fst (bm_clear i mi j)) /\ bit_at (fst (bm_clear i mi j)) i i = true /\
                (forall k, k < n -> k <> i -> ~ In k l -> bit_at (fst (bm_clear i mi j)) k i = false)).
    { unfold bm_clear. destruct (Nat.eqb_spec j i) as [->|D]; cbn [negb andb].
      - split; [split; [assumption|split; [assumption|intros; tauto]]|]. split; [assumption|]. split; [assumption|].
        intros k Hk Dk Ik. apply Z; auto. intros [X|X]; [congruence|contradiction].
      - destruct (bit_at (fst mi) j i) eqn:B; cbn [fst snd].
        + split; [split; [apply add_square; assumption|split; [apply add_square; assumption|intros v x; cbn [fst snd]; apply add_sys; assumption]]|].
          destruct SA as [LA RA]. split; [|split].
          * intros a k Ha Hk. unfold bit_at. rewrite add_get by (rewrite LA; assumption). destruct (Nat.eqb_spec a j) as [->|]; [|apply L; assumption].
            rewrite zip_nth by (rewrite !RA by assumption; reflexivity). fold (bit_at (fst mi) j k) (bit_at (fst mi) i k).
            rewrite !L by assumption. destruct (Nat.eqb_spec i k); [lia|]. apply xorb_false_r.
          * unfold bit_at. rewrite add_get by (rewrite LA; assumption). destruct (Nat.eqb_spec i j); [congruence|assumption].
          * intros k Hk Dk Ik. unfold bit_at. rewrite add_get by (rewrite LA; assumption). destruct (Nat.eqb_spec k j) as [->|].
            -- rewrite zip_nth by (rewrite !RA by assumption; reflexivity). fold (bit_at (fst mi) j i) (bit_at (fst mi) i i). rewrite B, P. reflexivity.
            -- apply Z; auto. intros [X|X]; [congruence|contradiction].
        + split; [split; [assumption|split; [assumption|intros; tauto]]|]. split; [assumption|]. split; [assumption|].
          intros k Hk Dk Ik. destruct (Nat.eq_dec k j) as [->|]; [assumption|]. apply Z; auto. intros [X|X]; [congruence|contradiction]. }
    destruct G as ((S1 & S2 & S3) & L1 & P1 & Z1).
    destruct (IH (bm_clear i mi j) S1 S2 Hi L1 P1) as ((T1 & T2 & T3) & L2 & P2 & Z2); auto.
    + intros k Hk. apply H. right. assumption.
    + split; [split; [assumption|split; [assumption|]]|]; [|auto]. intros v x. rewrite T3. apply S3.
Qed.
Lemma rows_facts : forall todo i mi inv, square (fst mi) -> square (snd mi) -> i + todo = n -> left_id i (fst mi) ->
  bm_rows n todo i mi = Some inv ->
  square inv /\ forall v x, sys (fst mi) (snd mi) v x <-> forall k, k < n -> v k = dot (nth k inv []) x.
Proof using.
  intros todo. induction todo as [|t IH]; intros i mi inv SA SB E L H; cbn [bm_rows] in H.
  - injection H as <-. split; [assumption|]. intros v x. assert (i = n) by lia. subst i.
    assert (D : forall k, k < n -> dot (nth k (fst mi) []) v = v k).
    { intros k Hk. rewrite dot_xsum. destruct SA as [_ RA]. rewrite RA by assumption.
      rewrite (xsum_ext _ _ (fun j => if j =? k then v j else 0%N)).
      - apply xsum_pick; [apply seq_NoDup|apply in_seq; lia].
      - intros j Hj. apply in_seq in Hj. change (nth j (nth k (fst mi) []) false) with (bit_at (fst mi) k j). rewrite L by lia.
        rewrite Nat.eqb_sym. reflexivity. }
    split; intros H k Hk; specialize (H k Hk); rewrite D in * by assumption; assumption.
  - assert (Hi : i < n) by lia.
    set (mi1 := if bit_at (fst mi) i i then mi else bm_find i (n - S i) (S i) mi) in *.
    assert (G : keeps mi mi1 /\ left_id i (fst mi1)).
    { unfold mi1. destruct (bit_at (fst mi) i i); [split; [split; [assumption|split; [assumption|intros; tauto]]|assumption]|]. apply find_facts; auto; lia. }
    clearbody mi1. destruct G as ((S1 & S2 & S3) & L1).
    destruct (bit_at (fst mi1) i i) eqn:P1; cbn [negb] in H; [|discriminate].
    destruct (clear_facts i (seq 0 n) mi1 S1 S2 Hi L1 P1) as ((T1 & T2 & T3) & L2 & P2 & Z2).
    + intros j Hj. apply in_seq in Hj. lia.
    + apply seq_NoDup.
    + intros j Hj _ X. exfalso. apply X. apply in_seq. lia.
    + destruct (IH (S i) _ inv T1 T2) as (S4 & Q); [lia| |exact H|].
      * intros j k Hj Hk. destruct (Nat.eq_dec k i) as [->|]; [|apply L2; [assumption|lia]].
        destruct (Nat.eqb_spec j i) as [->|]; [assumption|auto].
      * split; [assumption|]. intros v x. rewrite <- Q, T3, S3. tauto.
Qed.
Lemma identity_dot : forall k x, k < n -> dot (nth k (bm_identity n) []) x = x k.
Proof using.
  intros k x Hk. unfold bm_identity. rewrite (nth_indep _ [] (map (Nat.eqb 0) (seq 0 n))) by (rewrite map_length, seq_length; assumption).
  rewrite (map_nth (fun i => map (Nat.eqb i) (seq 0 n))), seq_nth by assumption. cbn [plus].
  rewrite dot_xsum, map_length, seq_length.
  rewrite (xsum_ext _ _ (fun j => if j =? k then x j else 0%N)).
  - apply xsum_pick; [apply seq_NoDup|apply in_seq; lia].
  - intros j Hj. apply in_seq in Hj. rewrite (nth_indep _ false (Nat.eqb k 0)) by (rewrite map_length, seq_length; lia).
    rewrite (map_nth (Nat.eqb k)), seq_nth by lia. cbn [plus]. rewrite Nat.eqb_sym. reflexivity.
Qed.
Theorem invert_facts : forall m inv, square m -> bm_invert n m = Some inv ->
  square inv /\ forall v x, (forall k, k < n -> dot (nth k m []) v = x k) <-> (forall k, k < n -> v k = dot (nth k inv []) x).
Proof using.
  intros m inv S H. unfold bm_invert in H.
  destruct (rows_facts n 0 (m, bm_identity n) inv S) as (S' & Q); [| | |assumption|].
  - cbn [snd]. split; [unfold bm_identity; rewrite map_length; apply seq_length|]. intros i Hi. unfold bm_identity.
    rewrite (nth_indep _ [] (map (Nat.eqb 0) (seq 0 n))) by (rewrite map_length, seq_length; assumption).
    rewrite (map_nth (fun i => map (Nat.eqb i) (seq 0 n))). rewrite map_length, seq_length. reflexivity.
  - lia.
  - intros j k _ Hk. lia.
  - split; [assumption|]. intros v x. rewrite <- Q. cbn [fst snd]. unfold sys.
    split; intros A k Hk; specialize (A k Hk); rewrite identity_dot in * by assumption; assumption.
Qed.
End BM.
