(** The loops of NttModel: which words they change, and to what. *)
From Coq Require Import List Arith NArith ZArith Bool Lia.
From Verif Require Import Base StoreModel StoreProofs PirPackModel PirPackProofs2 SpLoopModel SpLoopProofs SpDecodeProofs2 NttModel.
Import ListNotations.

Lemma put_ok : forall p (x : N) l, p < length l ->
  exists l', put p x l = Ok l' /\ length l' = length l /\ forall k, nth k l' 0%N = if k =? p then x else nth k l 0%N.
Proof.
  intros p x l Hp. unfold put. rewrite (proj2 (Nat.ltb_lt _ _) Hp). eexists. split; [reflexivity|].
  split; [apply upd_length|]. intros k.
  destruct (le_lt_dec (length l) k) as [Hk|Hk].
  - rewrite !nth_overflow by (rewrite ?upd_length; lia). destruct (Nat.eqb_spec k p); [lia|reflexivity].
  - pose proof (upd_nth N p (fun _ => x) l k) as E. rewrite (nth_error_nth' l 0%N Hk) in E.
    rewrite (nth_error_nth' _ 0%N) in E by (rewrite upd_length; exact Hk).
    rewrite (Nat.eqb_sym k p). destruct (p =? k); cbn [option_map] in E; congruence.
Qed.

(** [v'] is [v] with the pairs (o + j, o + t + j), j < u, replaced by [f]. *)
Definition pair_val (t u o : nat) (f : N -> N -> N * N) (v : list N) (k : nat) : N :=
  if (o <=? k) && (k <? o + u) then fst (f (nth k v 0%N) (nth (k + t) v 0%N))
  else if (o + t <=? k) && (k <? o + t + u) then snd (f (nth (k - t) v 0%N) (nth k v 0%N))
  else nth k v 0%N.
Definition pair_upd (t u o : nat) (f : N -> N -> N * N) (v v' : list N) : Prop :=
  length v' = length v /\ forall k, nth k v' 0%N = pair_val t u o f v k.

Ltac bcase :=
  repeat match goal with
  | |- context [?a <=? ?b] => destruct (Nat.leb_spec a b); try (exfalso; lia)
  | |- context [?a <? ?b] => destruct (Nat.ltb_spec a b); try (exfalso; lia)
  | |- context [?a =? ?b] => destruct (Nat.eqb_spec a b); try (exfalso; lia)
  end; cbn [andb]; try lia.

Lemma pairs_ok : forall t o f v, o + 2 * t <= length v -> exists v', pairs t o f v = Ok v' /\ pair_upd t t o f v v'.
Proof.
  intros t o f v Hl. unfold pairs.
  destruct (loop_rule (list N) t 0 (fun j v =>
    do x <- get (o + j) v; do y <- get (o + t + j) v; let '(a, b) := f x y in
    do v <- put (o + j) a v; put (o + t + j) b v) (fun j s => pair_upd t j o f v s) v) as (v' & E & H).
  - split; [reflexivity|]. intros k. unfold pair_val. bcase; reflexivity.
  - intros j s Hj [Hs H]. rewrite !get_nth by lia. cbn [bind].
    assert (E1 : nth (o + j) s 0%N = nth (o + j) v 0%N) by (rewrite H; unfold pair_val; bcase; reflexivity).
    assert (E2 : nth (o + t + j) s 0%N = nth (o + t + j) v 0%N) by (rewrite H; unfold pair_val; bcase; reflexivity).
    rewrite E1, E2. destruct (f (nth (o + j) v 0%N) (nth (o + t + j) v 0%N)) as [a b] eqn:Ef.
    destruct (put_ok (o + j) a s ltac:(lia)) as (s1 & -> & L1 & N1). cbn [bind].
    destruct (put_ok (o + t + j) b s1 ltac:(lia)) as (s2 & -> & L2 & N2). exists s2. split; [reflexivity|].
    split; [lia|]. intros k. rewrite N2, N1, H. unfold pair_val.
    destruct (Nat.eqb_spec k (o + t + j)) as [->|Hk2].
    + replace (o + t + j - t) with (o + j) by lia. rewrite Ef. bcase; reflexivity.
    + destruct (Nat.eqb_spec k (o + j)) as [->|Hk1].
      * replace (o + j + t) with (o + t + j) by lia. rewrite Ef. bcase; reflexivity.
      * bcase; reflexivity.
  - exists v'. split; [exact E|]. exact H.
Qed.

Lemma load4_ok : forall p v, p + 4 <= length v -> load4 p v = Ok (map (fun i => nth (p + i) v 0%N) (seq 0 4)).
Proof.
  intros p v H. unfold load4. apply map_out_ok. intros i Hi. apply in_seq in Hi. apply get_nth. lia.
Qed.

Lemma store_ok : forall xs p v, p + length xs <= length v ->
  exists v', store p xs v = Ok v' /\ length v' = length v
    /\ forall k, nth k v' 0%N = if (p <=? k) && (k <? p + length xs) then nth (k - p) xs 0%N else nth k v 0%N.
Proof.
  induction xs as [|x xs IH]; intros p v H; cbn [store length] in *.
  - exists v. split; [reflexivity|]. split; [reflexivity|]. intros k. bcase; reflexivity.
  - destruct (put_ok p x v ltac:(lia)) as (v1 & -> & L1 & N1). cbn [bind].
    destruct (IH (S p) v1 ltac:(lia)) as (v2 & E2 & L2 & N2). exists v2. split; [exact E2|]. split; [lia|].
    intros k. rewrite N2, N1. destruct (Nat.eqb_spec k p) as [->|Hk].
    + replace (p - p) with 0 by lia. bcase; reflexivity.
    + destruct (le_lt_dec k p).
      * bcase; reflexivity.
      * replace (k - p) with (S (k - S p)) by lia. bcase; reflexivity.
Qed.

Lemma pairs4_ok : forall guard t o f v, t mod 4 = 0 -> o + 2 * t <= length v ->
  exists v', pairs4 guard t o f v = Ok v' /\ pair_upd t t o f v v'.
Proof.
  intros guard t o f v Ht Hl. unfold pairs4.
  pose proof (Nat.div_mod t 4 ltac:(lia)) as D. rewrite Ht, Nat.add_0_r in D. set (g0 := t / 4) in *.
  assert (Eg : (t + 3) / 4 = g0).
  { rewrite D. symmetry. apply (Nat.div_unique _ _ _ 3); lia. }
  rewrite Eg. clearbody g0. clear Eg Ht.
  destruct (loop_rule (list N) g0 0 (fun g v =>
    let j := 4 * g in
    if guard && (t <? j + 4) then Ok v else
    do xs <- load4 (o + j) v; do ys <- load4 (o + t + j) v;
    let r := map (fun '(x, y) => f x y) (List.combine xs ys) in
    do v <- store (o + j) (map fst r) v; store (o + t + j) (map snd r) v)
    (fun g s => pair_upd t (4 * g) o f v s) v) as (v' & E & H).
  - split; [reflexivity|]. intros k. unfold pair_val. bcase; reflexivity.
  - intros g s Hg [Hs H]. cbv zeta. rewrite (proj2 (Nat.ltb_ge t (4 * g + 4))), andb_false_r by lia.
    rewrite !load4_ok by lia. cbn [bind].
    set (X := fun i => nth (o + 4 * g + i) v 0%N). set (Y := fun i => nth (o + t + 4 * g + i) v 0%N).
    replace (map (fun i => nth (o + 4 * g + i) s 0%N) (seq 0 4)) with (map X (seq 0 4)).
    2: { apply map_ext_in. intros i Hi. apply in_seq in Hi. unfold X. rewrite H. unfold pair_val. bcase; reflexivity. }
    replace (map (fun i => nth (o + t + 4 * g + i) s 0%N) (seq 0 4)) with (map Y (seq 0 4)).
    2: { apply map_ext_in. intros i Hi. apply in_seq in Hi. unfold Y. rewrite H. unfold pair_val. bcase; reflexivity. }
    assert (Ec : map (fun '(x, y) => f x y) (List.combine (map X (seq 0 4)) (map Y (seq 0 4))) = map (fun i => f (X i) (Y i)) (seq 0 4))
      by reflexivity.
    rewrite Ec, !map_map.
    destruct (store_ok (map (fun i => fst (f (X i) (Y i))) (seq 0 4)) (o + 4 * g) s) as (s1 & -> & L1 & N1).
    { rewrite map_length, seq_length. lia. }
    cbn [bind].
    destruct (store_ok (map (fun i => snd (f (X i) (Y i))) (seq 0 4)) (o + t + 4 * g) s1) as (s2 & -> & L2 & N2).
    { rewrite map_length, seq_length. lia. }
    exists s2. split; [reflexivity|]. split; [lia|]. intros k. rewrite N2, N1, H.
    rewrite !map_length, seq_length.
    assert (Hn : forall (h : nat -> N) i, i < 4 -> nth i (map h (seq 0 4)) 0%N = h i).
    { intros h i Hi. rewrite (nth_indep _ 0%N (h 0)) by (rewrite map_length, seq_length; exact Hi).
      rewrite map_nth, seq_nth by exact Hi. reflexivity. }
    destruct ((o + t + 4 * g <=? k) && (k <? o + t + 4 * g + 4)) eqn:B1.
    + apply andb_prop in B1. destruct B1 as [B1 B2]. apply Nat.leb_le in B1. apply Nat.ltb_lt in B2.
      rewrite Hn by lia. unfold X, Y, pair_val. replace (o + t + 4 * g + (k - (o + t + 4 * g))) with k by lia.
      replace (o + 4 * g + (k - (o + t + 4 * g))) with (k - t) by lia. bcase; reflexivity.
    + destruct ((o + 4 * g <=? k) && (k <? o + 4 * g + 4)) eqn:B2.
      * apply andb_prop in B2. destruct B2 as [B2 B3]. apply Nat.leb_le in B2. apply Nat.ltb_lt in B3.
        rewrite Hn by lia. unfold X, Y, pair_val. replace (o + 4 * g + (k - (o + 4 * g))) with k by lia.
        replace (o + t + 4 * g + (k - (o + 4 * g))) with (k + t) by lia. bcase; reflexivity.
      * unfold pair_val. revert B1 B2. bcase; intros; try discriminate; reflexivity.
  - exists v'. split; [exact E|]. cbn [Nat.add] in H. rewrite <- D in H. exact H.
Qed.

(** A layer replaces the pairs of every group. *)
Definition layer_upd (m t : nat) (F : nat -> N -> N -> N * N) (v v' : list N) : Prop :=
  length v' = length v /\ forall i j, i < m -> j < t ->
    (nth (i * (2 * t) + j) v' 0%N, nth (i * (2 * t) + t + j) v' 0%N)
    = F i (nth (i * (2 * t) + j) v 0%N) (nth (i * (2 * t) + t + j) v 0%N).

Lemma layer_ok : forall run tab tab' m t F v,
  length v = m * (2 * t) -> 2 * m <= length tab -> 2 * m <= length tab' ->
  (forall i s, i < m -> length s = length v ->
     exists s', run t (i * (2 * t)) (nth (m + i) tab 0%N) (nth (m + i) tab' 0%N) s = Ok s' /\ pair_upd t t (i * (2 * t)) (F i) s s') ->
  exists v', layer run tab tab' m t v = Ok v' /\ layer_upd m t F v v'.
Proof.
  intros run tab tab' m t F v Hl Ht Ht' Hrun. unfold layer.
  destruct (loop_rule (list N) m 0 (fun i v =>
    do w <- get (m + i) tab; do w' <- get (m + i) tab'; run t (i * (2 * t)) w w' v)
    (fun i s => length s = length v
       /\ (forall i' j, i' < i -> j < t ->
           (nth (i' * (2 * t) + j) s 0%N, nth (i' * (2 * t) + t + j) s 0%N)
           = F i' (nth (i' * (2 * t) + j) v 0%N) (nth (i' * (2 * t) + t + j) v 0%N))
       /\ forall k, i * (2 * t) <= k -> nth k s 0%N = nth k v 0%N) v) as (v' & E & H1 & H2 & _).
  - split; [reflexivity|]. split; [intros; lia|reflexivity].
  - intros i s Hi (Hs & H1 & H2). rewrite !get_nth by lia. cbn [bind].
    destruct (Hrun i s ltac:(lia) Hs) as (s' & -> & L & N1). exists s'. split; [reflexivity|]. split; [lia|]. split.
    + intros i' j Hi' Hj. rewrite !N1. destruct (Nat.eq_dec i' i) as [->|Hne].
      * unfold pair_val. replace (i * (2 * t) + t + j - t) with (i * (2 * t) + j) by lia.
        replace (i * (2 * t) + j + t) with (i * (2 * t) + t + j) by lia. rewrite !H2 by lia.
        bcase. destruct (F i _ _); reflexivity.
      * assert ((i' + 1) * (2 * t) <= i * (2 * t)) by (apply Nat.mul_le_mono_r; lia).
        assert (K : forall k, k < i * (2 * t) -> pair_val t t (i * (2 * t)) (F i) s k = nth k s 0%N)
          by (intros k Hk; unfold pair_val; bcase; reflexivity).
        rewrite !K by lia. apply H1; [lia|exact Hj].
    + intros k Hk. rewrite N1. rewrite <- H2 by lia. unfold pair_val. bcase; reflexivity.
  - exists v'. split; [exact E|]. split; [exact H1|]. exact H2.
Qed.

(** A loop over all words. *)
Definition each_upd (n : nat) (f : N -> N) (v v' : list N) : Prop :=
  length v' = length v /\ forall k, k < n -> nth k v' 0%N = f (nth k v 0%N).

Lemma each_ok : forall n f v, n <= length v -> exists v', each n f v = Ok v' /\ each_upd n f v v'.
Proof.
  intros n f v Hl. unfold each.
  destruct (loop_rule (list N) n 0 (fun i v => do x <- get i v; put i (f x) v)
    (fun i s => length s = length v /\ (forall k, k < i -> nth k s 0%N = f (nth k v 0%N))
       /\ forall k, i <= k -> nth k s 0%N = nth k v 0%N) v) as (v' & E & H1 & H2 & _).
  - split; [reflexivity|]. split; [intros; lia|reflexivity].
  - intros i s Hi (Hs & H1 & H2). rewrite get_nth by lia. cbn [bind]. rewrite H2 by lia.
    destruct (put_ok i (f (nth i v 0%N)) s ltac:(lia)) as (s' & -> & L & N1). exists s'. split; [reflexivity|].
    split; [lia|]. split; intros k Hk; rewrite N1; destruct (Nat.eqb_spec k i) as [->|]; try lia; auto; [apply H1|apply H2]; lia.
  - exists v'. split; [exact E|]. split; [exact H1|]. exact H2.
Qed.

Lemma each4_ok : forall n f v, n mod 4 = 0 -> n <= length v -> exists v', each4 n f v = Ok v' /\ each_upd n f v v'.
Proof.
  intros n f v Hn Hl. unfold each4.
  pose proof (Nat.div_mod n 4 ltac:(lia)) as D. rewrite Hn, Nat.add_0_r in D. set (g0 := n / 4) in *.
  assert (Eg : (n + 3) / 4 = g0).
  { rewrite D. symmetry. apply (Nat.div_unique _ _ _ 3); lia. }
  rewrite Eg. clearbody g0. clear Eg Hn.
  destruct (loop_rule (list N) g0 0 (fun g v =>
    let i := 4 * g in if n <? i + 4 then Ok v else do xs <- load4 i v; store i (map f xs) v)
    (fun g s => length s = length v /\ (forall k, k < 4 * g -> nth k s 0%N = f (nth k v 0%N))
       /\ forall k, 4 * g <= k -> nth k s 0%N = nth k v 0%N) v) as (v' & E & H1 & H2 & _).
  - split; [reflexivity|]. split; [intros; lia|reflexivity].
  - intros g s Hg (Hs & H1 & H2). cbv zeta. rewrite (proj2 (Nat.ltb_ge n (4 * g + 4))) by lia.
    rewrite load4_ok by lia. cbn [bind]. rewrite map_map.
    destruct (store_ok (map (fun i => f (nth (4 * g + i) s 0%N)) (seq 0 4)) (4 * g) s) as (s' & -> & L & N1).
    { rewrite map_length, seq_length. lia. }
    exists s'. split; [reflexivity|]. split; [lia|]. rewrite map_length, seq_length in N1.
    assert (Hn : forall (h : nat -> N) i, i < 4 -> nth i (map h (seq 0 4)) 0%N = h i).
    { intros h i Hi. rewrite (nth_indep _ 0%N (h 0)) by (rewrite map_length, seq_length; exact Hi).
      rewrite map_nth, seq_nth by exact Hi. reflexivity. }
    split; intros k Hk; rewrite N1.
    + destruct (le_lt_dec (4 * g) k) as [Hge|Hlt].
      * rewrite (proj2 (Nat.leb_le _ _)), (proj2 (Nat.ltb_lt _ _)) by lia. cbn [andb]. rewrite Hn by lia.
        replace (4 * g + (k - 4 * g)) with k by lia. rewrite H2 by lia. reflexivity.
      * rewrite (proj2 (Nat.leb_gt _ _)) by lia. cbn [andb]. apply H1. lia.
    + rewrite (proj2 (Nat.ltb_ge k _)), andb_false_r by lia. apply H2. lia.
  - exists v'. split; [exact E|]. split; [exact H1|]. intros k Hk. apply H2. lia.
Qed.
