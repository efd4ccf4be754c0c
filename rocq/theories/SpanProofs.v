From Coq Require Import List NArith Lia Bool Arith.
From Verif Require Import Base SpanModel SpanSpec.
Import ListNotations.

Definition range (a lo n : nat) : bool := andb (Nat.leb lo a) (Nat.ltb a (lo + n)).
Lemma range_true : forall a lo n, range a lo n = true <-> lo <= a < lo + n.
Proof. intros. unfold range. rewrite andb_true_iff, Nat.leb_le, Nat.ltb_lt. lia. Qed.
Lemma range_false : forall a lo n, range a lo n = false <-> ~ (lo <= a < lo + n).
Proof. intros. rewrite <- range_true. destruct (range a lo n); split; congruence. Qed.
Ltac rcase a lo n := let E := fresh "R" in destruct (range a lo n) eqn:E; [apply range_true in E | apply range_false in E].

Lemma m_set_eq : forall m a v b, m_set m a v b = if Nat.eqb b a then v else m b.
Proof. reflexivity. Qed.

Lemma rd_ok : forall m s i, i < s_len s -> rd m s i = Ok (m (s_at s + i)).
Proof. intros. unfold rd. apply Nat.ltb_lt in H. now rewrite H. Qed.
Lemma wr_ok : forall m s i v, i < s_len s -> wr m s i v = Ok (m_set m (s_at s + i) v).
Proof. intros. unfold wr. apply Nat.ltb_lt in H. now rewrite H. Qed.

Lemma rd_many_ok : forall m s n i, i + n <= s_len s -> rd_many m s i n = Ok (map (fun j => m (s_at s + j)) (seq i n)).
Proof.
  intros m s n. induction n as [ | n IH]; intros i H; cbn [rd_many seq map]; [reflexivity | ].
  rewrite rd_ok by lia. cbn [bind]. rewrite IH by lia. reflexivity.
Qed.

(** All of the output span [c] below k has the values of f, the rest is as before. *)
Definition upto (m m' : mem) (c : span) (f : nat -> N) (k : nat) : Prop :=
  forall a, m' a = if range a (s_at c) k then f (a - s_at c) else m a.

Lemma upto_0 : forall m c f, upto m m c f 0.
Proof. intros m c f a. rcase a (s_at c) 0; [lia | reflexivity]. Qed.

(** A span compatible with the output still has its old contents from k on. *)
Lemma upto_keeps : forall m m' c f k p j, same_or_apart p c -> upto m m' c f k -> k <= s_len c -> k <= j -> j < s_len p ->
  m' (s_at p + j) = m (s_at p + j).
Proof.
  intros m m' c f k p j S U Hk Hj Hp. rewrite (U _). rcase (s_at p + j) (s_at c) k; [ | reflexivity].
  unfold same_or_apart in S. lia.
Qed.

Lemma upto_write : forall m m' c f k v, upto m m' c f k -> v = f k -> upto m (m_set m' (s_at c + k) v) c f (S k).
Proof.
  intros m m' c f k v U -> a. rewrite m_set_eq.
  destruct (Nat.eqb a (s_at c + k)) eqn:E.
  - apply Nat.eqb_eq in E. subst a. rcase (s_at c + k) (s_at c) (S k); [ | lia]. f_equal. lia.
  - apply Nat.eqb_neq in E. rewrite (U a). rcase a (s_at c) k; rcase a (s_at c) (S k); try reflexivity; lia.
Qed.

Lemma xor_out_upto : forall m p c f buf i m',
  same_or_apart p c -> upto m m' c f i -> i + length buf <= s_len p -> i + length buf <= s_len c ->
  (forall j, j < length buf -> f (i + j) = N.lxor (nth j buf 0%N) (m (s_at p + (i + j)))) ->
  exists m2, xor_out m' p c i buf = Ok m2 /\ upto m m2 c f (i + length buf).
Proof.
  intros m p c f buf. induction buf as [ | b buf IH]; intros i m' S U Lp Lc F.
  - exists m'. cbn [length xor_out]. rewrite Nat.add_0_r. auto.
  - cbn [length] in *. cbn [xor_out]. rewrite rd_ok by lia. cbn [bind]. rewrite wr_ok by lia. cbn [bind].
    destruct (IH (Datatypes.S i) (m_set m' (s_at c + i) (N.lxor b (m' (s_at p + i)))) S) as (m2 & E & U2).
    + apply upto_write; [exact U | ]. rewrite (upto_keeps m m' c f i p i S U) by lia.
      specialize (F 0 ltac:(lia)). rewrite Nat.add_0_r in F. cbn [nth] in F. now rewrite F.
    + lia.
    + lia.
    + intros j Hj. specialize (F (Datatypes.S j) ltac:(lia)). cbn [nth] in F.
      replace (Datatypes.S i + j) with (i + Datatypes.S j) by lia. exact F.
    + exists m2. split; [exact E | ]. replace (i + Datatypes.S (length buf)) with (Datatypes.S i + length buf) by lia. exact U2.
Qed.

Lemma map_keeps : forall m m' c f k p n, same_or_apart p c -> upto m m' c f k -> k <= s_len c -> k + n <= s_len p ->
  map (fun j => m' (s_at p + j)) (seq k n) = map (fun j => m (s_at p + j)) (seq k n).
Proof.
  intros. apply map_ext_in. intros j Hj. apply in_seq in Hj. eapply upto_keeps; eauto; lia.
Qed.

Lemma nth_map_seq : forall (g : nat -> N) i n j, j < n -> nth j (map g (seq i n)) 0%N = g (i + j).
Proof.
  intros g i n j H. rewrite (nth_indep _ 0%N (g 0)) by now rewrite map_length, seq_length.
  rewrite map_nth. now rewrite seq_nth.
Qed.

Section Cr.
  Variables (enc : list N -> outcome (list N)) (batch : nat) (m : mem) (p c : span) (E : list N).
  Hypothesis (Bpos : 0 < batch) (S : same_or_apart p c) (L : s_len p <= s_len c) (LE : length E = s_len p).
  Hypothesis HE : forall i n, Nat.divide batch i -> i + n <= s_len p -> n = batch \/ i + n = s_len p ->
    enc (map (fun j => m (s_at p + j)) (seq i n)) = Ok (map (fun j => nth j E 0%N) (seq i n)).
  Let f (j : nat) : N := N.lxor (nth j E 0%N) (m (s_at p + j)).

  Lemma cr_step_upto : forall m' i n, upto m m' c f i -> Nat.divide batch i -> i + n <= s_len p -> n = batch \/ i + n = s_len p ->
    exists m2, cr_step enc m' p c i n = Ok m2 /\ upto m m2 c f (i + n).
  Proof.
    intros m' i n U D H HN. unfold cr_step. rewrite rd_many_ok by lia. cbn [bind].
    rewrite (map_keeps m m' c f i p n S U) by lia. rewrite (HE i n D H HN). cbn [bind].
    assert (LM : length (map (fun j => nth j E 0%N) (seq i n)) = n) by now rewrite map_length, seq_length.
    destruct (xor_out_upto m p c f (map (fun j => nth j E 0%N) (seq i n)) i m' S U) as (m2 & E2 & U2).
    - rewrite LM. lia.
    - rewrite LM. lia.
    - intros j Hj. rewrite LM in Hj. unfold f. f_equal.
      now rewrite nth_map_seq.
    - rewrite LM in U2. eauto.
  Qed.

  Lemma cr_batches_upto : forall q m' i, upto m m' c f i -> Nat.divide batch i -> i + q * batch <= s_len p ->
    exists m2, cr_batches enc batch q m' p c i = Ok m2 /\ upto m m2 c f (i + q * batch).
  Proof.
    induction q as [ | q IH]; intros m' i U D H.
    - exists m'. cbn [cr_batches Nat.mul]. rewrite Nat.add_0_r. auto.
    - cbn [cr_batches Nat.mul] in *. destruct (cr_step_upto m' i batch U D) as (m1 & E1 & U1); [lia | now left | ].
      rewrite E1. cbn [bind]. destruct (IH m1 (i + batch) U1) as (m2 & E2 & U2).
      + apply Nat.divide_add_r; [exact D | apply Nat.divide_refl].
      + lia.
      + exists m2. split; [exact E2 | ]. now rewrite Nat.add_assoc.
  Qed.

  Lemma cr_hash_upto : exists m2, cr_hash enc batch m p c = Ok m2 /\ upto m m2 c f (s_len p).
  Proof.
    unfold cr_hash. set (q := s_len p / batch).
    assert (Q : q * batch <= s_len p) by (unfold q; rewrite Nat.mul_comm; apply Nat.mul_div_le; lia).
    destruct (cr_batches_upto q m 0 (upto_0 _ _ _)) as (m1 & E1 & U1); [apply Nat.divide_0_r | exact Q | ].
    rewrite E1. cbn [bind]. cbn [Nat.add] in U1.
    destruct (Nat.ltb (q * batch) (s_len p)) eqn:T.
    - apply Nat.ltb_lt in T. destruct (cr_step_upto m1 (q * batch) (s_len p - q * batch) U1) as (m2 & E2 & U2).
      + apply Nat.divide_factor_r.
      + lia.
      + right. lia.
      + exists m2. split; [exact E2 | ]. replace (s_len p) with (q * batch + (s_len p - q * batch)) by lia. exact U2.
    - apply Nat.ltb_ge in T. exists m1. split; [reflexivity | ]. replace (s_len p) with (q * batch) by lia. exact U1.
  Qed.
End Cr.

Lemma contents_length : forall m s, length (contents m s) = s_len s.
Proof. intros. unfold contents. now rewrite map_length, seq_length. Qed.
Lemma contents_nth : forall m s j, j < s_len s -> nth j (contents m s) 0%N = m (s_at s + j).
Proof.
  intros m s j H. unfold contents. now rewrite nth_map_seq.
Qed.

Lemma zip_length : forall g a b, length a = length b -> length (zip g a b) = length a.
Proof. intros g a; induction a as [ | x a IH]; intros [ | y b] H; try discriminate H; cbn; auto. Qed.
Lemma zip_nth : forall g a b j, length a = length b -> j < length a -> nth j (zip g a b) 0%N = g (nth j a 0%N) (nth j b 0%N).
Proof.
  intros g a; induction a as [ | x a IH]; intros [ | y b] [ | j] H Hj; try discriminate H; cbn in *; try lia; auto.
  apply IH; lia.
Qed.

Lemma upto_written : forall m m' c f l, (forall j, j < length l -> f j = nth j l 0%N) -> upto m m' c f (length l) -> written m m' c l.
Proof.
  intros m m' c f l F U a. rewrite (U a). fold (range a (s_at c) (length l)).
  rcase a (s_at c) (length l); [ | reflexivity]. apply F. lia.
Qed.

Lemma cr_hash_written : forall enc batch m p c E,
  0 < batch -> same_or_apart p c -> s_len p <= s_len c -> length E = s_len p ->
  (forall i n, Nat.divide batch i -> i + n <= s_len p -> n = batch \/ i + n = s_len p ->
    enc (map (fun j => m (s_at p + j)) (seq i n)) = Ok (map (fun j => nth j E 0%N) (seq i n))) ->
  exists m', cr_hash enc batch m p c = Ok m' /\ written m m' c (zip N.lxor E (contents m p)).
Proof.
  intros enc batch m p c E B S L LE HE.
  destruct (cr_hash_upto enc batch m p c E B S L LE HE) as (m' & R & U).
  exists m'. split; [exact R | ].
  assert (LZ : length (zip N.lxor E (contents m p)) = s_len p) by (rewrite zip_length; [exact LE | now rewrite contents_length]).
  eapply upto_written; [ | rewrite LZ; exact U]. intros j Hj. rewrite LZ in Hj.
  rewrite zip_nth; [ | now rewrite contents_length | lia]. now rewrite contents_nth.
Qed.

Lemma map_zip : forall (g : N -> N) (h : N -> N -> N) l, zip h (map g l) l = map (fun x => h (g x) x) l.
Proof. intros g h l; induction l; cbn; congruence. Qed.

Lemma words_exact : forall aes m p c, same_or_apart p c -> s_len p <= s_len c ->
  exists m', cr_hash_words aes m p c = Ok m' /\ written m m' c (map (cr_hash_one aes) (contents m p)).
Proof.
  intros aes m p c S L. unfold cr_hash_words.
  destruct (cr_hash_written (fun l => Ok (map aes l)) k_batch m p c (map aes (contents m p))) as (m' & E & W).
  - unfold k_batch. lia.
  - exact S.
  - exact L.
  - now rewrite map_length, contents_length.
  - intros i n D H HN. f_equal. rewrite map_map. apply map_ext_in. intros j Hj. apply in_seq in Hj.
    rewrite (nth_indep _ _ (aes 0%N)) by (rewrite map_length, contents_length; lia).
    rewrite map_nth, contents_nth by lia. reflexivity.
  - exists m'. split; [exact E | ]. rewrite map_zip in W. exact W.
Qed.

(* ---------------- Davis-Meyer ---------------- *)
Section Dm.
  Variables (aes : N -> N -> N) (m : mem) (key val out : span).
  Hypothesis (SK : same_or_apart key out) (SV : same_or_apart val out)
             (LV : s_len val = s_len key) (LO : s_len key <= s_len out).
  Let f (j : nat) : N := dm_one aes (m (s_at key + j)) (m (s_at val + j)).

  Lemma dm_singles_upto : forall n m' i, upto m m' out f i -> i + n <= s_len key ->
    exists m2, dm_singles aes n m' key val out i = Ok m2 /\ upto m m2 out f (i + n).
  Proof.
    induction n as [ | n IH]; intros m' i U H.
    - exists m'. rewrite Nat.add_0_r. auto.
    - cbn [dm_singles]. rewrite !rd_ok by lia. cbn [bind]. rewrite wr_ok by lia. cbn [bind].
      rewrite (upto_keeps m m' out f i key i SK U) by lia.
      rewrite (upto_keeps m m' out f i val i SV U) by lia.
      destruct (IH (m_set m' (s_at out + i) (dm_one aes (m (s_at key + i)) (m (s_at val + i)))) (S i)) as (m2 & E & U2).
      + apply upto_write; [exact U | reflexivity].
      + lia.
      + exists m2. split; [exact E | ]. now rewrite Nat.add_succ_r.
  Qed.

  Lemma combine_maps : forall (g h : nat -> N) l, combine (map g l) (map h l) = map (fun j => (g j, h j)) l.
  Proof. intros g h l; induction l; cbn; congruence. Qed.

  Lemma dm_batches_upto : forall q m' i, upto m m' out f i -> i + q * k_batch <= s_len key ->
    exists m2, dm_batches aes q m' key val out i = Ok m2 /\ upto m m2 out f (i + q * k_batch).
  Proof.
    induction q as [ | q IH]; intros m' i U H.
    - exists m'. cbn [Nat.mul dm_batches]. rewrite Nat.add_0_r. auto.
    - cbn [dm_batches]. cbn [Nat.mul] in H |- *. rewrite !rd_many_ok by lia. cbn [bind].
      rewrite (map_keeps m m' out f i key k_batch SK U) by lia.
      rewrite (map_keeps m m' out f i val k_batch SV U) by lia.
      rewrite combine_maps, map_map. cbn [fst snd].
      set (buf := map (fun j => aes (m (s_at key + j)) (m (s_at val + j))) (seq i k_batch)).
      assert (LM : length buf = k_batch) by (unfold buf; now rewrite map_length, seq_length).
      destruct (xor_out_upto m val out f buf i m' SV U) as (m1 & E1 & U1).
      + rewrite LM. lia.
      + rewrite LM. lia.
      + intros j Hj. rewrite LM in Hj. unfold f, dm_one. f_equal. unfold buf.
        now rewrite nth_map_seq.
      + rewrite E1. cbn [bind]. rewrite LM in U1.
        destruct (IH m1 (i + k_batch) U1) as (m2 & E2 & U2); [lia | ].
        exists m2. split; [exact E2 | ]. now rewrite Nat.add_assoc.
  Qed.

  Lemma dm_hash_upto : forall avx, exists m2, dm_hash aes avx m key val out = Ok m2 /\ upto m m2 out f (s_len key).
  Proof.
    intros avx. unfold dm_hash. rewrite LV, Nat.eqb_refl. cbn [enforce]. destruct avx.
    - set (q := s_len key / k_batch). cbv zeta.
      assert (Q : q * k_batch <= s_len key) by (unfold q; rewrite Nat.mul_comm; apply Nat.mul_div_le; unfold k_batch; lia).
      destruct (dm_batches_upto q m 0 (upto_0 _ _ _) Q) as (m1 & E1 & U1). rewrite E1. cbn [bind]. cbn [Nat.add] in U1.
      destruct (dm_singles_upto (s_len key - q * k_batch) m1 (q * k_batch) U1) as (m2 & E2 & U2); [lia | ].
      exists m2. split; [exact E2 | ]. replace (s_len key) with (q * k_batch + (s_len key - q * k_batch)) by lia. exact U2.
    - exact (dm_singles_upto (s_len key) m 0 (upto_0 _ _ _) (Nat.le_refl _)).
  Qed.
End Dm.

Lemma dm_exact : forall aes avx m key val out,
  same_or_apart key out -> same_or_apart val out -> s_len val = s_len key -> s_len key <= s_len out ->
  exists m', dm_hash aes avx m key val out = Ok m' /\ written m m' out (zip (dm_one aes) (contents m key) (contents m val)).
Proof.
  intros aes avx m key val out SK SV LV LO.
  destruct (dm_hash_upto aes m key val out SK SV LV LO avx) as (m' & R & U). exists m'. split; [exact R | ].
  assert (LZ : length (zip (dm_one aes) (contents m key) (contents m val)) = s_len key)
    by (rewrite zip_length; rewrite !contents_length; auto).
  eapply upto_written; [ | rewrite LZ; exact U]. intros j Hj. rewrite LZ in Hj.
  rewrite zip_nth; rewrite ?contents_length; auto. rewrite !contents_nth by lia. reflexivity.
Qed.

(* ---------------- bytes ---------------- *)
Lemma chunks_aux_fuel : forall (A : Type) n (f : nat) (l : list A), 0 < n -> length l <= f -> chunks_aux f n l = chunks_aux (length l) n l.
Proof.
  intros A n f. induction f as [f IH] using lt_wf_ind. intros l Hn Hl.
  destruct l as [ | x l]; [now destruct f | ]. destruct f as [ | f]; [cbn in Hl; lia | ].
  cbn [chunks_aux length]. f_equal.
  assert (LS : length (skipn n (x :: l)) <= length l) by (rewrite skipn_length; cbn [length]; lia).
  cbn [length] in Hl. rewrite (IH f) by lia. destruct (Nat.eq_dec (length l) f) as [-> | NE].
  - symmetry. apply IH; lia.
  - symmetry. apply IH; lia.
Qed.

Lemma chunks_cons : forall (A : Type) n (l : list A), 0 < n -> l <> [] -> chunks n l = firstn n l :: chunks n (skipn n l).
Proof.
  intros A n l Hn NE. unfold chunks at 1. destruct l as [ | x l]; [congruence | ]. cbn [length chunks_aux]. f_equal.
  apply chunks_aux_fuel; [exact Hn | ]. rewrite skipn_length. cbn [length]. lia.
Qed.

Lemma chunks_app : forall (A : Type) n k (a b : list A), 0 < n -> length a = k * n -> chunks n (a ++ b) = chunks n a ++ chunks n b.
Proof.
  intros A n k. induction k as [ | k IH]; intros a b Hn L.
  - destruct a; [reflexivity | discriminate L].
  - cbn [Nat.mul] in L. assert (NA : a <> []) by (intros ->; cbn in L; lia).
    rewrite (chunks_cons A n a Hn NA). rewrite (chunks_cons A n (a ++ b) Hn).
    2:{ destruct a; [congruence | discriminate]. }
    rewrite firstn_app, skipn_app. replace (n - length a) with 0 by lia. cbn [firstn skipn]. rewrite app_nil_r.
    rewrite IH; [reflexivity | exact Hn | ]. rewrite skipn_length. lia.
Qed.

Lemma flat_chunks_length : forall (aes : list N -> list N) n k l, 0 < n -> (forall b, length b = n -> length (aes b) = n) ->
  length l = k * n -> length (flat_map aes (chunks n l)) = length l.
Proof.
  intros aes n k. induction k as [ | k IH]; intros l Hn HA L.
  - destruct l; [reflexivity | discriminate L].
  - cbn [Nat.mul] in L. assert (NA : l <> []) by (intros ->; cbn in L; lia).
    rewrite (chunks_cons N n l Hn NA). cbn [flat_map]. rewrite app_length, IH; auto.
    + rewrite HA by (rewrite firstn_length; lia). rewrite skipn_length. lia.
    + rewrite skipn_length. lia.
Qed.

Lemma map_nth_seq : forall (l a b : list N), map (fun j => nth j (a ++ l ++ b) 0%N) (seq (length a) (length l)) = l.
Proof.
  intros l. induction l as [ | x l IH]; intros a b; [reflexivity | ].
  cbn [length seq map]. f_equal.
  - rewrite app_nth2 by lia. now rewrite Nat.sub_diag.
  - specialize (IH (a ++ [x]) b). rewrite app_length in IH. cbn [length] in IH. rewrite Nat.add_1_r in IH.
    rewrite <- IH at 2. apply map_ext. intros j. f_equal. now rewrite <- app_assoc.
Qed.

Lemma split3 : forall (w : list N) i n, i + n <= length w ->
  exists a l b, w = a ++ l ++ b /\ length a = i /\ length l = n.
Proof.
  intros w i n H. exists (firstn i w), (firstn n (skipn i w)), (skipn n (skipn i w)).
  rewrite firstn_skipn, firstn_skipn. split; [reflexivity | ].
  rewrite !firstn_length, skipn_length. lia.
Qed.

Lemma contents_slice : forall m p a l b, contents m p = a ++ l ++ b ->
  map (fun j => m (s_at p + j)) (seq (length a) (length l)) = l.
Proof.
  intros m p a l b H. transitivity (map (fun j => nth j (a ++ l ++ b) 0%N) (seq (length a) (length l))); [ | apply map_nth_seq]. apply map_ext_in. intros j Hj. apply in_seq in Hj.
  rewrite <- H. symmetry. apply contents_nth. rewrite <- (contents_length m p), H, !app_length. lia.
Qed.

Lemma bytes_exact : forall aes m p c, (forall b, length b = k_block -> length (aes b) = k_block) ->
  same_or_apart p c -> s_len p <= s_len c -> Nat.divide k_block (s_len p) ->
  exists m', cr_hash_bytes aes m p c = Ok m' /\
    written m m' c (zip N.lxor (flat_map aes (chunks k_block (contents m p))) (contents m p)).
Proof.
  intros aes m p c HA S L D. unfold cr_hash_bytes.
  assert (BP : 0 < k_block) by (unfold k_block; lia).
  assert (FL : forall l, Nat.divide k_block (length l) -> length (flat_map aes (chunks k_block l)) = length l).
  { intros l [k Hk]. exact (flat_chunks_length aes k_block k l BP HA Hk). }
  apply cr_hash_written; auto.
  - unfold k_batch, k_block. lia.
  - rewrite FL; rewrite contents_length; auto.
  - intros i n DI H HN.
    assert (DI' : Nat.divide k_block i).
    { destruct DI as [z ->]. exists (z * k_batch). lia. }
    assert (DN : Nat.divide k_block n).
    { destruct HN as [-> | HN]; [exists k_batch; reflexivity | ].
      apply (Nat.divide_add_cancel_r k_block i n DI'). now rewrite HN. }
    destruct (split3 (contents m p) i n) as (a & l & b & Ew & La & Ll); [now rewrite contents_length | ].
    subst i n. rewrite (contents_slice m p a l b Ew).
    unfold enc_bytes. destruct DN as [kn Hkn]. destruct DI' as [ki Hki].
    rewrite Hkn, Nat.mod_mul by (unfold k_block; lia). cbn [Nat.eqb enforce]. f_equal.
    rewrite Ew. rewrite (chunks_app N k_block ki a (l ++ b) BP Hki), (chunks_app N k_block kn l b BP Hkn).
    rewrite !flat_map_app.
    assert (LA : length (flat_map aes (chunks k_block a)) = length a) by (apply FL; exists ki; exact Hki).
    assert (LL : length (flat_map aes (chunks k_block l)) = length l) by (apply FL; exists kn; exact Hkn).
    rewrite <- LA, <- Hkn, <- LL. symmetry. apply map_nth_seq.
Qed.

(** The last, partial batch is refused. *)
Lemma rd_many_length : forall m s n i l, rd_many m s i n = Ok l -> length l = n.
Proof.
  intros m s n. induction n as [ | n IH]; intros i l H; cbn [rd_many] in H; [now injection H as <- | ].
  destruct (rd m s i); try discriminate H. cbn [bind] in H.
  destruct (rd_many m s (S i) n) as [r | | | ] eqn:E; try discriminate H. injection H as <-. cbn. now rewrite (IH _ _ E).
Qed.

Lemma bytes_refused : forall aes m p c m', cr_hash_bytes aes m p c = Ok m' -> Nat.divide k_block (s_len p).
Proof.
  intros aes m p c m'. unfold cr_hash_bytes, cr_hash. set (q := s_len p / (k_batch * k_block)). cbv zeta.
  destruct (cr_batches (enc_bytes aes) (k_batch * k_block) q m p c 0) as [m1 | | | ]; try discriminate. cbn [bind].
  assert (Q : q * (k_batch * k_block) <= s_len p) by (unfold q; rewrite Nat.mul_comm; apply Nat.mul_div_le; unfold k_batch, k_block; lia).
  destruct (Nat.ltb (q * (k_batch * k_block)) (s_len p)) eqn:T.
  - unfold cr_step. intros H.
    destruct (rd_many m1 p (q * (k_batch * k_block)) (s_len p - q * (k_batch * k_block))) as [pl | | | ] eqn:R; try discriminate H.
    cbn [bind] in H. apply rd_many_length in R. unfold enc_bytes in H.
    destruct (Nat.eqb (length pl mod k_block) 0) eqn:Z; [ | discriminate H].
    apply Nat.eqb_eq in Z. rewrite R in Z. apply Nat.mod_divide in Z; [ | unfold k_block; lia].
    replace (s_len p) with (q * (k_batch * k_block) + (s_len p - q * (k_batch * k_block))) by lia.
    apply Nat.divide_add_r; [exists (q * k_batch); lia | exact Z].
  - intros _. apply Nat.ltb_ge in T. exists (q * k_batch). lia.
Qed.
