(** Lemmas about the truncated transfer and the matching of RR22. *)
From Coq Require Import List NArith Arith Bool Lia Sorting.Permutation.
From Verif Require Import Base BaseProofs StoreModel StoreProofs Rr22MatchModel Rr22MatchSpec.
Import ListNotations.
Local Open Scope N_scope.

Lemma to_bytes_len : forall k v, length (to_bytes k v) = k.
Proof. induction k; intros; cbn [to_bytes length]; auto. Qed.
Lemma firstn_to_bytes : forall k n v, (k <= n)%nat -> firstn k (to_bytes n v) = to_bytes k v.
Proof.
  induction k as [|k IH]; intros [|n] v H; cbn [to_bytes firstn]; try reflexivity; try lia.
  rewrite IH by lia. reflexivity.
Qed.
Lemma of_to_bytes : forall k v, of_bytes (to_bytes k v) = v mod 2 ^ (8 * N.of_nat k).
Proof.
  induction k as [|k IH]; intros v.
  - cbn [to_bytes of_bytes]. rewrite N.mul_0_r, N.pow_0_r, N.mod_1_r. reflexivity.
  - cbn [to_bytes of_bytes]. rewrite IH.
    replace (8 * N.of_nat (S k)) with (8 + 8 * N.of_nat k) by lia.
    rewrite N.pow_add_r. change (2 ^ 8) with 256.
    rewrite N.mod_mul_r; [reflexivity | lia | apply N.pow_nonzero; lia].
Qed.

Lemma skipn_skipn' : forall (A : Type) a b (l : list A), skipn a (skipn b l) = skipn (a + b) l.
Proof.
  intros A a b l. revert l. induction b as [|b IH]; intros l.
  - rewrite Nat.add_0_r. reflexivity.
  - rewrite Nat.add_succ_r. destruct l as [|x l]; [rewrite !skipn_nil; reflexivity|]. cbn [skipn]. apply IH.
Qed.

Lemma compact_inv : forall m oprfs todo i mem, (m <= 16)%nat ->
  (i + todo = length oprfs)%nat -> length mem = (16 * length oprfs)%nat ->
  firstn (i * m) mem = concat (map (to_bytes m) (firstn i oprfs)) ->
  skipn (16 * i) mem = skipn (16 * i) (concat (map u128_bytes oprfs)) ->
  firstn (length oprfs * m) (compact todo i m mem) = concat (map (to_bytes m) oprfs).
Proof.
  intros m oprfs todo. induction todo as [|k IH]; intros i mem Hm Hi HL HF HS.
  - cbn [compact]. assert (i = length oprfs) by lia. subst i. rewrite HF, firstn_all. reflexivity.
  - cbn [compact].
    assert (HN : exists v, nth_error oprfs i = Some v).
    { destruct (nth_error oprfs i) eqn:E; [eauto|]. apply nth_error_None in E. lia. }
    destruct HN as [v HN].
    destruct (nth_error_split _ _ HN) as (l1 & l2 & El & Ll).
    assert (Len : forall l, length (concat (map u128_bytes l)) = (16 * length l)%nat).
    { induction l as [|z r IHl]; [reflexivity|]. cbn [map concat]. rewrite app_length, IHl.
      unfold u128_bytes. rewrite to_bytes_len. cbn [length]. lia. }
    assert (Sk : skipn (16 * i) mem = u128_bytes v ++ concat (map u128_bytes l2)).
    { rewrite HS, El, map_app, concat_app, skipn_app, Len.
      replace (16 * i - 16 * length l1)%nat with 0%nat by lia.
      rewrite skipn_all2 by (rewrite Len; lia). reflexivity. }
    assert (Fi : firstn m (skipn (16 * i) mem) = to_bytes m v).
    { rewrite Sk. rewrite firstn_app. unfold u128_bytes at 2. rewrite to_bytes_len.
      replace (m - 16)%nat with 0%nat by lia. cbn [firstn]. rewrite app_nil_r.
      apply firstn_to_bytes. exact Hm. }
    assert (Lf : length (firstn (i * m) mem) = (i * m)%nat).
    { rewrite firstn_length. nia. }
    assert (LM : length (mem_copy mem (i * m) (16 * i) m) = length mem).
    { unfold mem_copy. rewrite Fi, !app_length, Lf, to_bytes_len, skipn_length. nia. }
    apply IH; try lia.
    + unfold mem_copy. rewrite Fi. rewrite firstn_app, Lf.
      replace (S i * m - i * m)%nat with m by lia.
      rewrite (firstn_all2 (firstn (i * m) mem)) by lia.
      rewrite firstn_app, to_bytes_len, Nat.sub_diag, (firstn_all2 (to_bytes m v)) by (rewrite to_bytes_len; lia).
      rewrite firstn_O, app_nil_r, HF.
      rewrite El. rewrite (firstn_app (S i) l1 (v :: l2)). rewrite (firstn_app i l1 (v :: l2)).
      rewrite !(firstn_all2 l1) by lia.
      replace (i - length l1)%nat with 0%nat by lia. replace (S i - length l1)%nat with 1%nat by lia.
      cbn [firstn]. rewrite app_nil_r, map_app, concat_app. cbn [map concat]. rewrite app_nil_r. reflexivity.
    + unfold mem_copy. rewrite Fi.
      assert (Q : forall (a b c : list N) n, (length a + length b <= n)%nat ->
                  skipn n (a ++ b ++ c) = skipn (n - (length a + length b)) c).
      { intros a b c n Hn. rewrite skipn_app, skipn_all2 by lia. cbn [app].
        rewrite skipn_app, skipn_all2 by lia. cbn [app]. f_equal. lia. }
      rewrite Q by (rewrite Lf, to_bytes_len; nia).
      rewrite Lf, to_bytes_len, skipn_skipn'.
      replace (16 * S i - (i * m + m) + (i * m + m))%nat with (16 + 16 * i)%nat by nia.
      replace (16 * S i)%nat with (16 + 16 * i)%nat by lia.
      rewrite <- !(skipn_skipn' _ 16 (16 * i)). rewrite HS. reflexivity.
Qed.

Lemma u128_concat_len : forall l, length (concat (map u128_bytes l)) = (16 * length l)%nat.
Proof.
  induction l as [|z r IHl]; [reflexivity|]. cbn [map concat]. rewrite app_length, IHl.
  unfold u128_bytes. rewrite to_bytes_len. cbn [length]. lia.
Qed.
Lemma sender_bytes_ok : forall m oprfs, (m <= 16)%nat ->
  sender_bytes m oprfs = concat (map (to_bytes m) oprfs).
Proof.
  intros m oprfs Hm. unfold sender_bytes. destruct (Nat.eqb_spec m 16) as [->|Hne].
  - rewrite firstn_all2 by (rewrite u128_concat_len; lia). reflexivity.
  - apply compact_inv; auto; try lia; [apply u128_concat_len].
Qed.
Lemma trunc_concat_len : forall m l, length (concat (map (to_bytes m) l)) = (length l * m)%nat.
Proof.
  intros m l. induction l as [|z r IHl]; [reflexivity|]. cbn [map concat length].
  rewrite app_length, IHl, to_bytes_len. lia.
Qed.
Lemma read_item_ok : forall m l j v, nth_error l j = Some v ->
  read_item m (concat (map (to_bytes m) l)) j = v mod 2 ^ (8 * N.of_nat m).
Proof.
  intros m l j v H. destruct (nth_error_split _ _ H) as (a & b & -> & La).
  unfold read_item. rewrite map_app, concat_app, skipn_app, trunc_concat_len.
  rewrite skipn_all2 by (rewrite trunc_concat_len; lia). cbn [app].
  replace (j * m - length a * m)%nat with 0%nat by (rewrite La; lia). cbn [skipn map concat].
  rewrite firstn_app, to_bytes_len, Nat.sub_diag. cbn [firstn]. rewrite app_nil_r.
  rewrite firstn_all2 by (rewrite to_bytes_len; lia). apply of_to_bytes.
Qed.

(** Chunked transfer. *)
Lemma firstn_plus : forall A (l : list A) a b, firstn (a + b) l = firstn a l ++ firstn b (skipn a l).
Proof.
  intros A l a. revert l. induction a as [|a IH]; intros [|x l] b; try reflexivity.
  - cbn [plus firstn skipn]. rewrite firstn_nil. reflexivity.
  - cbn [plus firstn skipn app]. rewrite IH. reflexivity.
Qed.
Lemma recv_chunks_ok : forall fuel i chunk m n mem buf, (0 < chunk)%nat -> (0 < m)%nat ->
  length mem = (n * m)%nat -> length buf = (n * m)%nat -> (n < fuel + i)%nat ->
  firstn (i * m) buf = firstn (i * m) mem ->
  recv_chunks n m i buf (send_chunks fuel i chunk m n mem) = Ok (mem, []).
Proof.
  induction fuel as [|f IH]; intros i chunk m n mem buf Hc Hm HM HB HF HE.
  - cbn [send_chunks recv_chunks]. destruct (Nat.ltb_spec i n); [lia|].
    rewrite !firstn_all2 in HE by nia. subst. reflexivity.
  - cbn [send_chunks]. destruct (Nat.ltb_spec i n) as [Hi|Hi].
    + set (k := Nat.min chunk (n - i)). assert (K : (0 < k <= n - i)%nat) by (unfold k; lia).
      set (b := firstn (k * m) (skipn (i * m) mem)).
      assert (Lb : length b = (k * m)%nat) by (unfold b; rewrite firstn_length, skipn_length; nia).
      cbn [recv_chunks]. destruct (Nat.ltb_spec i n); [|lia].
      rewrite Lb. destruct (Nat.ltb_spec (length buf) (i * m + k * m)) as [X|_]; [nia|].
      rewrite Nat.div_mul by lia.
      assert (E : send_chunks f (i + chunk) chunk m n mem = send_chunks f (i + k) chunk m n mem \/ (n <= i + chunk)%nat /\ (i + k = n)%nat)
        by (unfold k; destruct (Nat.min_spec chunk (n - i)) as [[? ->]|[? ->]]; [left; reflexivity|right; lia]).
      assert (LB : length (firstn (i * m) buf ++ b ++ skipn (i * m + k * m) buf) = (n * m)%nat).
      { rewrite !app_length, firstn_length, skipn_length, Lb. nia. }
      assert (HE' : firstn ((i + k) * m) (firstn (i * m) buf ++ b ++ skipn (i * m + k * m) buf) = firstn ((i + k) * m) mem).
      { rewrite app_assoc, firstn_app.
        assert (LL : length (firstn (i * m) buf ++ b) = ((i + k) * m)%nat) by (rewrite app_length, firstn_length, Lb; nia).
        rewrite LL, Nat.sub_diag. cbn [firstn]. rewrite app_nil_r, firstn_all2 by lia.
        rewrite HE. replace ((i + k) * m)%nat with (i * m + k * m)%nat by lia. rewrite firstn_plus. reflexivity. }
      destruct E as [E | [E1 E2]].
      * rewrite E. apply IH; auto; lia.
      * assert (Z : send_chunks f (i + chunk) chunk m n mem = []).
        { destruct f; cbn [send_chunks]; [reflexivity|]. destruct (Nat.ltb_spec (i + chunk) n); [lia|reflexivity]. }
        rewrite Z. cbn [recv_chunks]. destruct (Nat.ltb_spec (i + k) n); [lia|].
        f_equal. f_equal. rewrite firstn_all2 in HE' by nia. rewrite HE'. apply firstn_all2. nia.
    + cbn [recv_chunks]. destruct (Nat.ltb_spec i n); [lia|].
      rewrite !firstn_all2 in HE by nia. subst. reflexivity.
Qed.

(** The mask. *)
Lemma truncate_mask_ones : forall m, (m <= 16)%nat -> truncate_mask m = N.ones (8 * N.of_nat m).
Proof.
  intros m H. do 17 (destruct m as [|m]; [reflexivity|]). lia.
Qed.
Lemma map_key_ok : forall m v, (m <= 16)%nat -> v < 2 ^ 128 -> map_key m v = v mod 2 ^ (8 * N.of_nat m).
Proof.
  intros m v Hm Hv. unfold map_key. destruct (Nat.eqb_spec m 16) as [->|_].
  - change (8 * N.of_nat 16) with 128. rewrite N.mod_small; auto.
  - rewrite truncate_mask_ones by auto. apply N.land_ones.
Qed.

(** Counts. *)
Lemma cnt_get_map : forall l i j, cnt_get (cnt_map i l) j = if Nat.ltb j i then 0 else nth (j - i) l 0.
Proof.
  induction l as [|c r IH]; intros i j.
  - cbn [cnt_map cnt_get]. destruct (Nat.ltb j i); [|destruct (j - i)%nat]; reflexivity.
  - cbn [cnt_map]. specialize (IH (S i) j). destruct (N.ltb_spec 0 c) as [Hc|Hc].
    + cbn [cnt_get]. destruct (Nat.eqb_spec i j) as [<-|Hne].
      * rewrite Nat.sub_diag. destruct (Nat.ltb_spec i i); [lia|]. reflexivity.
      * rewrite IH. destruct (Nat.ltb_spec j (S i)), (Nat.ltb_spec j i); try lia; auto.
        replace (j - i)%nat with (S (j - S i)) by lia. reflexivity.
    + rewrite IH. destruct (Nat.ltb_spec j (S i)), (Nat.ltb_spec j i); try lia; auto.
      * replace (j - i)%nat with 0%nat by lia. cbn [nth]. lia.
      * replace (j - i)%nat with (S (j - S i)) by lia. reflexivity.
Qed.
Lemma cnt_fold : forall l pre,
  fold_left (fun v e => upd (fst e) (fun _ : N => snd e) v) (cnt_map (length pre) l) (pre ++ repeat 0 (length l)) = pre ++ l.
Proof.
  induction l as [|c r IH]; intros pre; [reflexivity|].
  cbn [cnt_map length repeat].
  assert (U : forall p x t, upd (length p) (fun _ : N => c) (p ++ x :: t) = p ++ c :: t).
  { induction p as [|y p IHp]; intros; cbn [length upd app]; [reflexivity|]. rewrite IHp. reflexivity. }
  specialize (IH (pre ++ [c])). rewrite app_length, Nat.add_1_r, <- !app_assoc in IH. cbn [app] in IH.
  destruct (N.ltb_spec 0 c) as [Hc|Hc].
  - cbn [fold_left fst snd]. rewrite U. exact IH.
  - assert (c = 0) by lia. subst c. exact IH.
Qed.

(** The receiver's map. *)
Lemma dense_find_app : forall a b k, dense_find (a ++ b) k = match dense_find a k with Some i => Some i | None => dense_find b k end.
Proof. induction a as [|[k' i] r IH]; intros; cbn [app dense_find]; [reflexivity|]. destruct (k =? k'); auto. Qed.
Lemma dense_build_ok : forall m l i mp, (forall v, In v l -> map_key m v <> 0) ->
  exists mp', dense_build m i l mp = Ok mp' /\
  forall k, dense_find mp' k =
    match dense_find mp k with
    | Some x => Some x
    | None => dense_find (combine (map (map_key m) l) (seq i (length l))) k
    end.
Proof.
  intros m l. induction l as [|v r IH]; intros i mp Hnz.
  - exists mp. split; [reflexivity|]. intros k. cbn. destruct (dense_find mp k); reflexivity.
  - cbn [dense_build]. destruct (N.eqb_spec (map_key m v) 0) as [E|_]; [exfalso; apply (Hnz v); [left; reflexivity|exact E]|].
    assert (Hr : forall v, In v r -> map_key m v <> 0) by (intros; apply Hnz; right; assumption).
    destruct (IH (S i) (match dense_find mp (map_key m v) with Some _ => mp | None => mp ++ [(map_key m v, i)] end) Hr)
      as (mp' & E & F).
    exists mp'. split; [exact E|]. intros k. rewrite F. cbn [map length seq combine dense_find].
    destruct (dense_find mp (map_key m v)) as [x|] eqn:D.
    + destruct (N.eqb_spec k (map_key m v)) as [->|]; [rewrite D; reflexivity|reflexivity].
    + rewrite dense_find_app. destruct (dense_find mp k); [reflexivity|]. cbn [dense_find].
      destruct (k =? map_key m v); reflexivity.
Qed.
Lemma dense_find_combine : forall ks i k x, NoDup ks ->
  dense_find (combine ks (seq i (length ks))) k = Some x <-> (i <= x)%nat /\ nth_error ks (x - i) = Some k.
Proof.
  induction ks as [|y r IH]; intros i k x ND.
  - cbn. split; [discriminate|]. intros [_ H]. destruct (x - i)%nat; discriminate.
  - apply NoDup_cons_iff in ND. destruct ND as [Hy ND]. cbn [length seq combine dense_find].
    destruct (N.eqb_spec k y) as [->|Hne].
    + split.
      * intros H. injection H as <-. rewrite Nat.sub_diag. split; [lia|reflexivity].
      * intros [H1 H2]. destruct (x - i)%nat as [|d] eqn:E; [f_equal; lia|].
        cbn [nth_error] in H2. exfalso. apply Hy. eapply nth_error_In; eauto.
    + rewrite IH by auto. split.
      * intros [H1 H2]. split; [lia|]. replace (x - i)%nat with (S (x - S i)) by lia. exact H2.
      * intros [H1 H2]. destruct (x - i)%nat as [|d] eqn:E.
        { cbn [nth_error] in H2. congruence. }
        split; [lia|]. replace (x - S i)%nat with d by lia. exact H2.
Qed.

(** The workers. *)
Section Workers.
Variables (m : nat) (buf : list N) (mp : list (N * nat)) (pc : list (nat * N)) (sc : list N) (bc : bool).
Definition hit (j : nat) : list rmatch :=
  match dense_find mp (read_item m buf j) with
  | Some i => [mk_match i (cnt_get pc j) j (nth i sc 0)]
  | None => []
  end.
Variable n : nat.
Hypothesis Hnz : forall j, (j < n)%nat -> read_item m buf j <> 0.
Hypothesis Hi : forall j i, (j < n)%nat -> dense_find mp (read_item m buf j) = Some i -> (i < length sc)%nat.

Lemma worker_ok : forall todo j, (j + todo <= n)%nat ->
  worker m buf mp pc sc bc j todo = Ok (flat_map hit (seq j todo)).
Proof using Hnz Hi.
  induction todo as [|k IH]; intros j H; [reflexivity|].
  cbn [worker seq flat_map]. destruct (N.eqb_spec (read_item m buf j) 0) as [E|_]; [exfalso; apply (Hnz j); [lia|exact E]|].
  unfold hit at 1. destruct (dense_find mp (read_item m buf j)) as [i|] eqn:D.
  - rewrite IH by lia. assert (L : Nat.ltb i (length sc) = true) by (apply Nat.ltb_lt; apply (Hi j); [lia|exact D]).
    rewrite L, orb_true_r. reflexivity.
  - rewrite IH by lia. reflexivity.
Qed.
Lemma run_workers_ok : forall ranges,
  (forall r, In r ranges -> (snd r - fst r = 0 \/ snd r <= n)%nat) ->
  run_workers m buf mp pc sc bc ranges = Ok (flat_map hit (flat_map (fun r => seq (fst r) (snd r - fst r)) ranges)).
Proof using Hnz Hi.
  induction ranges as [|[b e] r IH]; intros H; [reflexivity|].
  cbn [run_workers flat_map fst snd].
  assert (W : worker m buf mp pc sc bc b (e - b) = Ok (flat_map hit (seq b (e - b)))).
  { destruct (H (b, e) (or_introl eq_refl)) as [Z|Z]; cbn [fst snd] in Z.
    - rewrite Z. reflexivity.
    - destruct (Nat.le_gt_cases b e); [apply worker_ok; lia|]. replace (e - b)%nat with 0%nat by lia. reflexivity. }
  rewrite W. cbn [bind]. rewrite IH by (intros; apply H; right; assumption). cbn [bind].
  rewrite flat_map_app. reflexivity.
Qed.
End Workers.

Lemma covers_bound : forall n ranges r, covers n ranges -> In r ranges -> (snd r - fst r = 0 \/ snd r <= n)%nat.
Proof.
  intros n ranges [b e] C I. cbn [fst snd]. destruct (Nat.le_gt_cases e b); [left; lia|right].
  assert (X : In (e - 1)%nat (flat_map (fun r => seq (fst r) (snd r - fst r)) ranges)).
  { apply in_flat_map. exists (b, e). split; [exact I|]. cbn [fst snd]. apply in_seq. lia. }
  apply (Permutation_in _ C) in X. apply in_seq in X. lia.
Qed.
Lemma covers_perm : forall (A : Type) n ranges (f : nat -> list A), covers n ranges ->
  Permutation (flat_map f (flat_map (fun r => seq (fst r) (snd r - fst r)) ranges)) (flat_map f (seq 0 n)).
Proof. intros A n ranges f C. apply Permutation_flat_map. exact C. Qed.
