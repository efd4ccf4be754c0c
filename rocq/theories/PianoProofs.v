(** Proofs about PIANO: results. *)
From Coq Require Import List NArith Bool Arith Lia Permutation.
From Verif Require Import Base BaseProofs Text Rr22MatchModel OkvsModel OkvsProofs PianoModel.
Import ListNotations.

(** ** Lists *)
Lemma upd_length : forall {A} i (x : A) l, length (pn_upd i x l) = length l.
Proof. intros A i x l. revert i. induction l as [|y r IH]; intros [|i]; cbn; auto. Qed.
Lemma upd_same : forall {A} i (x : A) l, i < length l -> nth_error (pn_upd i x l) i = Some x.
Proof. intros A i x l. revert i. induction l as [|y r IH]; intros [|i] H; cbn in *; try lia; auto. apply IH. lia. Qed.
Lemma upd_other : forall {A} i k (x : A) l, k <> i -> nth_error (pn_upd i x l) k = nth_error l k.
Proof. intros A i k x l. revert i k. induction l as [|y r IH]; intros [|i] [|k] H; cbn; auto; try lia. Qed.
Lemma upd_nth : forall {A} i (x d : A) l, i < length l -> nth i (pn_upd i x l) d = x.
Proof. intros A i x d l H. apply nth_error_nth, upd_same, H. Qed.
Lemma nth_nth_error : forall {A} (l l' : list A) k d, nth_error l k = nth_error l' k -> nth k l d = nth k l' d.
Proof. intros A l. induction l as [|x r IH]; intros [|y r'] [|k] d H; cbn in *; try discriminate; try reflexivity; try congruence.
  - destruct (nth_error r' k) eqn:E; [discriminate|]. apply nth_error_None in E. symmetry. apply nth_overflow. exact E.
  - destruct (nth_error r k) eqn:E; [discriminate|]. apply nth_error_None in E. apply nth_overflow. exact E.
  - apply IH. exact H. Qed.
Lemma upd_nth_other : forall {A} i k (x d : A) l, k <> i -> nth k (pn_upd i x l) d = nth k l d.
Proof. intros. apply nth_nth_error, upd_other. assumption. Qed.
Lemma pn_get_ok : forall {A} (l : list A) i d, i < length l -> pn_get l i = Ok (nth i l d).
Proof. intros A l i d H. unfold pn_get. rewrite (nth_error_nth' l d H). reflexivity. Qed.
Lemma upd_self : forall {A} i (d : A) l, pn_upd i (nth i l d) l = l.
Proof. intros A i d l. revert i. induction l as [|y r IH]; intros [|i]; cbn; auto. f_equal. apply IH. Qed.
Lemma upd_upd : forall {A} i (x y : A) l, pn_upd i x (pn_upd i y l) = pn_upd i x l.
Proof. intros A i x y l. revert i. induction l as [|z r IH]; intros [|i]; cbn; auto. f_equal. apply IH. Qed.
Lemma upd_comm : forall {A} i k (x y : A) l, i <> k -> pn_upd i x (pn_upd k y l) = pn_upd k y (pn_upd i x l).
Proof. intros A i k x y l. revert i k. induction l as [|z r IH]; intros [|i] [|k] H; cbn; auto; try lia. f_equal. apply IH. lia. Qed.
Lemma upd_In : forall {A} i (x : A) l y, In y (pn_upd i x l) -> y = x \/ In y l.
Proof. intros A i x l. revert i. induction l as [|z r IH]; intros [|i] y H; cbn in *; try tauto.
  - destruct H as [H|H]; auto.
  - destruct H as [H|H]; auto. apply IH in H. tauto. Qed.
Lemma Forall_upd : forall {A} (P : A -> Prop) i x l, Forall P l -> P x -> Forall P (pn_upd i x l).
Proof. intros A P i x l F Hx. rewrite Forall_forall in *. intros y Hy. apply upd_In in Hy. destruct Hy as [->|Hy]; auto. Qed.
Lemma map_upd : forall {A B} (f : A -> B) i x l, map f (pn_upd i x l) = pn_upd i (f x) (map f l).
Proof. intros A B f i x l. revert i. induction l as [|z r IH]; intros [|i]; cbn; auto. f_equal. apply IH. Qed.

Lemma skipn_add : forall {A} a b (l : list A), skipn a (skipn b l) = skipn (b + a) l.
Proof. intros A a b. induction b as [|b IH]; intros l; [reflexivity|]. destruct l as [|x r]; cbn; [destruct a; reflexivity|apply IH]. Qed.

(** ** Entries *)
Definition px (a b : pn_entry) : pn_entry := map (fun xy => N.lxor (fst xy) (snd xy)) (combine a b).
Lemma pn_xor_ok : forall a b, length a = length b -> pn_xor a b = Ok (px a b).
Proof. intros a b H. unfold pn_xor. rewrite H, Nat.eqb_refl. reflexivity. Qed.
Lemma px_len : forall a b n, length a = n -> length b = n -> length (px a b) = n.
Proof. intros. unfold px. rewrite map_length, combine_length. lia. Qed.
Lemma px_comm : forall a b, px a b = px b a.
Proof. induction a as [|x r IH]; intros [|y s]; cbn; auto. unfold px in *. cbn. rewrite N.lxor_comm. f_equal. apply IH. Qed.
Lemma px_assoc : forall a b c, px a (px b c) = px (px a b) c.
Proof. unfold px. induction a as [|x r IH]; intros [|y s] [|z t]; cbn; auto. rewrite N.lxor_assoc. f_equal. apply IH. Qed.
Lemma px_nilp : forall a, px a a = pn_zero (length a).
Proof. unfold px. induction a as [|x r IH]; cbn; auto. rewrite N.lxor_nilpotent. f_equal. apply IH. Qed.
Lemma px_0_l : forall a n, length a = n -> px (pn_zero n) a = a.
Proof. unfold px, pn_zero. induction a as [|x r IH]; intros n <-; cbn; auto. f_equal. apply IH. reflexivity. Qed.
Lemma zero_len : forall n, length (pn_zero n) = n. Proof. intros. apply repeat_length. Qed.
Lemma px_cancel : forall a b n, length a = n -> length b = n -> px a (px a b) = b.
Proof. intros a b n Ha Hb. rewrite px_assoc, px_nilp, Ha. apply px_0_l. exact Hb. Qed.

Definition xsum (n : nat) (l : list pn_entry) : pn_entry := fold_right px (pn_zero n) l.
Lemma xsum_len : forall n l, (forall e, In e l -> length e = n) -> length (xsum n l) = n.
Proof. induction l as [|e r IH]; cbn; intros H; [apply zero_len|]. apply px_len; [apply H; auto|apply IH; auto]. Qed.
Lemma xsum_perm : forall n l l', Permutation l l' -> xsum n l = xsum n l'.
Proof.
  unfold xsum. induction 1 as [|x l l' _ IH|x y l|l l' l'' _ IH1 _ IH2]; cbn [fold_right].
  - reflexivity.
  - rewrite IH. reflexivity.
  - rewrite !px_assoc, (px_comm y x). reflexivity.
  - congruence.
Qed.
Lemma xsum_app : forall n l l', (forall e, In e l' -> length e = n) -> xsum n (l ++ l') = px (xsum n l) (xsum n l').
Proof.
  intros n l l' H. unfold xsum. induction l as [|e r IH]; cbn [app fold_right].
  - symmetry. apply px_0_l, xsum_len, H.
  - rewrite IH, px_assoc. reflexivity.
Qed.
(** Changing one summand. *)
Lemma xsum_upd : forall n l i e, i < length l -> (forall x, In x l -> length x = n) -> length e = n ->
  xsum n (pn_upd i e l) = px (px (nth i l []) e) (xsum n l).
Proof.
  intros n l. induction l as [|y r IH]; intros [|i] e Hi H He; cbn in Hi; try lia; cbn [pn_upd xsum fold_right nth].
  - rewrite (px_comm y e), <- px_assoc. f_equal.
    symmetry. apply px_cancel with (n := n); [apply H; left; auto|]. apply xsum_len. intros x Hx. apply H. right. exact Hx.
  - fold (xsum n (pn_upd i e r)). fold (xsum n r). rewrite IH by (try lia; auto; intros; apply H; right; auto).
    rewrite !px_assoc. f_equal. rewrite (px_comm y), <- !px_assoc. f_equal. apply px_comm.
Qed.

(** ** Sizes *)
Lemma chunk_loop_pow : forall fuel c n, exists k, chunk_loop fuel c n = c * 2 ^ k.
Proof.
  induction fuel as [|f IH]; intros c n; cbn [chunk_loop]; [exists 0; cbn; lia|].
  destruct (Nat.ltb _ _); [|exists 0; cbn; lia].
  destruct (IH (c * 2) n) as [k ->]. exists (S k). cbn [Nat.pow]. lia.
Qed.
Lemma pn_low_lt : forall k w, pn_low (2 ^ k) w < 2 ^ k.
Proof.
  intros k w. unfold pn_low. assert (P : 2 ^ k <> 0) by (apply Nat.pow_nonzero; lia).
  replace (N.of_nat (2 ^ k - 1)) with (N.ones (N.of_nat k)).
  - rewrite N.land_ones. assert (N.lt (w mod 2 ^ N.of_nat k) (2 ^ N.of_nat k)) by (apply N.mod_lt, N.pow_nonzero; discriminate).
    replace (2 ^ k) with (N.to_nat (2 ^ N.of_nat k)); [lia|]. rewrite N2Nat.inj_pow, Nat2N.id. reflexivity.
  - rewrite N.ones_equiv. rewrite Nat2N.inj_sub, Nat2N.inj_pow. cbn. lia.
Qed.
Lemma pn_low_small : forall k a, a < 2 ^ k -> pn_low (2 ^ k) (N.of_nat a) = a.
Proof.
  intros k a H. unfold pn_low. assert (P : 2 ^ k <> 0) by (apply Nat.pow_nonzero; lia).
  replace (N.of_nat (2 ^ k - 1)) with (N.ones (N.of_nat k)).
  - rewrite N.land_ones. rewrite N.mod_small; [apply Nat2N.id|].
    replace 2%N with (N.of_nat 2) by reflexivity. rewrite <- Nat2N.inj_pow. lia.
  - rewrite N.ones_equiv. rewrite Nat2N.inj_sub, Nat2N.inj_pow. cbn. lia.
Qed.

Definition pn_chunk (num : nat) : nat := fst (chunk_params num).
Definition pn_sets (num : nat) : nat := snd (chunk_params num).
Definition pn_thr (threads : nat) : nat := if Nat.ltb 0 threads then threads else 1.

Section P.
Set Default Proof Using "All".
Variable prf : N -> N -> N.
Variables (db : list N) (num size threads tq bk : nat) (seed : N).
Hypothesis Ldb : length db = num * size.

Notation chunk := (pn_chunk num).
Notation sets := (pn_sets num).
Notation thr := (pn_thr threads).
Notation m1 := (round_up tq thr).
Notation m2 := (round_up bk thr).
Notation total := (chunk * sets).

Lemma chunk_pow : exists k, chunk = 2 ^ k.
Proof. unfold pn_chunk, chunk_params. cbn [fst]. destruct (chunk_loop_pow 64 1 num) as [k ->]. exists k. lia. Qed.
Lemma chunk_pos : 0 < chunk.
Proof. destruct chunk_pow as [k ->]. assert (2 ^ k <> 0) by (apply Nat.pow_nonzero; lia). lia. Qed.
Lemma low_lt : forall w, pn_low chunk w < chunk.
Proof. destruct chunk_pow as [k ->]. apply pn_low_lt. Qed.
Lemma off_lt : forall t i, pn_off prf chunk t i < chunk.
Proof. intros. apply low_lt. Qed.
Lemma num_total : num <= total.
Proof.
  pose proof chunk_pos as C. assert (E : sets = (num + chunk - 1) / chunk) by reflexivity. rewrite E.
  pose proof (Nat.div_mod (num + chunk - 1) chunk ltac:(lia)) as D.
  pose proof (Nat.mod_upper_bound (num + chunk - 1) chunk ltac:(lia)). lia.
Qed.
Lemma thr_pos : 0 < thr.
Proof. unfold pn_thr. destruct (Nat.ltb_spec 0 threads); lia. Qed.

(** ** The server *)
Definition full : list N := pv_db (pn_server_new db num size seed).
Definition ent (i : nat) : pn_entry := firstn size (skipn (i * size) full).
Lemma gen_entry_len : forall n k i, length (gen_entry n k i) = n.
Proof. intros. unfold gen_entry. rewrite map_length, seq_length. reflexivity. Qed.
Lemma concat_len : forall {A} (l : list (list A)) n, (forall x, In x l -> length x = n) -> length (concat l) = length l * n.
Proof. induction l as [|x r IH]; intros n H; cbn; [reflexivity|]. rewrite app_length, (IH n), (H x); auto; [left|intros; apply H; right]; auto. Qed.
Lemma server_eq : pn_server_new db num size seed =
  {| pv_db := full; pv_num := total; pv_size := size; pv_chunk := chunk; pv_sets := sets |}.
Proof.
  unfold full, pn_server_new. pose proof num_total as T.
  rewrite (surjective_pairing (chunk_params num)). fold (pn_chunk num) (pn_sets num).
  destruct (Nat.ltb_spec num (chunk * sets)); cbn [pv_db]; f_equal; lia.
Qed.
Lemma full_len : length full = total * size.
Proof.
  unfold full, pn_server_new. rewrite (surjective_pairing (chunk_params num)). fold (pn_chunk num) (pn_sets num).
  pose proof num_total as T.
  destruct (Nat.ltb_spec num total); cbn [pv_db].
  - rewrite app_length, Ldb. rewrite (concat_len _ size).
    + rewrite map_length, seq_length. nia.
    + intros x Hx. apply in_map_iff in Hx. destruct Hx as [i [<- _]]. apply gen_entry_len.
  - rewrite Ldb. nia.
Qed.
Lemma ent_db : forall i, i < num -> ent i = firstn size (skipn (i * size) db).
Proof.
  intros i Hi. unfold ent, full, pn_server_new. rewrite (surjective_pairing (chunk_params num)).
  destruct (Nat.ltb _ _); cbn [pv_db]; [|reflexivity].
  assert ((i + 1) * size <= num * size) by (apply Nat.mul_le_mono_r; lia).
  rewrite skipn_app, firstn_app. rewrite skipn_length, Ldb.
  replace (size - (num * size - i * size)) with 0 by nia. rewrite firstn_O, app_nil_r. reflexivity.
Qed.
Lemma slice_ok : forall (b : list N) o n, o + n <= length b -> pn_slice b o n = Ok (firstn n (skipn o b)).
Proof. intros b o n H. unfold pn_slice. apply Nat.leb_le in H. rewrite H. reflexivity. Qed.
Lemma ent_len : forall i, i < total -> length (ent i) = size.
Proof. intros i Hi. unfold ent. rewrite firstn_length, skipn_length, full_len. assert ((i + 1) * size <= total * size) by (apply Nat.mul_le_mono_r; lia). lia. Qed.
Lemma access_ok : forall i, i < total -> db_access (pn_server_new db num size seed) i = Ok (ent i).
Proof.
  intros i Hi. rewrite server_eq. unfold db_access. cbn [pv_num pv_db pv_size]. apply Nat.ltb_lt in Hi as Hb. rewrite Hb.
  apply slice_ok. rewrite full_len. assert ((i + 1) * size <= total * size) by (apply Nat.mul_le_mono_r; lia). lia.
Qed.
Lemma reply_ok : forall q p, (forall i, In i q -> i < total) -> length p = size ->
  reply_loop (pn_server_new db num size seed) q p = Ok (px p (xsum size (map ent q))).
Proof.
  induction q as [|i r IH]; intros p H Hp; cbn [reply_loop map xsum fold_right].
  - rewrite px_comm, px_0_l by exact Hp. reflexivity.
  - rewrite access_ok by (apply H; left; reflexivity). cbn [bind].
    assert (length (ent i) = size) by (apply ent_len, H; left; reflexivity).
    rewrite pn_xor_ok by congruence. cbn [bind]. rewrite IH.
    + rewrite <- px_assoc. reflexivity.
    + intros; apply H; right; assumption.
    + apply px_len; assumption.
Qed.
Lemma index_reply_ok : forall q, (forall i, In i q -> i < total) ->
  index_reply (pn_server_new db num size seed) q = Ok (xsum size (map ent q)).
Proof.
  intros q H. unfold index_reply. assert (E : pv_size (pn_server_new db num size seed) = size) by (rewrite server_eq; reflexivity).
  rewrite E, reply_ok by (auto using zero_len). rewrite px_0_l; [reflexivity|].
  apply xsum_len. intros e He. apply in_map_iff in He. destruct He as [i [<- Hi]]. apply ent_len, H, Hi.
Qed.
Definition cbytes (ci : nat) : list N := firstn (chunk * size) (skipn (ci * chunk * size) full).
Lemma chunk_bound : forall ci off, ci < sets -> off < chunk -> ci * chunk + off < total.
Proof. intros ci off H1 H2. assert ((ci + 1) * chunk <= sets * chunk) by (apply Nat.mul_le_mono_r; lia). lia. Qed.
Lemma cbytes_ok : forall ci, ci < sets -> get_db_chunk (pn_server_new db num size seed) ci = Ok (ci, cbytes ci) /\ length (cbytes ci) = chunk * size.
Proof.
  intros ci H. assert (B : ci * chunk * size + chunk * size <= total * size).
  { rewrite <- Nat.mul_add_distr_r. apply Nat.mul_le_mono_r. assert ((ci + 1) * chunk <= sets * chunk) by (apply Nat.mul_le_mono_r; lia). lia. }
  split.
  - unfold get_db_chunk. rewrite server_eq. cbn [pv_db pv_chunk pv_size]. rewrite slice_ok by (rewrite full_len; exact B). reflexivity.
  - unfold cbytes. rewrite firstn_length, skipn_length, full_len. lia.
Qed.
Lemma cbytes_slice : forall ci off, ci < sets -> off < chunk -> pn_slice (cbytes ci) (off * size) size = Ok (ent (ci * chunk + off)).
Proof.
  intros ci off H1 H2. destruct (cbytes_ok ci H1) as [_ L].
  assert ((off + 1) * size <= chunk * size) by (apply Nat.mul_le_mono_r; lia).
  rewrite slice_ok by lia. unfold cbytes, ent.
  rewrite skipn_firstn_comm, firstn_firstn, skipn_add. rewrite Nat.min_l by lia.
  replace ((ci * chunk + off) * size) with (ci * chunk * size + off * size) by ring. reflexivity.
Qed.

(** ** Preprocessing *)
Definition cell (t : N) (i : nat) : pn_entry := ent (i * chunk + pn_off prf chunk t i).
Lemma cell_len : forall t i, i < sets -> length (cell t i) = size.
Proof. intros. apply ent_len, chunk_bound; [assumption|apply off_lt]. Qed.
Definition bump (ci : nat) (s : pn_set) : pn_set :=
  {| ps_tag := ps_tag s; ps_parity := px (ps_parity s) (cell (ps_tag s) ci); ps_point := ps_point s; ps_prog := ps_prog s |}.
Definition hits (ci : nat) (ss : list pn_set) (hit : list bool) : list bool :=
  fold_left (fun h s => pn_upd (pn_off prf chunk (ps_tag s) ci) true h) ss hit.
Lemma get_mid : forall {A} (a : list A) x r, pn_get (a ++ x :: r) (length a) = Ok x.
Proof. intros. unfold pn_get. rewrite nth_error_app2, Nat.sub_diag by lia. reflexivity. Qed.
Lemma upd_mid : forall {A} (a : list A) x y r, pn_upd (length a) y (a ++ x :: r) = (a ++ [y]) ++ r.
Proof. induction a as [|z a IH]; intros; cbn; [reflexivity|]. f_equal. apply IH. Qed.
Lemma pre_prims_ok : forall ci, ci < sets -> forall post pre hit, Forall (fun s => length (ps_parity s) = size) post ->
  pre_prims prf chunk size (cbytes ci) ci (seq (length pre) (length post)) (pre ++ post) hit = Ok (pre ++ map (bump ci) post, hits ci post hit).
Proof.
  intros ci Hci. induction post as [|s r IH]; intros pre hit F; [reflexivity|]. inversion F as [|? ? Hs Fr]; subst.
  cbn [length seq pre_prims]. rewrite get_mid. cbn [bind].
  rewrite (cbytes_slice ci) by (auto; apply off_lt). cbn [bind]. fold (cell (ps_tag s) ci). rewrite pn_xor_ok by (rewrite cell_len by exact Hci; exact Hs).
  cbn [bind]. rewrite upd_mid. fold (bump ci s).
  replace (S (length pre)) with (length (pre ++ [bump ci s])) by (rewrite app_length; cbn; lia).
  rewrite IH by exact Fr. cbn [map hits fold_left]. rewrite <- app_assoc. reflexivity.
Qed.
Definition outside (ci j : nat) : bool := (Nat.ltb j (ci * m2) || Nat.leb ((ci + 1) * m2) j)%bool.
Definition bbump (ci : nat) (b : pn_backup) : pn_backup :=
  {| pb_tag := pb_tag b; pb_parity := px (pb_parity b) (cell (pb_tag b) ci) |}.
Lemma pre_backs_ok : forall ci, ci < sets -> forall n pre (f : nat -> pn_backup), (forall i, length (pb_parity (f i)) = size) ->
  pre_backs prf chunk size m2 (cbytes ci) ci (seq (length pre) n) (pre ++ map f (seq (length pre) n))
  = Ok (pre ++ map (fun i => if outside ci i then bbump ci (f i) else f i) (seq (length pre) n)).
Proof.
  intros ci Hci. induction n as [|n IH]; intros pre f F; [reflexivity|].
  cbn [seq map pre_backs]. fold (outside ci (length pre)). destruct (outside ci (length pre)) eqn:O.
  - rewrite get_mid. cbn [bind]. rewrite (cbytes_slice ci) by (auto; apply off_lt). cbn [bind].
    fold (cell (pb_tag (f (length pre))) ci). rewrite pn_xor_ok by (rewrite cell_len by exact Hci; apply F).
    cbn [bind]. rewrite upd_mid. fold (bbump ci (f (length pre))).
    replace (S (length pre)) with (length (pre ++ [bbump ci (f (length pre))])) by (rewrite app_length; cbn; lia).
    rewrite IH by exact F. rewrite <- app_assoc. reflexivity.
  - replace (pre ++ f (length pre) :: map f (seq (S (length pre)) n)) with ((pre ++ [f (length pre)]) ++ map f (seq (S (length pre)) n)) by (rewrite <- app_assoc; reflexivity).
    replace (S (length pre)) with (length (pre ++ [f (length pre)])) by (rewrite app_length; cbn; lia).
    rewrite IH by exact F. rewrite <- app_assoc. reflexivity.
Qed.
Lemma thread_ranges : forall n t, 0 < t -> concat (map (thread_range n t) (seq 0 t)) = seq 0 n.
Proof.
  intros n t Ht. set (per := (n + t - 1) / t).
  assert (G : forall k, concat (map (thread_range n t) (seq 0 k)) = seq 0 (Nat.min (k * per) n)).
  { induction k as [|k IH]; [reflexivity|]. rewrite seq_S, map_app, concat_app, IH. cbn [map concat plus]. rewrite app_nil_r.
    unfold thread_range. fold per. destruct (Nat.le_gt_cases (k * per) n) as [H|H].
    - rewrite Nat.min_l by exact H. change (k * per) with (0 + k * per) at 2. rewrite <- seq_app. f_equal. lia.
    - replace (Nat.min (k * per + per) n - k * per) with 0 by lia. rewrite app_nil_r. f_equal. lia. }
  rewrite G. f_equal. apply Nat.min_r. unfold per.
  pose proof (Nat.div_mod (n + t - 1) t ltac:(lia)) as D. pose proof (Nat.mod_upper_bound (n + t - 1) t ltac:(lia)). nia.
Qed.
Lemma pre_prims_app : forall c sz b ci js1 js2 p h,
  pre_prims prf c sz b ci (js1 ++ js2) p h = bind (pre_prims prf c sz b ci js1 p h) (fun ph => pre_prims prf c sz b ci js2 (fst ph) (snd ph)).
Proof.
  intros c sz b ci js1 js2. induction js1 as [|j r IH]; intros p h; [reflexivity|]. cbn [app pre_prims].
  destruct (pn_get p j) as [s| | |]; cbn [bind]; auto. destruct (pn_slice _ _ _) as [e| | |]; cbn [bind]; auto.
  destruct (pn_xor _ _) as [x| | |]; cbn [bind]; auto.
Qed.
Lemma pre_backs_app : forall c sz m b ci js1 js2 p,
  pre_backs prf c sz m b ci (js1 ++ js2) p = bind (pre_backs prf c sz m b ci js1 p) (fun q => pre_backs prf c sz m b ci js2 q).
Proof.
  intros c sz m b ci js1 js2. induction js1 as [|j r IH]; intros p; [reflexivity|]. cbn [app pre_backs].
  destruct (_ || _)%bool; auto.
  destruct (pn_get p j) as [s| | |]; cbn [bind]; auto. destruct (pn_slice _ _ _) as [e| | |]; cbn [bind]; auto.
  destruct (pn_xor _ _) as [x| | |]; cbn [bind]; auto.
Qed.
Lemma pre_threads_ok : forall c b ci tids p k h p' k' h',
  pre_prims prf (pc_chunk c) (pc_size c) b ci (concat (map (thread_range (pc_m1 c) (pc_threads c)) tids)) p h = Ok (p', h') ->
  pre_backs prf (pc_chunk c) (pc_size c) (pc_m2 c) b ci (concat (map (thread_range (pc_m2 c * pc_sets c) (pc_threads c)) tids)) k = Ok k' ->
  pre_threads prf c b ci tids p k h = Ok (p', k', h').
Proof.
  intros c b ci. induction tids as [|t r IH]; intros p k h p' k' h' H1 H2; cbn [map concat] in *.
  - cbn in *. congruence.
  - rewrite pre_prims_app in H1. rewrite pre_backs_app in H2. cbn [pre_threads].
    destruct (pre_prims _ _ _ _ _ (thread_range _ _ t) _ _) as [ph| | |]; cbn [bind] in *; try discriminate.
    destruct (pre_backs _ _ _ _ _ _ (thread_range _ _ t) _) as [q| | |]; cbn [bind] in *; try discriminate.
    apply IH; assumption.
Qed.
Lemma hits_len : forall ci ss h, length (hits ci ss h) = length h.
Proof. intros ci ss. induction ss as [|s r IH]; intros h; [reflexivity|]. change (length (hits ci r (pn_upd (pn_off prf chunk (ps_tag s) ci) true h)) = length h). rewrite IH. apply upd_length. Qed.
Lemma hits_true : forall ci ss h o, length h = chunk -> nth o (hits ci ss h) false = true ->
  nth o h false = true \/ exists s, In s ss /\ pn_off prf chunk (ps_tag s) ci = o.
Proof.
  intros ci ss. induction ss as [|s r IH]; intros h o L H; [left; exact H|]. change (nth o (hits ci r (pn_upd (pn_off prf chunk (ps_tag s) ci) true h)) false = true) in H.
  apply IH in H; [|rewrite upd_length; exact L]. destruct H as [H|[t [Ht E]]].
  - destruct (Nat.eq_dec o (pn_off prf chunk (ps_tag s) ci)) as [E|E].
    + right. exists s. split; [left; reflexivity|auto].
    + rewrite upd_nth_other in H by exact E. left. exact H.
  - right. exists t. split; [right; exact Ht|exact E].
Qed.
Lemma misses_ok : forall c ci hit, pc_size c = size -> pc_chunk c = chunk -> ci < sets -> forall js miss, (forall j, In j js -> j < chunk) ->
  exists m, pre_misses c (cbytes ci) ci hit js miss = Ok m /\
    (forall k e, pn_find k m = Some e -> pn_find k miss = Some e \/ (k < total /\ e = ent k)) /\
    (forall j, In j js -> nth j hit false = false -> pn_find (ci * chunk + j) m <> None) /\
    (forall k, pn_find k miss <> None -> pn_find k m <> None).
Proof.
  intros c ci hit E1 E2 Hci. induction js as [|j r IH]; intros miss HJ; cbn [pre_misses].
  - exists miss. repeat split; auto.
  - destruct (nth j hit false) eqn:Hj.
    + destruct (IH miss) as [m (M & M1 & M2 & M3)]; [intros; apply HJ; right; assumption|]. exists m. repeat split; auto.
      intros i [->|Hi] F; [congruence|]. apply M2; assumption.
    + rewrite E1, (cbytes_slice ci) by (auto; apply HJ; left; reflexivity). cbn [bind].
      destruct (IH ((j + ci * pc_chunk c, ent (ci * chunk + j)) :: miss)) as [m (M & M1 & M2 & M3)]; [intros; apply HJ; right; assumption|].
      exists m. split; [exact M|]. assert (J : j < chunk) by (apply HJ; left; reflexivity).
      split; [|split].
      * intros k e F. apply M1 in F. destruct F as [F|F]; [|right; exact F]. cbn [pn_find] in F.
        destruct (Nat.eqb_spec k (j + ci * pc_chunk c)) as [->|N]; [|left; exact F].
        right. injection F as <-. rewrite E2, Nat.add_comm. split; [apply chunk_bound; assumption|reflexivity].
      * intros i [<-|Hi] F; [|apply M2; assumption]. apply M3. cbn [pn_find]. rewrite E2, (Nat.add_comm j), Nat.eqb_refl. discriminate.
      * intros k F. apply M3. cbn [pn_find]. destruct (Nat.eqb _ _); [discriminate|exact F].
Qed.

Definition tagp (i : nat) : N := u32 (N.of_nat i).
Definition prim_at (done : list nat) (i : nat) : pn_set :=
  {| ps_tag := tagp i; ps_parity := xsum size (map (cell (tagp i)) done); ps_point := 0; ps_prog := false |}.
Definition back_at (done : list nat) (i : nat) : pn_backup :=
  {| pb_tag := tagp (m1 + i); pb_parity := xsum size (map (cell (tagp (m1 + i))) (filter (fun ci => outside ci i) done)) |}.
Variable rnd : nat -> nat -> N.
Definition ridx (ci k : nat) : nat := ci * chunk + pn_low chunk (rnd ci k).
Definition repl_at (ci used : nat) : pn_repl :=
  {| pr_used := used; pr_idx := map (ridx ci) (seq 0 m2); pr_val := map (fun k => ent (ridx ci k)) (seq 0 m2) |}.
Record off_inv (done : list nat) (c : pn_client) : Prop := {
  oi_size : pc_size c = size; oi_chunk : pc_chunk c = chunk; oi_sets : pc_sets c = sets; oi_thr : pc_threads c = thr;
  oi_m1 : pc_m1 c = m1; oi_m2 : pc_m2 c = m2;
  oi_prim : pc_prim c = map (prim_at done) (seq 0 m1);
  oi_back : pc_back c = map (back_at done) (seq 0 (m2 * sets));
  oi_bused : pc_bused c = repeat 0 sets;
  oi_rlen : length (pc_repl c) = sets;
  oi_rused : forall ci d, ci < sets -> pr_used (nth ci (pc_repl c) d) = 0;
  oi_repl : forall ci d, In ci done -> nth ci (pc_repl c) d = repl_at ci 0;
  oi_cache : pc_cache c = []; oi_mask : pc_mask c = false;
  oi_miss : forall k e, pn_find k (pc_miss c) = Some e -> k < total /\ e = ent k;
  oi_cover : forall ci o, In ci done -> o < chunk ->
    (exists i, i < m1 /\ pn_off prf chunk (tagp i) ci = o) \/ pn_find (ci * chunk + o) (pc_miss c) <> None }.

Lemma off_init : off_inv [] (pn_client_new num threads size tq bk).
Proof.
  unfold pn_client_new. rewrite (surjective_pairing (chunk_params num)). fold (pn_chunk num) (pn_sets num) (pn_thr threads).
  constructor; cbn [pc_size pc_chunk pc_sets pc_threads pc_m1 pc_m2 pc_prim pc_back pc_bused pc_repl pc_cache pc_mask pc_miss]; try reflexivity.
  - rewrite (map_ext_in _ (fun i => back_at [] (i - m1)) (seq m1 _)).
    + rewrite <- (map_map (fun i => i - m1) (back_at [])). f_equal. generalize (m2 * sets) as n. generalize m1 as a. clear.
      intros a n. assert (G : forall b, map (fun i => i - a) (seq (a + b) n) = seq b n); [|specialize (G 0); rewrite Nat.add_0_r in G; exact G].
      induction n as [|n IH]; intros b; [reflexivity|]. cbn [seq map]. f_equal; [lia|]. specialize (IH (S b)). rewrite Nat.add_succ_r in IH. exact IH.
    + intros i Hi. apply in_seq in Hi. unfold back_at, tagp. cbn [filter map xsum fold_right]. replace (m1 + (i - m1)) with i by lia. reflexivity.
  - apply repeat_length.
  - intros ci d H. rewrite (nth_indep _ d {| pr_used := 0; pr_idx := repeat 0 m2; pr_val := repeat [] m2 |}) by (rewrite repeat_length; exact H).
    rewrite nth_repeat. reflexivity.
  - intros ci d [].
  - intros k e H. discriminate.
  - intros ci o [].
Qed.

Lemma off_step : forall done c ci, off_inv done c -> (forall i, In i done -> i < sets) -> ci < sets ->
  exists c', preprocess prf c (ci, cbytes ci) (rnd ci) = Ok c' /\ off_inv (ci :: done) c'.
Proof.
  intros done c ci I HD Hci. destruct I as [I1 I2 I3 I4 I5 I6 I7 I8 I9 I10 I11 I12 I13 I14 I15 I16].
  assert (FP : forall i, length (ps_parity (prim_at done i)) = size).
  { intros i. cbn [prim_at ps_parity]. apply xsum_len. intros e He. apply in_map_iff in He. destruct He as [x [<- Hx]]. apply cell_len, HD, Hx. }
  assert (FB : forall i, length (pb_parity (back_at done i)) = size).
  { intros i. cbn [back_at pb_parity]. apply xsum_len. intros e He. apply in_map_iff in He. destruct He as [x [<- Hx]]. apply filter_In in Hx. apply cell_len, HD, Hx. }
  assert (T : pre_threads prf c (cbytes ci) ci (seq 0 (pc_threads c)) (pc_prim c) (pc_back c) (repeat false (pc_chunk c))
     = Ok (map (prim_at (ci :: done)) (seq 0 m1), map (back_at (ci :: done)) (seq 0 (m2 * sets)), hits ci (map (prim_at done) (seq 0 m1)) (repeat false chunk))).
  { apply pre_threads_ok; rewrite ?I1, ?I2, ?I3, ?I4, ?I5, ?I6, thread_ranges by apply thr_pos.
    - rewrite I7. pose proof (pre_prims_ok ci Hci (map (prim_at done) (seq 0 m1)) [] (repeat false chunk)) as P.
      cbn [app length] in P. rewrite map_length, seq_length in P. rewrite P.
      + do 2 f_equal. rewrite map_map. apply map_ext. intros i. unfold bump, prim_at. cbn [ps_tag ps_parity ps_point ps_prog map xsum fold_right]. f_equal. apply px_comm.
      + apply Forall_forall. intros s Hs. apply in_map_iff in Hs. destruct Hs as [i [<- _]]. apply FP.
    - rewrite I8. pose proof (pre_backs_ok ci Hci (m2 * sets) [] (back_at done) FB) as P. cbn [app length] in P. rewrite P.
      f_equal. apply map_ext. intros i. unfold bbump, back_at. cbn [filter pb_tag pb_parity].
      destruct (outside ci i); [|reflexivity]. cbn [map xsum fold_right]. f_equal. apply px_comm. }
  unfold preprocess. rewrite T. cbn [bind].
  destruct (misses_ok c ci (hits ci (map (prim_at done) (seq 0 m1)) (repeat false chunk)) I1 I2 Hci (seq 0 (pc_chunk c)) (pc_miss c)) as [m (M & M1 & M2 & M3)].
  { intros j Hj. apply in_seq in Hj. lia. }
  rewrite M. cbn [bind].
  rewrite (pn_get_ok (pc_repl c) ci {| pr_used := 0; pr_idx := []; pr_val := [] |}) by lia. cbn [bind].
  rewrite I11 by exact Hci.
  rewrite (omapM_ok _ _ _ (fun k => ent (ridx ci k))).
  2: { intros k Hk. rewrite I1, I2. apply cbytes_slice; [exact Hci|apply low_lt]. }
  cbn [bind]. eexists. split; [reflexivity|].
  constructor; cbn [pc_size pc_chunk pc_sets pc_threads pc_m1 pc_m2 pc_prim pc_back pc_bused pc_repl pc_cache pc_mask pc_miss]; auto.
  - rewrite upd_length. exact I10.
  - intros i d Hi. destruct (Nat.eq_dec i ci) as [->|N].
    + rewrite upd_nth by lia. reflexivity.
    + rewrite upd_nth_other by exact N. apply I11. exact Hi.
  - intros i d [<-|Hi].
    + rewrite upd_nth by lia. unfold repl_at. rewrite I2, I6. f_equal. apply map_ext. intros k. unfold ridx. lia.
    + destruct (Nat.eq_dec i ci) as [->|N].
      * rewrite upd_nth by lia. unfold repl_at. rewrite I2, I6. f_equal. apply map_ext. intros k. unfold ridx. lia.
      * rewrite upd_nth_other by exact N. apply I12. exact Hi.
  - intros k e F. apply M1 in F. destruct F as [F|F]; [apply I15; exact F|exact F].
  - intros i o Hi Ho. destruct Hi as [<-|Hi].
    + destruct (nth o (hits ci (map (prim_at done) (seq 0 m1)) (repeat false chunk)) false) eqn:H.
      * apply hits_true in H; [|apply repeat_length]. destruct H as [H|[s [Hs E]]].
        { exfalso. rewrite nth_repeat in H. discriminate. }
        apply in_map_iff in Hs. destruct Hs as [j [<- Hj]]. apply in_seq in Hj. left. exists j. split; [lia|exact E].
      * right. apply M2; [apply in_seq; lia|exact H].
    + destruct (I16 i o Hi Ho) as [X|X]; [left; exact X|right; apply M3; exact X].
Qed.
Lemma offline_ok : forall order done c, off_inv done c -> (forall i, In i (done ++ order) -> i < sets) ->
  exists c', pn_offline prf (pn_server_new db num size seed) c rnd order = Ok c' /\ off_inv (rev order ++ done) c'.
Proof.
  induction order as [|ci r IH]; intros done c I H; cbn [pn_offline].
  - exists c. split; [reflexivity|exact I].
  - assert (Hci : ci < sets) by (apply H, in_or_app; right; left; reflexivity).
    destruct (cbytes_ok ci Hci) as [-> _]. cbn [bind].
    destruct (off_step done c ci I) as [c1 [-> I1]]; [intros; apply H, in_or_app; left; assumption|exact Hci|]. cbn [bind].
    destruct (IH (ci :: done) c1 I1) as [c2 [E I2]].
    { intros i [<-|Hi]; [exact Hci|]. apply H. apply in_or_app. apply in_app_or in Hi. destruct Hi; [left|right; right]; assumption. }
    exists c2. split; [exact E|]. cbn [rev]. rewrite <- app_assoc. exact I2.
Qed.

(** ** Queries *)
(** The element of a set in chunk [i], and its offsets in all chunks. *)
Definition pt (s : pn_set) (i : nat) : nat :=
  if (ps_prog s && Nat.eqb i (ps_point s / chunk))%bool then ps_point s else i * chunk + pn_off prf chunk (ps_tag s) i.
Definition rowof (s : pn_set) : list nat := map (fun i => pt s i - i * chunk) (seq 0 sets).
Fixpoint first_hit (T : list (list nat)) (ci off : nat) : option nat :=
  match T with
  | [] => None
  | r :: T' => if Nat.eqb off (nth ci r 0) then Some 0 else option_map S (first_hit T' ci off)
  end.
Definition abs_ix (v : list nat) : list nat := map (fun i => i * chunk + nth i v 0) (seq 0 sets).
Definition mask_offs (r : nat -> N) : list nat := map (fun i => N.to_nat (r i mod N.of_nat chunk)) (seq 0 sets).
Definition brow (ci u : nat) : list nat := map (pn_off prf chunk (tagp (m1 + (ci * m2 + u)))) (seq 0 sets).

Variable done : list nat.
Hypothesis Hdone : Permutation done (seq 0 sets).

Record on_inv (used : list nat) (c : pn_client) : Prop := {
  ni_size : pc_size c = size; ni_chunk : pc_chunk c = chunk; ni_sets : pc_sets c = sets; ni_m2 : pc_m2 c = m2;
  ni_plen : length (pc_prim c) = m1;
  ni_prim : forall s, In s (pc_prim c) -> ps_parity s = xsum size (map (fun i => ent (pt s i)) (seq 0 sets)) /\
              (ps_prog s = true -> ps_point s < total /\ pn_find (ps_point s) (pc_cache c) <> None);
  ni_back : pc_back c = map (back_at done) (seq 0 (m2 * sets));
  ni_bused : pc_bused c = used; ni_ulen : length used = sets; ni_ule : forall ci, nth ci used 0 <= m2;
  ni_repl : pc_repl c = map (fun ci => repl_at ci (nth ci used 0)) (seq 0 sets);
  ni_cache : forall k e, pn_find k (pc_cache c) = Some e -> k < total /\ e = ent k;
  ni_miss : forall k e, pn_find k (pc_miss c) = Some e -> k < total /\ e = ent k;
  ni_mask : pc_mask c = false }.

Lemma nth_map_seq : forall {A} (f : nat -> A) n i d, i < n -> nth i (map f (seq 0 n)) d = f i.
Proof. intros A f n i d H. rewrite (nth_indep _ d (f 0)) by (rewrite map_length, seq_length; exact H). rewrite map_nth. rewrite seq_nth by exact H. reflexivity. Qed.
Lemma list_ext : forall {A} (d : A) l l', length l = length l' -> (forall i, i < length l -> nth i l d = nth i l' d) -> l = l'.
Proof. intros A d l l' L H. apply (nth_ext l l' d d L H). Qed.

Lemma on_init : forall c, off_inv done c -> on_inv (repeat 0 sets) c /\
  map rowof (pc_prim c) = map (fun i => map (pn_off prf chunk (tagp i)) (seq 0 sets)) (seq 0 m1).
Proof.
  intros c I. destruct I as [I1 I2 I3 I4 I5 I6 I7 I8 I9 I10 I11 I12 I13 I14 I15 I16].
  split.
  - constructor; auto.
    + rewrite I7, map_length, seq_length. reflexivity.
    + intros s Hs. rewrite I7 in Hs. apply in_map_iff in Hs. destruct Hs as [i [<- Hi]]. split; [|discriminate].
      cbn [prim_at ps_parity]. transitivity (xsum size (map (cell (tagp i)) (seq 0 sets))).
      * apply xsum_perm, Permutation_map, Hdone.
      * reflexivity.
    + apply repeat_length.
    + intros ci. rewrite nth_repeat. lia.
    + apply (list_ext {| pr_used := 0; pr_idx := []; pr_val := [] |}).
      * rewrite map_length, seq_length. exact I10.
      * intros i Hi. rewrite I10 in Hi. rewrite nth_map_seq by exact Hi. rewrite nth_repeat. apply I12.
        apply (Permutation_in i (Permutation_sym Hdone)). apply in_seq. lia.
    + intros k e H. rewrite I13 in H. discriminate.
  - rewrite I7, map_map. apply map_ext. intros i. unfold rowof. apply map_ext. intros j. unfold pt, prim_at. cbn [ps_prog ps_tag andb]. lia.
Qed.

Lemma div_chunk : forall ci o, o < chunk -> (ci * chunk + o) / chunk = ci.
Proof. intros ci o H. rewrite Nat.add_comm, Nat.div_add by lia. rewrite Nat.div_small by exact H. reflexivity. Qed.
Lemma idx_split : forall idx, idx = idx / chunk * chunk + idx mod chunk.
Proof. intros idx. pose proof (Nat.div_mod idx chunk ltac:(pose proof chunk_pos; lia)). lia. Qed.
Lemma idx_ci : forall idx, idx < total -> idx / chunk < sets.
Proof. intros idx H. apply Nat.div_lt_upper_bound; [pose proof chunk_pos; lia|exact H]. Qed.
Lemma pt_bound : forall s i, (ps_prog s = true -> ps_point s < total) -> i < sets -> pt s i < total /\ i * chunk <= pt s i < i * chunk + chunk.
Proof.
  intros s i H Hi. unfold pt. pose proof chunk_pos as C. destruct (ps_prog s) eqn:P; cbn [andb].
  - destruct (Nat.eqb_spec i (ps_point s / chunk)) as [->|N].
    + split; [apply H; reflexivity|]. pose proof (idx_split (ps_point s)). pose proof (Nat.mod_upper_bound (ps_point s) chunk ltac:(lia)). lia.
    + pose proof (off_lt (ps_tag s) i). split; [apply chunk_bound; assumption|lia].
  - pose proof (off_lt (ps_tag s) i). split; [apply chunk_bound; assumption|lia].
Qed.
Lemma search_ok : forall c ci off, pc_chunk c = chunk -> ci < sets -> forall prims k,
  (forall s, In s prims -> (ps_prog s = true -> ps_point s < total) /\ (ps_prog s = true -> ps_point s <> ci * chunk + off)) ->
  pn_search prf c ci off prims k =
    match first_hit (map rowof prims) ci off with
    | Some h => Some (k + h, nth h prims {| ps_tag := 0; ps_parity := []; ps_point := 0; ps_prog := false |})
    | None => None end.
Proof.
  intros c ci off EC Hci. induction prims as [|s r IH]; intros k H; [reflexivity|]. cbn [pn_search map first_hit].
  assert (M : set_matches prf c ci off s = Nat.eqb off (nth ci (rowof s) 0)).
  { unfold set_matches, rowof. rewrite EC. rewrite nth_map_seq by exact Hci. destruct (H s (or_introl eq_refl)) as [H1 H2].
    unfold pt. destruct (ps_prog s) eqn:P; cbn [andb].
    - destruct (Nat.eqb_spec ci (ps_point s / chunk)) as [E|E]; cbn [negb andb].
      + symmetry. apply Nat.eqb_neq. intros F. apply (H2 eq_refl). pose proof (idx_split (ps_point s)). rewrite E. subst off. rewrite <- E in *. lia.
      + f_equal. lia.
    - cbn [negb andb]. f_equal. lia. }
  rewrite M. destruct (Nat.eqb off (nth ci (rowof s) 0)).
  - rewrite Nat.add_0_r. reflexivity.
  - rewrite IH by (intros; apply H; right; assumption). destruct (first_hit _ ci off); cbn [option_map nth]; [|reflexivity].
    do 2 f_equal. lia.
Qed.
Lemma first_hit_some : forall T ci off h, first_hit T ci off = Some h -> h < length T /\ nth ci (nth h T []) 0 = off.
Proof.
  induction T as [|r T IH]; intros ci off h H; cbn [first_hit] in H; [discriminate|].
  destruct (Nat.eqb_spec off (nth ci r 0)) as [E|E].
  - injection H as <-. cbn. split; [lia|congruence].
  - destruct (first_hit T ci off) as [k|] eqn:F; [|discriminate]. injection H as <-. destruct (IH _ _ _ F). cbn. split; [lia|assumption].
Qed.
Lemma mask_view : forall c r, pc_chunk c = chunk -> pc_sets c = sets -> mask_query c r = abs_ix (mask_offs r).
Proof.
  intros c r E1 E2. unfold mask_query, abs_ix, mask_offs. rewrite E1, E2. apply map_ext_in. intros i Hi. apply in_seq in Hi.
  rewrite nth_map_seq by lia. lia.
Qed.
Lemma mask_offs_lt : forall r x, In x (mask_offs r) -> x < chunk.
Proof. intros r x H. apply in_map_iff in H. destruct H as [i [<- _]]. pose proof chunk_pos. pose proof (N.mod_lt (r i) (N.of_nat chunk) ltac:(lia)). lia. Qed.
Lemma abs_bound : forall v, (forall i, i < sets -> nth i v 0 < chunk) -> forall x, In x (abs_ix v) -> x < total.
Proof. intros v H x Hx. apply in_map_iff in Hx. destruct Hx as [i [<- Hi]]. apply in_seq in Hi. apply chunk_bound; [lia|apply H; lia]. Qed.
Lemma abs_row : forall s, (ps_prog s = true -> ps_point s < total) -> abs_ix (rowof s) = map (pt s) (seq 0 sets).
Proof.
  intros s H. unfold abs_ix, rowof. apply map_ext_in. intros i Hi. apply in_seq in Hi. rewrite nth_map_seq by lia.
  destruct (pt_bound s i H ltac:(lia)). lia.
Qed.
Lemma abs_upd : forall v ci r, length v = sets -> ci < sets -> abs_ix (pn_upd ci r v) = pn_upd ci (ci * chunk + r) (abs_ix v).
Proof.
  intros v ci r L Hci. apply (list_ext 0).
  - rewrite upd_length. unfold abs_ix. rewrite !map_length. reflexivity.
  - intros i Hi. unfold abs_ix in Hi. rewrite map_length, seq_length in Hi.
    unfold abs_ix at 1. rewrite nth_map_seq by exact Hi. destruct (Nat.eq_dec i ci) as [->|N].
    + rewrite upd_nth by lia. rewrite upd_nth by (unfold abs_ix; rewrite map_length, seq_length; exact Hci). reflexivity.
    + rewrite !upd_nth_other by exact N. unfold abs_ix. rewrite nth_map_seq by exact Hi. reflexivity.
Qed.
Lemma outside_ne : forall ci u x, u < m2 -> outside x (ci * m2 + u) = negb (Nat.eqb x ci).
Proof.
  intros ci u x H. unfold outside. destruct (Nat.eqb_spec x ci) as [->|N]; cbn [negb].
  - apply orb_false_iff. split; [apply Nat.ltb_ge; lia|apply Nat.leb_gt; lia].
  - apply orb_true_iff. destruct (Nat.lt_trichotomy x ci) as [H1|[H1|H1]]; [right|lia|left].
    + apply Nat.leb_le. assert ((x + 1) * m2 <= ci * m2) by (apply Nat.mul_le_mono_r; lia). lia.
    + apply Nat.ltb_lt. assert ((ci + 1) * m2 <= x * m2) by (apply Nat.mul_le_mono_r; lia). lia.
Qed.
Lemma perm_one : forall ci, ci < sets -> Permutation (seq 0 sets) (ci :: filter (fun x => negb (Nat.eqb x ci)) done).
Proof.
  intros ci H. apply NoDup_Permutation.
  - apply seq_NoDup.
  - constructor.
    + intros F. apply filter_In in F. destruct F as [_ F]. rewrite Nat.eqb_refl in F. discriminate.
    + apply NoDup_filter. apply (Permutation_NoDup (Permutation_sym Hdone)). apply seq_NoDup.
  - intros x. split; intros F.
    + destruct (Nat.eq_dec x ci) as [->|N]; [left; reflexivity|]. right. apply filter_In. split.
      * apply (Permutation_in x (Permutation_sym Hdone)). exact F.
      * destruct (Nat.eqb_spec x ci); [contradiction|reflexivity].
    + destruct F as [<-|F]; [apply in_seq; lia|]. apply filter_In in F. apply (Permutation_in x Hdone). apply F.
Qed.
Definition cached (c : pn_client) (idx : nat) : Prop := pn_find idx (pc_cache c) <> None.

Lemma round_ok : forall used c idx r, on_inv used c -> idx < total ->
  let ci := idx / chunk in let off := idx mod chunk in let u := nth ci used 0 in
  let T := map rowof (pc_prim c) in
  exists c' e q err, pn_round prf (pn_server_new db num size seed) c idx r = Ok (c', (e, q, err)) /\
    (err = false -> e = ent idx) /\
    (err = true -> e = pn_zero size /\ ~ cached c idx /\ (first_hit T ci off = None /\ pn_find idx (pc_miss c) = None \/ first_hit T ci off <> None /\ u = m2)) /\
    pc_miss c' = pc_miss c /\ (forall k, cached c' k -> k = idx \/ cached c k) /\ (cached c idx \/ err = false -> cached c' idx) /\ (forall k, cached c k -> cached c' k) /\
    ((q = abs_ix (mask_offs r) /\ pc_prim c' = pc_prim c /\ on_inv used c' /\ (cached c idx \/ first_hit T ci off = None \/ u = m2)) \/
     (exists h, ~ cached c idx /\ first_hit T ci off = Some h /\ u < m2 /\
        q = abs_ix (pn_upd ci (pn_low chunk (rnd ci u)) (nth h T [])) /\
        map rowof (pc_prim c') = pn_upd h (pn_upd ci off (brow ci u)) T /\
        map ps_tag (pc_prim c') = pn_upd h (tagp (m1 + (ci * m2 + u))) (map ps_tag (pc_prim c)) /\
        on_inv (pn_upd ci (S u) used) c')).
Proof.
  intros used c idx r I Hidx ci off u T.
  pose proof I as [I1 I2 I3 I4 I5 I6 I7 I8 I9 I10 I11 I12 I13 I14].
  pose proof chunk_pos as C.
  assert (Hci : ci < sets) by (apply idx_ci; exact Hidx).
  assert (Hoff : off < chunk) by (apply Nat.mod_upper_bound; lia).
  assert (Eidx : idx = ci * chunk + off) by apply idx_split.
  assert (MB : forall i, i < sets -> nth i (mask_offs r) 0 < chunk).
  { intros i Hi. apply (mask_offs_lt r). apply nth_In. unfold mask_offs. rewrite map_length, seq_length. exact Hi. }
  assert (RM : index_reply (pn_server_new db num size seed) (mask_query c r) = Ok (xsum size (map ent (abs_ix (mask_offs r))))).
  { rewrite mask_view by assumption. apply index_reply_ok. apply abs_bound. exact MB. }
  assert (NI : forall cache k m, (forall k e, pn_find k cache = Some e -> k < total /\ e = ent k) ->
     (forall k, pn_find k (pc_cache c) <> None -> pn_find k cache <> None) -> m = false -> on_inv used (set_ctx c cache m idx k)).
  { intros cache k m HC HM Hm. constructor; cbn [set_ctx pc_size pc_chunk pc_sets pc_m2 pc_prim pc_back pc_bused pc_repl pc_cache pc_miss pc_mask]; auto.
    intros s Hs. destruct (I6 s Hs) as [J1 J2]. split; [exact J1|]. intros P. destruct (J2 P). split; auto. }
  unfold pn_round, gen_query.
  destruct (pn_find idx (pc_cache c)) as [e0|] eqn:FC.
  { (* cached *)
    cbn [bind]. rewrite RM. cbn [bind]. unfold recover. cbn [set_ctx pc_mask pc_cache pc_cur pc_hit pc_size]. rewrite FC. cbn [bind fst snd].
    eexists _, e0, _, false. split; [reflexivity|].
    destruct (I12 _ _ FC) as [_ Ee]. split; [intros _; exact Ee|]. split; [discriminate|]. split; [reflexivity|].
    split; [intros k Hk; right; exact Hk|]. split; [intros _; unfold cached; cbn [set_ctx pc_cache]; rewrite FC; discriminate|].
    split; [intros k Hk; exact Hk|]. left. split; [apply mask_view; assumption|]. split; [reflexivity|].
    split; [apply (NI (pc_cache c) (pc_hit c) false); auto|]. left. unfold cached. rewrite FC. discriminate. }
  rewrite I2. fold ci off.
  assert (NC : ~ cached c idx) by (unfold cached; rewrite FC; intros X; apply X; reflexivity).
  rewrite (search_ok c ci off I2 Hci (pc_prim c) 0).
  2: { intros s Hs. destruct (I6 s Hs) as [_ J]. split; [intros P; apply J, P|].
       intros P E. destruct (J P) as [_ J2]. rewrite E, <- Eidx, FC in J2. apply J2. reflexivity. }
  fold T. destruct (first_hit T ci off) as [h|] eqn:FH.
  2: { (* no set *)
    destruct (pn_find idx (pc_miss c)) as [e0|] eqn:FM.
    - cbn [bind]. rewrite RM. cbn [bind]. unfold recover. cbn [set_ctx pc_mask pc_cache pc_cur pc_hit pc_size pn_find]. rewrite Nat.eqb_refl. cbn [bind fst snd].
      destruct (I13 _ _ FM) as [_ Ee].
      eexists _, e0, _, false. split; [reflexivity|]. split; [intros _; exact Ee|]. split; [discriminate|]. split; [reflexivity|].
      assert (CK : forall k, pn_find k ((idx, e0) :: pc_cache c) <> None <-> k = idx \/ cached c k).
      { intros k. unfold cached. cbn [pn_find]. destruct (Nat.eqb_spec k idx) as [->|N]; split; intros X; try discriminate; auto. destruct X; [contradiction|assumption]. }
      split; [intros k Hk; apply CK; exact Hk|]. split; [intros _; apply CK; left; reflexivity|]. split; [intros k Hk; apply CK; right; exact Hk|].
      left. split; [apply mask_view; assumption|]. split; [reflexivity|]. split; [|right; left; reflexivity].
      apply (NI ((idx, e0) :: pc_cache c) (pc_hit c) false); auto.
      + intros k e. cbn [pn_find]. destruct (Nat.eqb_spec k idx) as [->|N]; [|apply I12]. intros F. injection F as <-. split; assumption.
      + intros k Hk. apply CK. right. exact Hk.
    - cbn [bind]. rewrite RM. cbn [bind]. unfold recover. cbn [set_ctx pc_mask pc_cache pc_cur pc_hit pc_size]. rewrite FC. cbn [bind fst snd].
      eexists _, _, _, true. split; [reflexivity|]. split; [discriminate|]. split.
      { intros _. split; [rewrite I1; reflexivity|]. split; [exact NC|]. left. split; reflexivity. }
      split; [reflexivity|]. split; [intros k Hk; right; exact Hk|].
      split; [intros [X|X]; [contradiction|discriminate]|]. split; [intros k Hk; exact Hk|].
      left. split; [apply mask_view; assumption|]. split; [reflexivity|]. split; [|right; left; reflexivity].
      apply (NI (pc_cache c) (pc_hit c) false); auto. }
  destruct (first_hit_some _ _ _ _ FH) as [Hh Eh]. unfold T in Hh. rewrite map_length in Hh.
  set (d0 := {| ps_tag := 0; ps_parity := []; ps_point := 0; ps_prog := false |}).
  set (s := nth h (pc_prim c) d0). cbn [plus].
  assert (Hs : In s (pc_prim c)) by (apply nth_In; exact Hh).
  destruct (I6 s Hs) as [PS PP].
  assert (PB : ps_prog s = true -> ps_point s < total) by (intros P; apply PP, P).
  assert (EX : pn_expand prf c (ps_tag s) = map (fun i => i * chunk + pn_off prf chunk (ps_tag s) i) (seq 0 sets)) by (unfold pn_expand; rewrite I2, I3; reflexivity).
  assert (LX : length (pn_expand prf c (ps_tag s)) = sets) by (rewrite EX, map_length, seq_length; reflexivity).
  assert (EXP : (if ps_prog s then if Nat.ltb (ps_point s / chunk) (length (pn_expand prf c (ps_tag s)))
                      then Ok (pn_upd (ps_point s / chunk) (ps_point s) (pn_expand prf c (ps_tag s))) else UB
                    else Ok (pn_expand prf c (ps_tag s))) = Ok (map (pt s) (seq 0 sets))).
  { rewrite LX. destruct (ps_prog s) eqn:P.
    - assert (HP : ps_point s / chunk < sets) by (apply idx_ci, PB; reflexivity).
      apply Nat.ltb_lt in HP as HPb. rewrite HPb. f_equal. apply (list_ext 0).
      + rewrite upd_length, LX, map_length, seq_length. reflexivity.
      + intros i Hi. rewrite upd_length, LX in Hi. rewrite nth_map_seq by exact Hi. unfold pt. rewrite P. cbn [andb].
        destruct (Nat.eqb_spec i (ps_point s / chunk)) as [E|N].
        * subst i. apply upd_nth. rewrite LX. exact Hi.
        * rewrite upd_nth_other by exact N. rewrite EX. rewrite nth_map_seq by exact Hi. reflexivity.
    - rewrite EX. f_equal. apply map_ext. intros i. unfold pt. rewrite P. reflexivity. }
  rewrite EXP. cbn [bind].
  assert (GR : pn_get (pc_repl c) ci = Ok (repl_at ci u)).
  { rewrite (pn_get_ok _ ci (repl_at 0 0)) by (rewrite I11, map_length, seq_length; exact Hci). rewrite I11, nth_map_seq by exact Hci. reflexivity. }
  rewrite GR. cbn [bind repl_at pr_used]. rewrite I4.
  pose proof (I10 ci) as Hu. fold u in Hu.
  destruct (Nat.eqb_spec u m2) as [EU|NU].
  { (* no replacement *)
    cbn [bind]. rewrite RM. cbn [bind]. unfold recover. cbn [set_ctx pc_mask pc_cache pc_cur pc_hit pc_size]. rewrite FC. cbn [bind fst snd].
    eexists _, _, _, true. split; [reflexivity|]. split; [discriminate|]. split.
    { intros _. split; [rewrite I1; reflexivity|]. split; [exact NC|]. right. split; [discriminate|exact EU]. }
    split; [reflexivity|]. split; [intros k Hk; right; exact Hk|].
    split; [intros [X|X]; [contradiction|discriminate]|]. split; [intros k Hk; exact Hk|].
    left. split; [apply mask_view; assumption|]. split; [reflexivity|]. split; [|right; right; exact EU].
    apply (NI (pc_cache c) (pc_hit c) false); auto. }
  assert (LU : u < m2) by lia.
  rewrite (pn_get_ok (pr_idx _) u 0) by (cbn [repl_at pr_idx]; rewrite map_length, seq_length; exact LU). cbn [bind repl_at pr_idx].
  rewrite (nth_map_seq (ridx ci)) by exact LU.
  rewrite map_length, seq_length. apply Nat.ltb_lt in Hci as Hcib. rewrite Hcib. cbn [bind].
  set (q := pn_upd ci (ridx ci u) (map (pt s) (seq 0 sets))).
  assert (RB : ridx ci u < total) by (apply chunk_bound; [exact Hci|apply low_lt]).
  assert (QB : forall i, In i q -> i < total).
  { intros i Hi. apply upd_In in Hi. destruct Hi as [->|Hi]; [exact RB|]. apply in_map_iff in Hi. destruct Hi as [j [<- Hj]]. apply in_seq in Hj. apply pt_bound; [exact PB|lia]. }
  rewrite index_reply_ok by exact QB. cbn [bind].
  assert (TE : nth h T [] = rowof s).
  { unfold T. rewrite (nth_indep _ [] (rowof d0)) by (rewrite map_length; exact Hh). apply map_nth. }
  assert (PE : pt s ci = idx).
  { rewrite TE in Eh. unfold rowof in Eh. rewrite nth_map_seq in Eh by exact Hci. destruct (pt_bound s ci PB Hci). lia. }
  assert (EL : length (ent idx) = size) by (apply ent_len; exact Hidx).
  assert (RL : length (ent (ridx ci u)) = size) by (apply ent_len; exact RB).
  set (X := xsum size (map ent (map (pt s) (seq 0 sets)))).
  assert (LS : forall x, In x (map ent (map (pt s) (seq 0 sets))) -> length x = size).
  { intros x Hx. apply in_map_iff in Hx. destruct Hx as [y [<- Hy]]. apply in_map_iff in Hy. destruct Hy as [z [<- Hz]]. apply in_seq in Hz. apply ent_len, pt_bound; [exact PB|lia]. }
  assert (LXs : length X = size) by (apply xsum_len; exact LS).
  assert (RQ : xsum size (map ent q) = px (px (ent idx) (ent (ridx ci u))) X).
  { unfold q. rewrite map_upd. rewrite xsum_upd; [|rewrite !map_length, seq_length; exact Hci|exact LS|exact RL].
    fold X. do 2 f_equal. rewrite map_map, nth_map_seq by exact Hci. rewrite PE. reflexivity. }
  rewrite RQ.
  unfold recover. cbn [set_ctx pc_mask pc_cache pc_cur pc_hit pc_size pc_chunk pc_sets pc_threads pc_m1 pc_m2 pc_repl pc_prim pc_back pc_bused pc_miss].
  rewrite I14, I2. fold ci. rewrite GR. cbn [bind repl_at pr_used pr_val pr_idx].
  rewrite (pn_get_ok _ u (pn_zero 0)) by (rewrite map_length, seq_length; exact LU). rewrite (nth_map_seq (fun k => ent (ridx ci k))) by exact LU. cbn [bind].
  rewrite (pn_get_ok _ h d0) by exact Hh. fold s. cbn [bind].
  replace (ps_parity s) with X by (rewrite PS; unfold X; rewrite map_map; reflexivity).
  assert (LR : length (px (px (ent idx) (ent (ridx ci u))) X) = size) by (repeat apply px_len; assumption).
  rewrite pn_xor_ok by congruence. cbn [bind].
  assert (V1 : px X (px (px (ent idx) (ent (ridx ci u))) X) = px (ent idx) (ent (ridx ci u))).
  { rewrite (px_comm _ X). apply px_cancel with (n := size); [exact LXs|apply px_len; assumption]. }
  rewrite V1. rewrite pn_xor_ok by (rewrite (px_len _ _ size EL RL); congruence). cbn [bind].
  assert (V2 : px (px (ent idx) (ent (ridx ci u))) (ent (ridx ci u)) = ent idx).
  { rewrite (px_comm (ent idx)), px_comm. apply px_cancel with (n := size); assumption. }
  rewrite V2. rewrite I8. rewrite (pn_get_ok _ ci 0) by lia. fold u. cbn [bind].
  rewrite I4. destruct (Nat.eqb_spec u m2) as [|_]; [contradiction|].
  assert (BL : ci * m2 + u < m2 * sets).
  { assert ((ci + 1) * m2 <= sets * m2) by (apply Nat.mul_le_mono_r; lia). lia. }
  rewrite (pn_get_ok _ (ci * m2 + u) (back_at done 0)) by (rewrite I7, map_length, seq_length; exact BL). rewrite I7.
  rewrite nth_map_seq by exact BL. cbn [bind].
  set (t := tagp (m1 + (ci * m2 + u))).
  assert (BP : pb_parity (back_at done (ci * m2 + u)) = xsum size (map (cell t) (filter (fun x => negb (Nat.eqb x ci)) done))).
  { cbn [back_at pb_parity]. fold t. f_equal. f_equal. apply filter_ext. intros x. apply outside_ne. exact LU. }
  assert (BPL : length (pb_parity (back_at done (ci * m2 + u))) = size).
  { rewrite BP. apply xsum_len. intros x Hx. apply in_map_iff in Hx. destruct Hx as [y [<- Hy]]. apply filter_In in Hy. apply cell_len.
    destruct Hy as [Hy _]. apply (Permutation_in y Hdone) in Hy. apply in_seq in Hy. lia. }
  rewrite pn_xor_ok by congruence. cbn [bind fst snd].
  set (s' := {| ps_tag := pb_tag (back_at done (ci * m2 + u)); ps_parity := px (ent idx) (pb_parity (back_at done (ci * m2 + u))); ps_point := idx; ps_prog := true |}).
  assert (PT' : forall i, pt s' i = if Nat.eqb i ci then idx else i * chunk + pn_off prf chunk t i).
  { intros i. unfold pt. cbn [s' ps_prog ps_point andb ps_tag back_at pb_tag]. fold ci. reflexivity. }
  eexists _, _, _, false. split; [reflexivity|]. split; [reflexivity|]. split; [discriminate|].
  cbn [pc_miss pc_cache pc_prim]. split; [reflexivity|].
  assert (CK : forall k, pn_find k ((idx, ent idx) :: pc_cache c) <> None <-> k = idx \/ cached c k).
  { intros k. unfold cached. cbn [pn_find]. destruct (Nat.eqb_spec k idx) as [->|N]; split; intros Y; try discriminate; auto. destruct Y; [contradiction|assumption]. }
  split; [intros k Hk; apply CK; exact Hk|]. split; [intros _; apply CK; left; reflexivity|]. split; [intros k Hk; apply CK; right; exact Hk|].
  right. exists h. split; [exact NC|]. split; [reflexivity|]. split; [exact LU|].
  split; [|split; [|split]].
  - unfold q. rewrite TE. rewrite abs_upd; [|unfold rowof; rewrite map_length, seq_length; reflexivity|exact Hci]. rewrite abs_row by exact PB. reflexivity.
  - rewrite map_upd. fold T. f_equal. unfold rowof, brow. fold t. apply (list_ext 0).
    + rewrite upd_length, !map_length. reflexivity.
    + intros i Hi. rewrite map_length, seq_length in Hi. rewrite nth_map_seq by exact Hi. rewrite PT'.
      destruct (Nat.eqb_spec i ci) as [->|N].
      * rewrite upd_nth by (rewrite map_length, seq_length; exact Hi). lia.
      * rewrite upd_nth_other by exact N. rewrite nth_map_seq by exact Hi. lia.
  - rewrite map_upd. reflexivity.
  - constructor; cbn [pc_size pc_chunk pc_sets pc_m2 pc_prim pc_back pc_bused pc_repl pc_cache pc_miss pc_mask]; auto.
    + rewrite upd_length. exact I5.
    + intros x Hx. apply upd_In in Hx. destruct Hx as [->|Hx].
      * cbn [s' ps_parity ps_prog ps_point]. split.
        { rewrite BP. rewrite (xsum_perm size _ _ (Permutation_map _ (perm_one ci Hci))). cbn [map xsum fold_right]. f_equal.
          - rewrite PT', Nat.eqb_refl. reflexivity.
          - unfold xsum. f_equal. apply map_ext_in. intros i Hi. apply filter_In in Hi. destruct Hi as [_ Hi]. rewrite PT'. destruct (Nat.eqb i ci); [discriminate|reflexivity]. }
        intros _. split; [exact Hidx|]. apply CK. left. reflexivity.
      * destruct (I6 x Hx) as [J1 J2]. split; [exact J1|]. intros P. destruct (J2 P). split; [assumption|]. apply CK. right. assumption.
    + rewrite upd_length. exact I9.
    + intros k. destruct (Nat.eq_dec k ci) as [->|N]; [rewrite upd_nth by lia; exact LU|rewrite upd_nth_other by exact N; apply I10].
    + rewrite I11. apply (list_ext (repl_at 0 0)).
      * rewrite upd_length, !map_length. reflexivity.
      * intros i Hi. rewrite upd_length, map_length, seq_length in Hi. rewrite nth_map_seq by exact Hi.
        destruct (Nat.eq_dec i ci) as [->|N].
        { rewrite upd_nth by (rewrite map_length, seq_length; exact Hi). rewrite upd_nth by lia. reflexivity. }
        { rewrite !upd_nth_other by exact N. rewrite nth_map_seq by exact Hi. reflexivity. }
    + intros k e. cbn [pn_find]. destruct (Nat.eqb_spec k idx) as [->|N]; [|apply I12]. intros F. injection F as <-. split; [exact Hidx|reflexivity].
Qed.

(** ** Sequences of queries *)
Definition shape (q : list nat) : Prop := length q = sets /\ forall i, i < sets -> nth i q 0 / chunk = i.
Lemma abs_shape : forall v, (forall i, i < sets -> nth i v 0 < chunk) -> shape (abs_ix v).
Proof.
  intros v H. split; [unfold abs_ix; rewrite map_length, seq_length; reflexivity|].
  intros i Hi. unfold abs_ix. rewrite nth_map_seq by exact Hi. apply div_chunk, H, Hi.
Qed.
Lemma row_lt : forall c used, on_inv used c -> forall h i, i < sets -> nth i (nth h (map rowof (pc_prim c)) []) 0 < chunk.
Proof.
  intros c used I h i Hi. pose proof chunk_pos as C. destruct (Nat.lt_ge_cases h (length (pc_prim c))) as [H|H].
  - set (d0 := {| ps_tag := 0; ps_parity := []; ps_point := 0; ps_prog := false |}).
    rewrite (nth_indep _ [] (rowof d0)) by (rewrite map_length; exact H). rewrite map_nth. unfold rowof. rewrite nth_map_seq by exact Hi.
    assert (Hs : In (nth h (pc_prim c) d0) (pc_prim c)) by (apply nth_In; exact H).
    destruct (ni_prim _ _ I _ Hs) as [_ PP].
    pose proof (pt_bound (nth h (pc_prim c) d0) i (fun P => proj1 (PP P)) Hi) as [_ B]. clear - B. lia.
  - rewrite (nth_overflow (map rowof _)) by (rewrite map_length; exact H). destruct i; exact C.
Qed.
Definition good_result (qr : nat * (nat -> N)) (r : pn_entry * list nat * bool) : Prop :=
  (snd r = false -> fst (fst r) = ent (fst qr)) /\ (snd r = true -> fst (fst r) = pn_zero size) /\ shape (snd (fst r)).
Lemma round_good : forall used c idx r, on_inv used c -> idx < total ->
  exists used' c' res, pn_round prf (pn_server_new db num size seed) c idx r = Ok (c', res) /\ on_inv used' c' /\ good_result (idx, r) res.
Proof.
  intros used c idx r I Hidx. destruct (round_ok used c idx r I Hidx) as (c' & e & q & err & E & G1 & G2 & _ & _ & _ & _ & D).
  pose proof chunk_pos as C.
  destruct D as [(Q & _ & I' & _)|(h & _ & FH & LU & Q & _ & _ & I')].
  - exists used, c', (e, q, err). split; [exact E|]. split; [exact I'|]. split; [exact G1|]. split; [intros X; exact (proj1 (G2 X))|].
    cbn [fst snd]. rewrite Q. apply abs_shape. intros i Hi. apply (mask_offs_lt r). apply nth_In. unfold mask_offs. rewrite map_length, seq_length. exact Hi.
  - eexists _, c', (e, q, err). split; [exact E|]. split; [exact I'|]. split; [exact G1|]. split; [intros X; exact (proj1 (G2 X))|].
    cbn [fst snd]. rewrite Q. apply abs_shape. intros i Hi.
    destruct (Nat.eq_dec i (idx / chunk)) as [->|N].
    + rewrite upd_nth; [apply low_lt|].
      destruct (first_hit_some _ _ _ _ FH) as [Hh _]. rewrite map_length in Hh.
      set (d0 := {| ps_tag := 0; ps_parity := []; ps_point := 0; ps_prog := false |}).
      rewrite (nth_indep _ [] (rowof d0)) by (rewrite map_length; exact Hh). rewrite map_nth. unfold rowof. rewrite map_length, seq_length. exact Hi.
    + rewrite upd_nth_other by exact N. eapply row_lt; eassumption.
Qed.
Lemma rounds_good : forall qs used c, on_inv used c -> (forall q, In q qs -> fst q < total) ->
  exists res, pn_rounds prf (pn_server_new db num size seed) c qs = Ok res /\ Forall2 good_result qs res.
Proof.
  induction qs as [|[idx r] rest IH]; intros used c I H; cbn [pn_rounds].
  - exists []. split; [reflexivity|constructor].
  - assert (Hi : idx < total) by (apply (H (idx, r)); left; reflexivity).
    destruct (round_good used c idx r I Hi) as (used' & c' & res & -> & I' & G). cbn [bind fst snd].
    destruct (IH used' c' I') as [rs [-> F]]; [intros q Hq; apply H; right; exact Hq|]. cbn [bind]. exists (res :: rs). split; [reflexivity|constructor; assumption].
Qed.

(** What the server sees, computed from the offsets only. *)
Fixpoint aviews (T : list (list nat)) (pools : list (list (list nat * nat))) (qs : list (nat * nat)) (masks : list (list nat)) : list (list nat) :=
  match qs, masks with
  | (ci, off) :: qs', m :: masks' =>
      match first_hit T ci off, nth ci pools [] with
      | Some h, (R, r) :: rest =>
          pn_upd ci r (nth h T []) :: aviews (pn_upd h (pn_upd ci off R) T) (pn_upd ci rest pools) qs' masks'
      | _, _ => m :: aviews T pools qs' masks'
      end
  | _, _ => []
  end.
Definition pool_rel (used : list nat) (pools : list (list (list nat * nat))) : Prop :=
  length pools = sets /\ forall ci, ci < sets ->
    nth ci pools [] = map (fun k => (brow ci k, pn_low chunk (rnd ci k))) (seq (nth ci used 0) (m2 - nth ci used 0)).
Lemma rounds_views : forall qs used c pools, on_inv used c -> pool_rel used pools -> NoDup (map fst qs) ->
  (forall q, In q qs -> fst q < total /\ ~ cached c (fst q)) ->
  exists res, pn_rounds prf (pn_server_new db num size seed) c qs = Ok res /\
    map (fun r => snd (fst r)) res =
      map abs_ix (aviews (map rowof (pc_prim c)) pools (map (fun q => (fst q / chunk, fst q mod chunk)) qs) (map (fun q => mask_offs (snd q)) qs)).
Proof.
  induction qs as [|[idx r] rest IH]; intros used c pools I PR ND H; cbn [pn_rounds].
  - exists []. split; reflexivity.
  - destruct (H (idx, r)) as [Hidx NC]; [left; reflexivity|]. cbn [fst] in Hidx, NC. inversion ND as [|? ? Nin ND']; subst.
    destruct (round_ok used c idx r I Hidx) as (c' & e & q & err & E & _ & _ & _ & CK & _ & _ & D).
    rewrite E. cbn [bind fst snd map aviews].
    assert (H' : forall q0, In q0 rest -> fst q0 < total /\ ~ cached c' (fst q0)).
    { intros q0 Hq. destruct (H q0 (or_intror Hq)) as [B1 B2]. split; [exact B1|]. intros F. apply CK in F. destruct F as [F|F]; [|contradiction].
      apply Nin. rewrite <- F. apply (in_map fst). exact Hq. }
    pose proof (idx_ci idx Hidx) as Hci. destruct PR as [PL PR].
    destruct D as [(Q & TP & I' & D)|(h & _ & FH & LU & Q & TP & _ & I')].
    + destruct (IH used c' pools I' (conj PL PR) ND' H') as [rs [-> V]]. cbn [bind]. eexists. split; [reflexivity|].
      cbn [map fst snd]. rewrite V, Q, TP.
      destruct D as [D|[D|D]].
      * contradiction.
      * rewrite D. reflexivity.
      * rewrite (PR _ Hci), D, Nat.sub_diag. cbn [seq map]. destruct (first_hit _ _ _); reflexivity.
    + set (ci := idx / chunk) in *. set (u := nth ci used 0) in *.
      assert (PH : nth ci pools [] = (brow ci u, pn_low chunk (rnd ci u)) :: map (fun k => (brow ci k, pn_low chunk (rnd ci k))) (seq (S u) (m2 - S u))).
      { rewrite (PR _ Hci). fold u. replace (m2 - u) with (S (m2 - S u)) by lia. reflexivity. }
      rewrite FH, PH.
      destruct (IH _ c' (pn_upd ci (map (fun k => (brow ci k, pn_low chunk (rnd ci k))) (seq (S u) (m2 - S u))) pools) I') as [rs [-> V]].
      * split; [rewrite upd_length; exact PL|]. intros i Hi. destruct (Nat.eq_dec i ci) as [->|N].
        { rewrite !upd_nth by (rewrite ?PL, ?(ni_ulen _ _ I); exact Hi). reflexivity. }
        { rewrite !upd_nth_other by exact N. apply PR, Hi. }
      * exact ND'.
      * exact H'.
      * cbn [bind]. eexists. split; [reflexivity|]. cbn [map fst snd]. rewrite V, Q, TP. reflexivity.
Qed.

(** *** When no error is logged *)
Definition hitn (T : list (list nat)) (ci off : nat) : nat := length (filter (fun r => Nat.eqb off (nth ci r 0)) T).
Lemma hitn_upd : forall T h r ci off, hitn T ci off <= S (hitn (pn_upd h r T) ci off).
Proof.
  unfold hitn. induction T as [|x T IH]; intros [|h] r ci off; cbn [pn_upd filter]; try lia.
  - destruct (Nat.eqb off (nth ci x 0)), (Nat.eqb off (nth ci r 0)); cbn [length]; lia.
  - specialize (IH h r ci off). destruct (Nat.eqb off (nth ci x 0)); cbn [length]; lia.
Qed.
Lemma hitn_first : forall T ci off, 0 < hitn T ci off -> first_hit T ci off <> None.
Proof.
  unfold hitn. induction T as [|x T IH]; intros ci off H; [cbn in H; lia|]. cbn [filter first_hit] in *.
  destruct (Nat.eqb off (nth ci x 0)); [discriminate|]. specialize (IH ci off H). destruct (first_hit T ci off); [discriminate|contradiction].
Qed.
Lemma rounds_noerr : forall pre used c idx r post, on_inv used c -> (forall q, In q (pre ++ (idx, r) :: post) -> fst q < total) ->
  nth (idx / chunk) used 0 + length (filter (fun q => Nat.eqb (fst q / chunk) (idx / chunk)) pre) < m2 ->
  length pre < hitn (map rowof (pc_prim c)) (idx / chunk) (idx mod chunk) \/ pn_find idx (pc_miss c) <> None ->
  exists res e q, pn_rounds prf (pn_server_new db num size seed) c (pre ++ (idx, r) :: post) = Ok res /\
    nth_error res (length pre) = Some (e, q, false) /\ e = ent idx.
Proof.
  induction pre as [|[i0 r0] pre IH]; intros used c idx r post I HB HU HH; cbn [app pn_rounds].
  - assert (Hidx : idx < total) by (apply (HB (idx, r)); left; reflexivity).
    destruct (round_ok used c idx r I Hidx) as (c' & e & q & err & E & G1 & G2 & _ & _ & _ & _ & D).
    assert (I' : exists used', on_inv used' c') by (destruct D as [(_ & _ & I' & _)|(h & _ & _ & _ & _ & _ & _ & I')]; eauto). destruct I' as [used' I'].
    rewrite E. cbn [bind fst snd].
    destruct (rounds_good post used' c' I') as [rs [-> _]]; [intros q0 Hq; apply HB; right; exact Hq|]. cbn [bind].
    destruct err.
    + exfalso. destruct (G2 eq_refl) as (_ & _ & [[F M]|[F M]]).
      * destruct HH as [HH|HH]; [|contradiction]. cbn [length] in HH. apply hitn_first in HH. contradiction.
      * cbn [filter length] in HU. lia.
    + exists ((e, q, false) :: rs), e, q. split; [reflexivity|]. split; [reflexivity|]. apply G1. reflexivity.
  - assert (Hi0 : i0 < total) by (apply (HB (i0, r0)); left; reflexivity).
    destruct (round_ok used c i0 r0 I Hi0) as (c' & e & q & err & E & _ & _ & MS & _ & _ & _ & D).
    rewrite E. cbn [bind fst snd].
    assert (HB' : forall q, In q (pre ++ (idx, r) :: post) -> fst q < total) by (intros; apply HB; right; assumption).
    assert (X : exists used', on_inv used' c' /\ nth (idx / chunk) used' 0 + length (filter (fun q => Nat.eqb (fst q / chunk) (idx / chunk)) pre) < m2 /\
      (length pre < hitn (map rowof (pc_prim c')) (idx / chunk) (idx mod chunk) \/ pn_find idx (pc_miss c') <> None)).
    { rewrite MS. cbn [filter fst length] in HU, HH. destruct D as [(_ & PP & I' & _)|(h & _ & _ & LU & _ & TP & _ & I')].
      - exists used. split; [exact I'|]. rewrite PP. split; [destruct (Nat.eqb _ _); cbn [length] in HU; lia|]. destruct HH as [HH|HH]; [left; lia|right; exact HH].
      - eexists. split; [exact I'|]. split.
        + destruct (Nat.eq_dec (i0 / chunk) (idx / chunk)) as [EQ|NE].
          * rewrite EQ in *. rewrite Nat.eqb_refl in HU. cbn [length] in HU. rewrite upd_nth; [lia|].
            rewrite (ni_ulen _ _ I). apply idx_ci. apply (HB (idx, r)). apply in_or_app. right. left. reflexivity.
          * apply Nat.eqb_neq in NE. rewrite NE in HU. rewrite upd_nth_other; [lia|]. apply Nat.eqb_neq in NE. congruence.
        + rewrite TP. destruct HH as [HH|HH]; [left|right; exact HH].
          pose proof (hitn_upd (map rowof (pc_prim c)) h (pn_upd (i0 / chunk) (i0 mod chunk) (brow (i0 / chunk) (nth (i0 / chunk) used 0))) (idx / chunk) (idx mod chunk)). lia. }
    destruct X as (used' & I' & HU' & HH'). destruct (IH used' c' idx r post I' HB' HU' HH') as (rs & e' & q' & -> & N & Ee). cbn [bind].
    eexists _, e', q'. split; [reflexivity|]. split; [exact N|exact Ee].
Qed.

(** An index answered once is answered again. *)
Lemma rounds_cached : forall qs used c idx, on_inv used c -> (forall q, In q qs -> fst q < total) -> cached c idx ->
  forall res, pn_rounds prf (pn_server_new db num size seed) c qs = Ok res ->
  forall b r e q err, nth_error qs b = Some (idx, r) -> nth_error res b = Some (e, q, err) -> err = false.
Proof.
  induction qs as [|[i0 r0] qs IH]; intros used c idx I HB HC res E b r e q err Nb Rb; [destruct b; discriminate|]. cbn [pn_rounds] in E.
  assert (Hi0 : i0 < total) by (apply (HB (i0, r0)); left; reflexivity).
  destruct (round_ok used c i0 r0 I Hi0) as (c' & e0 & q0 & err0 & E0 & _ & G2 & _ & _ & _ & CM & D).
  assert (I' : exists used', on_inv used' c') by (destruct D as [(_ & _ & I' & _)|(h & _ & _ & _ & _ & _ & _ & I')]; eauto). destruct I' as [used' I'].
  rewrite E0 in E. cbn [bind fst snd] in E.
  assert (HB' : forall q, In q qs -> fst q < total) by (intros; apply HB; right; assumption).
  destruct (rounds_good qs used' c' I' HB') as [rs [ER _]]. rewrite ER in E. cbn [bind] in E. injection E as <-.
  destruct b as [|b]; cbn [nth_error] in Nb, Rb.
  - injection Nb as -> ->. injection Rb as -> -> ->. destruct err; [|reflexivity]. destruct (G2 eq_refl) as (_ & NC & _). contradiction.
  - eapply (IH used' c' idx I' HB' (CM _ HC) rs ER); eassumption.
Qed.
Lemma rounds_repeat : forall qs used c, on_inv used c -> (forall q, In q qs -> fst q < total) ->
  forall res, pn_rounds prf (pn_server_new db num size seed) c qs = Ok res ->
  forall a b ra rb idx ea qa eb qb err, a < b -> nth_error qs a = Some (idx, ra) -> nth_error qs b = Some (idx, rb) ->
    nth_error res a = Some (ea, qa, false) -> nth_error res b = Some (eb, qb, err) -> err = false.
Proof.
  induction qs as [|[i0 r0] qs IH]; intros used c I HB res E a b ra rb idx ea qa eb qb err Hab Na Nb Ra Rb; [destruct a; discriminate|]. cbn [pn_rounds] in E.
  assert (Hi0 : i0 < total) by (apply (HB (i0, r0)); left; reflexivity).
  destruct (round_ok used c i0 r0 I Hi0) as (c' & e0 & q0 & err0 & E0 & _ & G2 & _ & _ & CI & CM & D).
  assert (I' : exists used', on_inv used' c') by (destruct D as [(_ & _ & I' & _)|(h & _ & _ & _ & _ & _ & _ & I')]; eauto). destruct I' as [used' I'].
  rewrite E0 in E. cbn [bind fst snd] in E.
  assert (HB' : forall q, In q qs -> fst q < total) by (intros; apply HB; right; assumption).
  destruct (rounds_good qs used' c' I' HB') as [rs [ER _]]. rewrite ER in E. cbn [bind] in E. injection E as <-.
  destruct b as [|b]; [lia|]. destruct a as [|a]; cbn [nth_error] in Na, Nb, Ra, Rb.
  - injection Na as -> ->. injection Ra as -> -> ->. eapply (rounds_cached qs used' c' idx I' HB'); try eassumption. apply CI. right. reflexivity.
  - eapply (IH used' c' I' HB' rs ER a b); try eassumption. lia.
Qed.
End P.
