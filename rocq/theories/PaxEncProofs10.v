(** Lemmas about the Paxos encoder: it always stops; SetInput; decoding what was encoded. *)
From Coq Require Import List Arith NArith Bool Lia Permutation.
From Verif Require Import Base BaseProofs StoreModel GfModel GfSpec GfProofs GfProofs2 OkvsModel OkvsSpec OkvsProofs OkvsProofs2 OkvsProofs4
  PaxEncModel PaxEncSpec PaxEncProofs PaxEncProofs2 PaxEncProofs3 PaxEncProofs4 PaxEncProofs5 PaxEncProofs6 PaxEncProofs7 PaxEncProofs8 PaxEncProofs9.
Import ListNotations.
Local Open Scope nat_scope.

Lemma bind_nodiv : forall (A B : Type) (m : outcome A) (f : A -> outcome B), m <> Diverge ->
  (forall x, m = Ok x -> f x <> Diverge) -> bind m f <> Diverge.
Proof. intros A B [x| | |] f H K; cbn [bind]; try discriminate; [apply K; reflexivity|contradiction]. Qed.
Lemma enf_nodiv : forall (A : Type) b (k : outcome A), (b = true -> k <> Diverge) -> enforce b k <> Diverge.
Proof. intros A [|] k H; cbn [enforce]; [apply H; reflexivity|discriminate]. Qed.
Lemma vget_nodiv : forall (A : Type) (l : list A) i, vget l i <> Diverge.
Proof. intros A l i. unfold vget. destruct (nth_error l i); discriminate. Qed.
Lemma vset_nodiv : forall (A : Type) (l : list A) i x, vset l i x <> Diverge.
Proof. intros A l i x. unfold vset. destruct (i <? length l); discriminate. Qed.
Lemma ofold_nodiv : forall (A T : Type) (f : A -> T -> outcome T) l st, (forall x st, In x l -> f x st <> Diverge) -> ofold f l st <> Diverge.
Proof.
  intros A T f l. induction l as [|x r IH]; intros st H; cbn [ofold]; [discriminate|].
  apply bind_nodiv; [apply H; left; reflexivity|]. intros y _. apply IH. intros; apply H; right; assumption.
Qed.
Lemma omapM_nodiv : forall (A B : Type) (f : A -> outcome B) l, (forall x, In x l -> f x <> Diverge) -> omapM f l <> Diverge.
Proof.
  intros A B f l. induction l as [|x r IH]; intros H; cbn [omapM]; [discriminate|].
  apply bind_nodiv; [apply H; left; reflexivity|]. intros y _. apply bind_nodiv; [apply IH; intros; apply H; right; assumption|]. discriminate.
Qed.
Ltac nodiv := repeat first
  [ discriminate | apply vget_nodiv | apply vset_nodiv
  | apply ofold_nodiv; intros | apply omapM_nodiv; intros | apply enf_nodiv; intros | apply bind_nodiv; [|intros]
  | match goal with |- (if ?b then _ else _) <> _ => destruct b end ].

Lemma mx_find_nodiv : forall n i todo j mi, mx_find n i todo j mi <> Diverge.
Proof. intros n i todo. induction todo as [|t IH]; intros j mi; cbn [mx_find]; unfold mx_swap; nodiv. apply IH. Qed.
Lemma mx_rows_nodiv : forall avx n todo i mi, mx_rows avx n todo i mi <> Diverge.
Proof.
  intros avx n todo. induction todo as [|t IH]; intros i mi; cbn [mx_rows]; [discriminate|].
  unfold gf_inv, mx_scale, mx_clear, mx_addmul. nodiv; try apply mx_find_nodiv; apply IH.
Qed.
Lemma matrix_inv_nodiv : forall avx n m, matrix_inv avx n m <> Diverge.
Proof. intros. unfold matrix_inv. nodiv. apply mx_rows_nodiv. Qed.
Lemma comb_value_nodiv : forall values g fc, comb_value values g fc <> Diverge.
Proof. intros. unfold comb_value. nodiv. Qed.

Lemma pred64 : forall n, (1 <= n)%N -> (u64 (n + max64 - 1) <= n - 1)%N.
Proof.
  intros n H. unfold u64. replace (n + max64 - 1)%N with (n - 1 + 1 * max64)%N by lia. rewrite N.mod_add by discriminate.
  apply N.mod_le. discriminate.
Qed.
Lemma comb_while_nodiv : forall fuel index kk cur c n, (1 <= n)%N -> (n <= N.of_nat fuel)%N -> comb_while fuel index kk cur c n <> Diverge.
Proof.
  intros fuel. induction fuel as [|f IH]; intros index kk cur c n H1 H2; [lia|]. cbn [comb_while].
  destruct (index <? u64 (cur + max64 - c))%N; [|discriminate]. cbv zeta. pose proof (pred64 n H1) as P.
  destruct (N.eqb_spec (u64 (n + max64 - 1)) 0) as [E|E]; [discriminate|]. apply IH; lia.
Qed.
Lemma comb_outer_nodiv : forall k index cur c n acc, comb_outer k index cur c n acc <> Diverge.
Proof.
  intros k. induction k as [|k IH]; intros index cur c n acc; cbn [comb_outer]; [discriminate|].
  destruct (N.eqb_spec n 0) as [E|E]; [discriminate|]. apply bind_nodiv.
  - apply comb_while_nodiv; lia.
  - intros [[cur' c'] n'] _. apply IH.
Qed.
Lemma gap_search_nodiv : forall fuel ci e k ds, (ci <= e)%N -> (e < ci + N.of_nat fuel)%N -> gap_search fuel ci e k ds <> Diverge.
Proof.
  intros fuel. induction fuel as [|f IH]; intros ci e k ds H0 H; [lia|]. cbn [gap_search].
  apply bind_nodiv; [apply comb_outer_nodiv|]. intros cols _. apply enf_nodiv. intros L. apply N.leb_le in L.
  destruct (bm_invert _ _); [discriminate|]. apply IH; lia.
Qed.
Lemma gap_cols_nodiv : forall k ds, gap_cols k ds <> Diverge.
Proof. intros k [|d ds]; unfold gap_cols; [discriminate|]. apply gap_search_nodiv; lia. Qed.

Theorem solve_nodiv : forall w q avx gmax hs values p, param_ok w q -> Forall (fun h => (h < 2 ^ 128)%N) hs ->
  paxos_solve avx q gmax (rows_of q hs) hs values p <> Diverge.
Proof.
  intros w q avx gmax hs values p Hq Hhs. unfold paxos_solve. apply enf_nodiv. intros _.
  set (s := N.to_nat (ok_sparse q)). destruct (rows_of_ok w q hs Hq Hhs) as [HR HN]. fold s in HR.
  assert (Hs : 0 < s) by (destruct Hq as (A & _ & _ & B); lia).
  apply bind_nodiv; [apply triangulate_nodiv; assumption|]. intros t E.
  destruct (triangulate_facts s _ hs HR t Hs HN E) as [I HC].
  assert (FC : forall k, s <= k -> fc_inv (rows_of q hs) k (t_main t) (t_gap t) <> Diverge).
  { intros k Hk. apply omapM_nodiv. intros gap G. destruct (i_set _ _ _ _ I) as (_ & _ & _ & GM). rewrite Forall_forall in GM.
    destruct (fc_inv1_prog s k (rows_of q hs) (t_main t) HR Hk (i_nd _ _ _ _ I) (i_lt _ _ _ _ I) (i_tri _ _ _ _ I) (fun _ => 0%N) (fun _ _ => eq_refl) gap) as [fc EF].
    - destruct (GM gap G) as (A & B & C). assumption.
    - destruct (GM gap G) as (A & B & C). assumption.
    - rewrite EF. discriminate. }
  destruct (ok_dt q).
  - unfold backfill_bin, bin_backfill1, sparse_sum, bin_dense_sum, bin_solve. fold s. apply enf_nodiv. intros _. apply bind_nodiv.
    + destruct (length (t_gap t) =? 0); [discriminate|]. apply bind_nodiv; [apply FC; lia|]. intros fc _.
      apply bind_nodiv; [apply omapM_nodiv; intros; apply comb_value_nodiv|]. intros ds _.
      apply bind_nodiv; [apply gap_cols_nodiv|]. intros cols _. apply enf_nodiv. intros _.
      apply bind_nodiv; [apply omapM_nodiv; intros; apply comb_value_nodiv|]. intros xx _.
      destruct (bm_invert _ _); [|discriminate]. nodiv.
    + intros [cols p1] _. nodiv.
  - unfold backfill_gf, gf_backfill1, sparse_sum, gf_dense_sum, gf_solve, gf_row. fold s. apply enf_nodiv. intros _. apply bind_nodiv.
    + destruct (length (t_gap t) =? 0); [discriminate|]. apply bind_nodiv; [apply FC; lia|]. intros fc _.
      apply bind_nodiv; [nodiv|]. intros ee _.
      apply bind_nodiv; [apply omapM_nodiv; intros; apply comb_value_nodiv|]. intros xx _.
      apply bind_nodiv; [apply matrix_inv_nodiv|]. intros [inv|] _; [|discriminate]. nodiv.
    + intros p1 _. nodiv.
Qed.

(** SetInput. *)
Lemma build_rows_ok : forall fuel avx w q hs, param_ok w q -> Forall (fun h => (h < 2 ^ 128)%N) hs ->
  build_rows fuel avx w q hs = Ok (map (row_of q) hs).
Proof.
  intros fuel. induction fuel as [|f IH]; intros avx w q hs Hq Hh; cbn [build_rows].
  - apply omapM_ok. intros h X. rewrite Forall_forall in Hh. apply build_row_ok; auto.
  - destruct (32 <=? length hs).
    + assert (H := Hh). rewrite <- (firstn_skipn 32 hs) in H. apply Forall_app in H. destruct H as [H1 H2].
      rewrite build_row32_ok by assumption. cbn [bind]. rewrite IH by assumption. cbn [bind]. f_equal. rewrite <- List.map_app. f_equal. apply firstn_skipn.
    + apply omapM_ok. intros h X. rewrite Forall_forall in Hh. apply build_row_ok; auto.
Qed.
Lemma aes_all : forall (aes : N -> N) (inputs : list N), (forall x, (aes x < 2 ^ 128)%N) -> Forall (fun h => (h < 2 ^ 128)%N) (map aes inputs).
Proof. intros aes inputs H. apply Forall_forall. intros h X. apply in_map_iff in X. destruct X as (x & <- & _). apply H. Qed.
Lemma set_input_ok : forall aes avx w q inputs, (forall x, (aes x < 2 ^ 128)%N) -> param_ok w q ->
  set_input aes avx w q (length inputs) inputs = Ok (rows_of q (map aes inputs), map aes inputs).
Proof.
  intros aes avx w q inputs Ha Hq. unfold set_input. rewrite Nat.leb_refl, Nat.ltb_irrefl. cbn [enforce].
  rewrite build_rows_ok by (try assumption; apply aes_all; assumption). cbn [bind]. unfold rows_of. rewrite map_map. reflexivity.
Qed.
Lemma set_input_facts : forall aes avx w q n inputs r, (forall x, (aes x < 2 ^ 128)%N) -> param_ok w q ->
  set_input aes avx w q n inputs = Ok r -> n = length inputs /\ r = (rows_of q (map aes inputs), map aes inputs).
Proof.
  intros aes avx w q n inputs r Ha Hq H. assert (E : n = length inputs).
  { unfold set_input in H. apply enf_ok in H. destruct H as [H1 H]. apply Nat.leb_le in H1. destruct (Nat.ltb_spec (length inputs) n); [discriminate|lia]. }
  split; [assumption|]. subst n. rewrite set_input_ok in H by assumption. congruence.
Qed.

(** Decoding what was encoded. *)
Lemma all_below_at : forall m p, (forall i, (at0 p i < 2 ^ m)%N) -> all_below m p.
Proof. intros m p H. apply Forall_forall. intros x X. apply (In_nth _ _ 0%N) in X. destruct X as (i & _ & <-). apply H. Qed.
Lemma below_weaken : forall m p, (m <= 128)%N -> all_below m p -> all_below 128 p.
Proof.
  intros m p H. apply Forall_impl. intros a A. apply N.lt_le_trans with (2 ^ m)%N; [assumption|]. apply N.pow_le_mono_r; [discriminate|assumption].
Qed.
Lemma shape_128 : forall vw q, shape_ok vw q -> (vw <= 128)%N.
Proof. intros vw q H. unfold shape_ok in H. destruct (ok_dt q); destruct H as [H _]; [assumption|rewrite H; apply N.le_refl]. Qed.
Lemma solved_decode : forall aes avx w vw q inputs values P, (forall x, (aes x < 2 ^ 128)%N) -> param_ok w q -> shape_ok vw q ->
  solved vw q (map aes inputs) values P -> paxos_decode aes avx w vw q P inputs = Ok (firstn (length inputs) values).
Proof.
  intros aes avx w vw q inputs values P Ha Hq Hs (L & B & H). unfold paxos_decode. rewrite L.
  rewrite (proj2 (N.eqb_eq _ _)) by lia. cbn [enforce].
  assert (HB : all_below vw P) by (apply all_below_at; assumption).
  rewrite decode_hashed_ok by (try assumption; apply aes_all; assumption). f_equal.
  rewrite map_length in H.
  assert (LV : length inputs <= length values).
  { destruct (Nat.eq_dec (length inputs) 0) as [E|E]; [lia|]. destruct (H (length inputs - 1)) as [X _]; lia. }
  apply (nth_ext _ _ 0%N 0%N).
  - rewrite !map_length, firstn_length. lia.
  - intros i Hi. rewrite !map_length in Hi. destruct (H i Hi) as [_ X]. unfold at0 in X.
    rewrite map_map, (nth_indep _ 0%N (key_val (gf_mul avx) q P (aes 0%N))) by (rewrite map_length; assumption).
    rewrite (map_nth (fun x => key_val (gf_mul avx) q P (aes x))).
    rewrite (nth_indep _ 0%N (aes 0%N)) in X by (rewrite map_length; assumption). rewrite map_nth in X.
    rewrite (key_val_ext (gf_mul avx) (gf_mul true)); [|apply gf_is_mul|apply gf_is_mul|apply (below_weaken vw); [apply (shape_128 vw q)|]; assumption|apply Ha].
    rewrite X. rewrite <- (firstn_skipn (length inputs) values) at 1. rewrite app_nth1; [reflexivity|]. rewrite firstn_length. lia.
Qed.
