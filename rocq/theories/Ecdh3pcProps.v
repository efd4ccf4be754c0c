(** C16: three-party ECDH PSI returns exactly the three-way intersection. *)
From Coq Require Import List NArith Bool Arith Lia Sorting.Permutation Sorting.Sorted.
From Verif Require Import Base Text TextProofs StoreModel EcdhModel EcdhProofs Ecdh3pcModel Ecdh3pcProofs.
Import ListNotations.

(** The three ranks have three different roles, whoever is the master. *)
Theorem C16_roles : forall master r, master < 3 -> r < 3 ->
  match is_master master r, is_calculator master r, is_partner master r with
  | true, false, false => r = master
  | false, true, false => r = next_rank master
  | false, false, true => r = prev_rank master
  | _, _, _ => False
  end.
Proof.
  intros master r H1 H2.
  destruct master as [|[|[|]]]; try lia; destruct r as [|[|[|]]]; try lia; reflexivity.
Qed.

(** The master gets those of its items, in its order, that both other parties hold; the others
    get nothing.  [tri x] is the form in which the master compares items, [two x] the one in
    which the calculator does; both must separate the items compared. *)
Theorem C16_three_party_exact :
  forall (Point : Type) (hash_point : bytes -> Point) (mask : nat -> Point -> Point)
         (ser : Point -> bytes) (deser : bytes -> Point) (L dual_mask_size bsz : nat)
         (srt shuffle : list bytes -> list bytes) (master rank : nat) (inputs : nat -> list bytes),
  let a := next_rank master in
  let b := prev_rank master in
  let two x := ser (mask a (mask b (hash_point x))) in
  let tri x := last_bytes dual_mask_size (ser (mask master (mask a (mask b (hash_point x))))) in
  (forall x, deser (ser x) = x) -> (forall x, length (ser x) = L) -> dual_mask_size <= L -> 0 < bsz ->
  (forall i j x, mask i (mask j x) = mask j (mask i x)) ->
  (forall l, Permutation (srt l) l) -> (forall l, bsorted (srt l)) -> (forall l, Permutation (shuffle l) l) ->
  (forall x y, In x (inputs a) -> In y (inputs b) -> two x = two y -> x = y) ->
  (forall x y, In x (inputs a) -> In y (inputs master) -> tri x = tri y -> x = y) ->
  run3 Point hash_point mask ser deser L dual_mask_size bsz srt shuffle master rank inputs =
  Ok (if Nat.eqb rank master
      then filter (fun z => existsb (beqb z) (inputs a) && existsb (beqb z) (inputs b)) (inputs master)
      else []).
Proof.
  intros Point hash_point mask ser deser L dms bsz srt shuffle master rank inputs a b two tri
    DS LS HD HB CM SP SS SH I2 I3.
  unfold run3, mask_master, partners_psi, mask_shuffle_peer. fold a b.
  rewrite !send_pts.
  rewrite (forward_stream Point mask ser deser L DS LS a None) by (apply pts_nonempty; exact HB). cbn [bind trunc_to].
  assert (E1 : map (map (fun p => ser (mask a p))) (pts Point hash_point mask bsz master (inputs master)) =
               map (map ser) (map (map (mask a)) (pts Point hash_point mask bsz master (inputs master)))).
  { rewrite map_map. apply map_ext. intros l. rewrite map_map. reflexivity. }
  rewrite E1.
  assert (NE : Forall (fun b => b <> []) (map (map (mask a)) (pts Point hash_point mask bsz master (inputs master)))).
  { pose proof (pts_nonempty Point hash_point mask bsz master (inputs master) HB) as N. rewrite Forall_forall in *. intros l Hl.
    apply in_map_iff in Hl. destruct Hl as (c & <- & Hc). specialize (N c Hc). intros Z. apply N. destruct c; [reflexivity|discriminate Z]. }
  rewrite (forward_stream Point mask ser deser L DS LS b (Some dms)) by exact NE. cbn [bind trunc_to].
  rewrite (recv_points Point dms) by (first [exact NE | intros p; apply last_bytes_len; rewrite LS; exact HD]). cbn [bind].
  rewrite (recv_points Point L ser) by (first [exact LS | apply pts_nonempty; exact HB]). cbn [bind].
  rewrite pts_concat by exact HB.
  assert (LB : forall s, length s = L -> last_bytes L s = s) by (intros s <-; apply last_bytes_all).
  set (q := map (fun it => last_bytes L (ser (mask b (deser it)))) (map ser (map (fun it => mask a (hash_point it)) (inputs a)))).
  assert (Eq : q = map two (inputs a)).
  { unfold q. rewrite !map_map. apply map_ext. intros x. rewrite DS, LB by apply LS. unfold two. rewrite CM. reflexivity. }
  set (q' := if Nat.eqb (length (map ser (map (fun it => mask a (hash_point it)) (inputs a)))) 0 then [] else srt q).
  assert (Pq : Permutation q' (map two (inputs a))).
  { unfold q'. rewrite !map_length. destruct (Nat.eqb_spec (length (inputs a)) 0) as [Z|Z].
    - apply length_zero_iff_nil in Z. rewrite Z. apply perm_nil.
    - rewrite SP, Eq. apply Permutation_refl. }
  assert (Fq : Forall (fun x => length x = L) q').
  { rewrite Forall_forall. intros x Hx. apply (Permutation_in _ Pq), in_map_iff in Hx. destruct Hx as (y & <- & _). apply LS. }
  rewrite (recv_send bsz L) by assumption. cbn [bind].
  rewrite (recv_points Point L ser) by (first [exact LS | apply pts_nonempty; exact HB]). cbn [bind].
  rewrite pts_concat by exact HB.
  set (pr := map (fun it => last_bytes L (ser (mask a (deser it)))) _).
  assert (Ep : pr = map two (shuffle (inputs b))).
  { unfold pr. rewrite !map_map. apply map_ext. intros x. rewrite DS, LB by apply LS. reflexivity. }
  set (pp := set_inter (srt q') (srt pr)).
  assert (PI : forall w, In w pp <-> exists x, In x (inputs a) /\ In x (inputs b) /\ w = two x).
  { intros w. unfold pp. rewrite set_inter_spec by apply SS.
    assert (A1 : In w (srt q') <-> In w (map two (inputs a))).
    { split; apply Permutation_in; [|apply Permutation_sym]; rewrite SP; exact Pq. }
    assert (A2 : In w (srt pr) <-> In w (map two (inputs b))).
    { rewrite Ep. split; apply Permutation_in; [|apply Permutation_sym]; rewrite SP; apply Permutation_map, SH. }
    rewrite A1, A2, !in_map_iff. split.
    - intros [(x & Ex & Ix) (y & Ey & Iy)]. exists x. assert (x = y) by (apply I2; congruence). subst y. auto.
    - intros (x & Ia & Ib & ->). split; exists x; auto. }
  rewrite (recv_send bsz L).
  2: exact HB.
  2: { rewrite Forall_forall. intros x Hx. apply PI in Hx. destruct Hx as (y & _ & _ & ->). apply LS. }
  cbn [bind]. unfold is_master. destruct (Nat.eqb rank master); [|reflexivity].
  unfold final_psi.
  assert (EM : map (fun p => last_bytes dms (ser (mask b p))) (concat (map (map (mask a)) (pts Point hash_point mask bsz master (inputs master)))) =
               map tri (inputs master)).
  { rewrite <- concat_map, pts_concat by exact HB. rewrite !map_map. apply map_ext. intros x. unfold tri.
    rewrite (CM a master), (CM b master), (CM b a). reflexivity. }
  rewrite EM, final_loop_spec. f_equal. apply filter_ext_in. intros z Hz. apply eq_true_iff_eq.
  rewrite andb_true_iff, !existsb_exists. split.
  - intros (w & Iw & Ew). apply beqb_spec in Ew. subst w. apply (Permutation_in _ (SP _)), in_map_iff in Iw.
    destruct Iw as (u & Eu & Iu). apply PI in Iu. destruct Iu as (x & Ia & Ib & ->). unfold two in Eu. rewrite DS in Eu.
    assert (x = z) by (apply I3; [exact Ia|exact Hz|exact Eu]). subst x.
    split; exists z; (split; [assumption|apply beqb_spec; reflexivity]).
  - intros [(x & Ia & Ex) (y & Ib & Ey)]. apply beqb_spec in Ex, Ey. subst x y.
    exists (tri z). split; [|apply beqb_spec; reflexivity].
    apply (Permutation_in _ (Permutation_sym (SP _))), in_map_iff. exists (two z). split; [unfold tri, two; rewrite DS; reflexivity|].
    apply PI. exists z. auto.
Qed.

(** Non-trivial case: points are numbers, masking with key k adds k, items have one byte. *)
Definition t3_srt (l : list bytes) : list bytes :=
  let fix ins x l := match l with [] => [x] | y :: t => if bltb y x then y :: ins x t else x :: l end in fold_right ins [] l.
Definition t3_inputs (r : nat) : list bytes := nth r ([[[1];[5];[3];[8]]; [[3];[9];[1];[5]]; [[5];[2];[3]]]%N) [].
Definition t3_run := run3 N (fun b => nth 0 b 0%N) (fun k p => (p + N.of_nat k + 1)%N) (fun p => [0; p]%N) (fun b => nth 1 b 0%N)
  2 1 2 t3_srt (@rev bytes).
Example C16_example :
  t3_run 1 1 t3_inputs = Ok [[3]; [5]]%N /\ t3_run 1 0 t3_inputs = Ok [] /\ t3_run 0 0 t3_inputs = Ok [[5]; [3]]%N.
Proof. repeat split; reflexivity. Qed.
(** The hypotheses on sorting and on the compared forms hold there. *)
Lemma t3_srt_perm : forall l, Permutation (t3_srt l) l.
Proof.
  induction l as [|x l IH]; [constructor|]. change (t3_srt (x :: l)) with
    ((fix ins x l := match l with [] => [x] | y :: t => if bltb y x then y :: ins x t else x :: l end) x (t3_srt l)).
  revert IH. generalize (t3_srt l). intros m P. rewrite <- P. clear.
  induction m as [|y m IH]; [apply Permutation_refl|]. cbn. destruct (bltb y x); [|apply Permutation_refl].
  rewrite IH. apply perm_swap.
Qed.
Lemma t3_srt_sorted : forall l, bsorted (t3_srt l).
Proof.
  induction l as [|x l IH]; [constructor|]. change (t3_srt (x :: l)) with
    ((fix ins x l := match l with [] => [x] | y :: t => if bltb y x then y :: ins x t else x :: l end) x (t3_srt l)).
  revert IH. generalize (t3_srt l). intros m H.
  assert (P : forall x m, Permutation ((fix ins x l := match l with [] => [x] | y :: t => if bltb y x then y :: ins x t else x :: l end) x m) (x :: m)).
  { clear. intros x m. induction m as [|y m IH]; [apply Permutation_refl|]. cbn. destruct (bltb y x); [|apply Permutation_refl]. rewrite IH. apply perm_swap. }
  induction H as [|y m Hs IH F]; [repeat constructor|]. cbn. destruct (bltb y x) eqn:E.
  - constructor; [exact IH|]. rewrite Forall_forall. intros z Hz. apply (Permutation_in _ (P x m)) in Hz.
    destruct Hz as [<-|Hz]; [apply bltb_asym; exact E|]. rewrite Forall_forall in F. apply F. exact Hz.
  - constructor; [constructor; assumption|]. rewrite Forall_forall in *. intros z [<-|Hz]; [exact E|].
    specialize (F z Hz). apply not_true_is_false. intros T.
    destruct (bltb x y) eqn:E2; [pose proof (bltb_trans _ _ _ T E2); congruence|].
    pose proof (bltb_total _ _ E E2). subst y. congruence.
Qed.
Example C16_hypotheses :
  let two (x : bytes) := [0; nth 0 x 0 + 1 + 3]%N in
  let tri (x : bytes) := [nth 0 x 0 + 1 + 3 + 2]%N in
  (forall x y, In x (t3_inputs 2) -> In y (t3_inputs 0) -> two x = two y -> x = y) /\
  (forall x y, In x (t3_inputs 2) -> In y (t3_inputs 1) -> tri x = tri y -> x = y).
Proof. cbv. split; intros x y Hx Hy; intuition (subst; try reflexivity; discriminate). Qed.

Print Assumptions C16_roles.
Print Assumptions C16_three_party_exact.
