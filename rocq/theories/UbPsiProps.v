(** C35: unbalanced PSI, offline and online phases together. *)
From Coq Require Import List NArith Bool Arith Lia Permutation.
From Verif Require Import Base BaseProofs Text StoreModel StoreProofs2 JoinSpec JoinProofs2 ShufModel UbCacheModel UbPsiModel UbPsiSpec
  UbPsiProofs UbPsiProofs2.
Import ListNotations.

(** Server table [srv], read in raw batches that are shuffled with any permutations; client table
    [cli] in any batches; every batch size, thread count and thread schedule; results for the client
    only, the server only ([shuffle] then is the permutation drawn by the server), or both.  The
    OPRF is correct, has fixed lengths, and does not collide on the keys of the two tables. *)
Theorem C35_both_sides :
  forall (Item : Type) (eqb : Item -> Item -> bool)
    (simple_eval blind : Item -> bytes) (evaluate finalize : bytes -> bytes) (cl pl : nat),
  (forall x y, eqb x y = true <-> x = y) ->
  0 < cl < max_cipher -> 0 < pl ->
  (forall x, length (simple_eval x) = cl) -> (forall x, length (blind x) = pl) ->
  (forall x, length (evaluate (blind x)) = pl) ->
  (forall x, finalize (evaluate (blind x)) = simple_eval x) ->
  forall src (client : list (list (Item * N))) priv moved bsg bst bso bsc threads sched shuffle sg,
  let srv := concat (map (rb_items Item) src) in
  let cli := concat client in
  Forall (fun b => rb_items Item b <> [] /\ Permutation (rb_left Item b) (seq 0 (length (rb_items Item b)))) src ->
  (N.of_nat (length srv) < max32)%N -> Forall (fun e => (snd e < max32)%N) srv -> (N.of_nat (length cli) < max32)%N ->
  NoDup (map fst srv) -> NoDup (map fst cli) ->
  (forall x y, In x (map fst srv ++ map fst cli) -> In y (map fst srv ++ map fst cli) -> simple_eval x = simple_eval y -> x = y) ->
  0 < bsg -> 0 < bst -> 0 < bso -> 0 < bsc -> 0 < threads -> (forall i n, valid_schedule n threads (sched i n)) ->
  good_shuffle (length cli) shuffle ->
  exists c d rc rs nc ns,
    offline_server Item simple_eval cl priv bsg moved src = Ok c /\ offline_transfer cl bst c = Ok d /\
    online Item blind evaluate finalize cl pl bso bsc threads sched shuffle sg c d client = Ok ((rc, nc), (rs, ns)) /\
    nc = total_rows Item srv /\ (shuffle = None -> Permutation rc (joined Item eqb cli srv)) /\
    (sg = true -> Permutation rs (joined Item eqb srv cli) /\ ns = total_rows Item cli).
Proof.
  intros Item eqb simple_eval blind evaluate finalize cl pl HE [H1 H2] H3 L1 L2 L3 HO.
  exact (whole_run Item eqb simple_eval blind evaluate finalize cl pl HE H1 H2 H3 L1 L2 L3 HO).
Qed.
Print Assumptions C35_both_sides.

(** The table of unique keys of some rows, as the join stage prepares it. *)
Definition unique_table {Key Row : Type} (keqb : Key -> Key -> bool) (key : Row -> Key) (dk : list Key) (rows : list Row) : list (Key * N) :=
  map (fun k => (k, N.of_nat (key_count keqb key k rows - 1))) dk.

(** On tables of unique keys the result is the index list the join stage expects (C04, C05). *)
Theorem C35_join_input :
  forall (Key L R : Type) (keqb : Key -> Key -> bool) (lkey : L -> Key) (rkey : R -> Key) (ls : list L) (rs : list R) dk pk,
  (forall x y, keqb x y = true <-> x = y) ->
  (forall k, In k pk <-> In k (map rkey rs)) ->
  joined Key keqb (unique_table keqb lkey dk ls) (unique_table keqb rkey pk rs) = exact_index keqb rkey dk rs.
Proof.
  intros Key L R keqb lkey rkey ls rs dk pk HE HK. unfold joined, exact_index. change 0%N with (N.of_nat 0).
  generalize 0 as i. induction dk as [|k dk IH]; intros i; [reflexivity|].
  unfold unique_table in *. cbn [map number flat_map exact_index_from fst snd].
  replace (N.of_nat i + 1)%N with (N.of_nat (S i)) by lia. rewrite <- IH.
  destruct (find (fun q : Key * N => keqb (fst q) k) (map (fun k0 => (k0, N.of_nat (key_count keqb rkey k0 rs - 1))) pk)) as [[k' n]|] eqn:E.
  - apply find_some in E. destruct E as (I & E). apply HE in E. cbn in E. subst k'.
    apply in_map_iff in I. destruct I as (k' & Q & I). inversion Q; subst. cbn [snd].
    apply HK in I. apply in_map_iff in I. destruct I as (r & <- & I).
    assert (J : In r (filter (fun r' => keqb (rkey r) (rkey r')) rs)) by (apply filter_In; split; [exact I|apply HE; reflexivity]).
    unfold key_count. destruct (filter _ rs) as [|x f]; [destruct J|]. cbn [length].
    replace (S (length f) - 1) with (length f) by lia. reflexivity.
  - destruct (key_count keqb rkey k rs) as [|n] eqn:C; [reflexivity|]. exfalso.
    unfold key_count in C. destruct (filter (fun r => keqb k (rkey r)) rs) as [|x f] eqn:F; [discriminate|].
    assert (I : In x (filter (fun r => keqb k (rkey r)) rs)) by (rewrite F; left; reflexivity). apply filter_In in I.
    destruct I as (I & Q). apply HE in Q. subst k.
    assert (K : In (rkey x) pk) by (apply HK; apply in_map; exact I).
    assert (Z := find_none _ _ E (rkey x, N.of_nat (key_count keqb rkey (rkey x) rs - 1)) ltac:(apply in_map_iff; eauto)). cbn [fst] in Z.
    rewrite (proj2 (HE (rkey x) (rkey x)) eq_refl) in Z. discriminate.
Qed.
Print Assumptions C35_join_input.

(** A toy OPRF on numbers; server keys 5 7 9 6 (7 three times), client keys 9 1 7 (9 twice). *)
Definition c35_src : list (raw_batch N) := [mk_raw N [(5, 0); (7, 2)]%N [1; 0]; mk_raw N [(9, 0); (6, 0)]%N [1; 0]].
Definition c35_client : list (list (N * N)) := [[(9, 1); (1, 0)]; [(7, 0)]]%N.
Definition c35_sched (i n : nat) : list (nat * nat) := serial_schedule n 2.
Definition c35_run (shuffle : option (list nat)) :=
  do c <- offline_server N (fun x => [x; 1]%N) 2 [] 3 0%N c35_src;
  do d <- offline_transfer 2 2 c;
  online N (fun x => [x; 3; 4]%N) (fun b => firstn 1 b ++ [1%N; 4%N]) (firstn 2) 2 3 2 3 2 c35_sched shuffle true c d c35_client.
Example C35_example :
  c35_run None = Ok ([(2, 2); (0, 0)], 6, ([(1, 0); (2, 1)], 4))%N /\
  c35_run (Some [2; 0; 1]) = Ok ([(0, 2); (1, 0)], 6, ([(1, 0); (2, 1)], 4))%N /\
  joined N N.eqb (concat c35_client) (concat (map (rb_items N) c35_src)) = [(0, 0); (2, 2)]%N /\
  joined N N.eqb (concat (map (rb_items N) c35_src)) (concat c35_client) = [(1, 0); (2, 1)]%N.
Proof. repeat split; vm_compute; reflexivity. Qed.
(** The hypotheses hold for it. *)
Example C35_example_hypotheses :
  (forall x : N, firstn 2 (firstn 1 [x; 3; 4]%N ++ [1%N; 4%N]) = [x; 1]%N) /\
  (forall i n, valid_schedule n 2 (c35_sched i n)) /\
  Permutation [2; 0; 1] (seq 0 (length (concat c35_client))) /\
  NoDup (map fst (concat (map (rb_items N) c35_src))) /\ NoDup (map fst (concat c35_client)).
Proof.
  split; [reflexivity|]. split; [intros i n; apply serial_valid|]. split.
  { cbn. apply Permutation_sym. apply (Permutation_cons_app [2] [1] 0). apply (Permutation_cons_app [2] [] 1). reflexivity. }
  split; cbn; repeat constructor; cbn; intuition discriminate.
Qed.
