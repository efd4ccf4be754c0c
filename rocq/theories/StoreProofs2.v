From Coq Require Import List NArith ZArith Lia Bool Permutation Sorted Arith.
From Verif Require Import Base BaseProofs Text TextProofs StoreModel StoreSpec StoreProofs.
Import ListNotations.

(** ** Threads *)
Lemma compare_size_enough : forall n t, 0 < t -> n <= t * compare_size n t.
Proof.
  intros n t H. unfold compare_size.
  pose proof (Nat.div_mod (n + t - 1) t ltac:(lia)).
  pose proof (Nat.mod_upper_bound (n + t - 1) t ltac:(lia)). lia.
Qed.

Lemma ranges_prefix : forall n t k,
  flat_map (thread_range n t) (seq 0 k) = seq 0 (Nat.min n (k * compare_size n t)).
Proof.
  intros n t k. induction k as [|k IH].
  - simpl. rewrite Nat.min_0_r. reflexivity.
  - rewrite seq_S, flat_map_app, IH. cbn [flat_map Nat.add]. rewrite app_nil_r.
    unfold thread_range. set (cs := compare_size n t). replace (S k * cs) with (k * cs + cs) by lia.
    destruct (Nat.le_ge_cases n (k * cs)).
    + rewrite (Nat.min_l n (k * cs)), (Nat.min_l n (k * cs + cs)) by lia.
      replace (n - k * cs) with 0 by lia. simpl. apply app_nil_r.
    + rewrite (Nat.min_r n (k * cs)) by lia.
      replace (seq (k * cs)) with (seq (0 + k * cs)) by reflexivity.
      rewrite <- seq_app. f_equal. lia.
Qed.

Lemma ranges_tile : forall n t, 0 < t -> flat_map (thread_range n t) (seq 0 t) = seq 0 n.
Proof.
  intros n t H. rewrite ranges_prefix. f_equal. pose proof (compare_size_enough n t H). lia.
Qed.

Lemma flat_map_flat_map : forall (A B C : Type) (f : A -> list B) (g : B -> list C) l,
  flat_map g (flat_map f l) = flat_map (fun x => flat_map g (f x)) l.
Proof. induction l; simpl; auto. rewrite flat_map_app. congruence. Qed.

(** ** Schedules *)
Lemma schedule_slots : forall f tr slots idx old,
  nth_error slots idx = Some old ->
  nth_error (fold_left (thread_step f) tr slots) idx = Some (old ++ flat_map f (thread_events idx tr)).
Proof.
  intros f tr. induction tr as [|[i x] tr IH]; intros slots idx old H.
  - simpl. rewrite app_nil_r. exact H.
  - cbn [fold_left]. unfold thread_events. cbn [filter fst snd].
    unfold thread_step at 2. cbn [fst snd].
    destruct (Nat.eqb_spec i idx) as [->|E].
    + rewrite (IH _ idx (old ++ f x)).
      * cbn [map snd flat_map]. rewrite <- app_assoc. reflexivity.
      * rewrite upd_nth, Nat.eqb_refl, H. reflexivity.
    + apply IH. rewrite upd_nth. destruct (Nat.eqb_spec i idx); [contradiction|exact H].
Qed.

Lemma fold_step_length : forall f tr slots, length (fold_left (thread_step f) tr slots) = length slots.
Proof.
  intros f tr. induction tr as [|e tr IH]; intros slots; simpl; auto.
  rewrite IH. apply upd_length.
Qed.

Lemma nth_error_ext : forall (A : Type) (l1 l2 : list A),
  (forall i, nth_error l1 i = nth_error l2 i) -> l1 = l2.
Proof.
  induction l1 as [|x l1 IH]; intros [|y l2] H; auto.
  - specialize (H 0). discriminate.
  - specialize (H 0). discriminate.
  - pose proof (H 0) as H0. injection H0 as ->. f_equal. apply IH. intros i. apply (H (S i)).
Qed.

(** The slots after one batch, whatever the schedule. *)
Lemma schedule_determined : forall f n t tr slots,
  length slots = t -> valid_schedule n t tr ->
  fold_left (thread_step f) tr slots =
  map (fun p => snd p ++ flat_map f (thread_range n t (fst p))) (number 0 slots).
Proof.
  intros f n t tr slots Hl [Hv _]. apply nth_error_ext. intros i.
  rewrite (map_number_nth _ _ (fun a b => b ++ flat_map f (thread_range n t a)) slots 0 i). simpl.
  destruct (nth_error slots i) as [old|] eqn:E.
  - rewrite (schedule_slots f tr slots i old E). simpl. rewrite Hv; auto.
    rewrite <- Hl. apply nth_error_Some. congruence.
  - simpl. apply nth_error_None. rewrite fold_step_length. apply nth_error_None. exact E.
Qed.

Lemma concat_app_perm : forall (A : Type) (g : nat -> list A) (slots : list (list A)) i,
  Permutation (concat (map (fun p => snd p ++ g (fst p)) (number i slots)))
              (concat slots ++ flat_map g (seq i (length slots))).
Proof.
  intros A g slots. induction slots as [|s slots IH]; intros i; simpl; auto.
  rewrite (IH (S i)). rewrite <- !app_assoc. apply Permutation_app_head.
  rewrite !app_assoc. apply Permutation_app_tail. apply Permutation_app_comm.
Qed.

Definition pair_of (saved : list (bytes * N)) (p : nat * (bytes * N)) : list (N * N * N * N) :=
  match last_match saved (fst (snd p)) with
  | Some (i, d) => [(i, N.of_nat (fst p), d, snd (snd p))]
  | None => []
  end.

Lemma find_rev_last : forall (l : list (nat * (bytes * N))) ct acc,
  fold_left (fun r p => if beqb (fst (snd p)) ct then Some (N.of_nat (fst p), snd (snd p)) else r) l acc =
  match find (fun p => beqb (fst (snd p)) ct) (rev l) with
  | Some p => Some (N.of_nat (fst p), snd (snd p))
  | None => acc
  end.
Proof.
  intros l ct. induction l as [|x l IH] using rev_ind; intros acc; [reflexivity|].
  rewrite fold_left_app, rev_app_distr. cbn [rev app find fold_left].
  destruct (beqb (fst (snd x)) ct); [reflexivity|]. apply IH.
Qed.

Lemma cm_find_last : forall saved ct, cm_find saved ct = last_match saved ct.
Proof.
  intros saved ct. unfold cm_find, last_match. rewrite find_rev_last.
  destruct (find _ (rev (number 0 saved))); reflexivity.
Qed.

Lemma items_seq : forall (B A : Type) (f : nat -> B -> list A) (batch : list B) base,
  flat_map (fun i => match nth_error batch i with Some x => f (base + i) x | None => [] end) (seq 0 (length batch)) =
  flat_map (fun p => f (fst p) (snd p)) (number base batch).
Proof.
  intros B A f batch. induction batch as [|x batch IH]; intros base; auto.
  cbn [length seq flat_map nth_error number fst snd]. rewrite Nat.add_0_r. f_equal.
  rewrite <- seq_shift, flat_map_map, <- IH. apply flat_map_ext. intros i. cbn [nth_error].
  rewrite Nat.add_succ_r. reflexivity.
Qed.

Lemma compare_items_seq : forall saved base batch,
  flat_map (compare_item saved base batch) (seq 0 (length batch)) =
  flat_map (pair_of saved) (number base batch).
Proof.
  intros saved base batch.
  rewrite (flat_map_ext (pair_of saved) (fun p => pair_of saved (fst p, snd p))) by (intros [? ?]; reflexivity).
  rewrite <- (items_seq _ _ (fun i x => pair_of saved (i, x)) batch base).
  apply flat_map_ext. intros i. unfold compare_item, pair_of. cbn [fst snd].
  destruct (nth_error batch i) as [[ct d]|]; auto. cbn [fst snd]. rewrite cm_find_last. reflexivity.
Qed.

Lemma compute_loop_spec : forall saved t bs base slots,
  0 < t -> length slots = t ->
  Forall (fun b => fst b <> []) bs ->
  Forall (fun b => valid_schedule (length (fst b)) t (snd b)) bs ->
  Permutation (concat (compute_loop saved base bs slots))
              (concat slots ++ flat_map (pair_of saved) (number base (concat (map fst bs)))).
Proof.
  intros saved t bs. induction bs as [|[b tr] bs IH]; intros base slots Ht Hl Hne Hv.
  - simpl. rewrite app_nil_r. reflexivity.
  - inversion Hne as [|? ? Hn0 Hnr]; subst. inversion Hv as [|? ? Hv0 Hvr]; subst. cbn [fst snd] in *.
    cbn [compute_loop]. destruct b as [|x b]; [contradiction|]. remember (x :: b) as bb eqn:Ebb. clear Ebb.
    rewrite IH; auto; [|rewrite fold_step_length; reflexivity].
    rewrite (schedule_determined _ (length bb) (length slots)) by auto.
    cbn [map concat fst]. rewrite number_app, flat_map_app, app_assoc.
    apply Permutation_app_tail.
    rewrite (concat_app_perm _ (fun i => flat_map (compare_item saved base bb) (thread_range (length bb) (length slots) i))).
    apply Permutation_app_head. rewrite <- flat_map_flat_map, ranges_tile by auto.
    rewrite compare_items_seq. reflexivity.
Qed.

Lemma compute_exact : forall saved t bs,
  0 < t -> Forall (fun b => fst b <> []) bs ->
  Forall (fun b => valid_schedule (length (fst b)) t (snd b)) bs ->
  exists r, compute_indices_with_dup t saved bs = Ok r /\
            Permutation r (all_pairs saved (concat (map fst bs))).
Proof.
  intros saved t bs Ht Hne Hv. unfold compute_indices_with_dup.
  destruct (Nat.eqb_spec t 0); [lia|]. eexists. split; [reflexivity|].
  rewrite (compute_loop_spec saved t) by (auto; apply repeat_length).
  assert (E : concat (repeat (@nil quad) t) = []) by (clear; induction t; simpl; auto).
  rewrite E. reflexivity.
Qed.

(** The schedule only matters through the thread count. *)
Lemma compute_schedule_free : forall saved t bs1 bs2,
  map fst bs1 = map fst bs2 ->
  Forall (fun b => valid_schedule (length (fst b)) t (snd b)) bs1 ->
  Forall (fun b => valid_schedule (length (fst b)) t (snd b)) bs2 ->
  compute_indices_with_dup t saved bs1 = compute_indices_with_dup t saved bs2.
Proof.
  intros saved t bs1 bs2 E H1 H2. unfold compute_indices_with_dup. destruct (Nat.eqb t 0); auto.
  f_equal. f_equal.
  assert (HL : length (repeat (@nil quad) t) = t) by apply repeat_length.
  revert HL. generalize (repeat (@nil quad) t) as slots. generalize 0 as base.
  revert bs2 E H1 H2. induction bs1 as [|[b tr] bs1 IH]; intros [|[b2 tr2] bs2] E H1 H2 base slots HL; auto; try discriminate.
  cbn [map fst] in E. injection E as <- E.
  inversion H1 as [|? ? V1 R1]; subst. inversion H2 as [|? ? V2 R2]; subst. cbn [fst snd] in *.
  cbn [compute_loop]. destruct b as [|x b]; auto.
  rewrite (schedule_determined _ _ _ tr slots eq_refl V1), (schedule_determined _ _ _ tr2 slots eq_refl V2).
  apply IH; auto. rewrite map_length, number_length. reflexivity.
Qed.

(** A valid schedule always exists: one thread after the other. *)
Definition serial_schedule (n t : nat) : list (nat * nat) :=
  flat_map (fun idx => map (fun i => (idx, i)) (thread_range n t idx)) (seq 0 t).

Lemma events_app : forall idx a b, thread_events idx (a ++ b) = thread_events idx a ++ thread_events idx b.
Proof. intros. unfold thread_events. rewrite filter_app, map_app. reflexivity. Qed.

Lemma events_own : forall idx l, thread_events idx (map (fun i => (idx, i)) l) = l.
Proof.
  intros idx l. unfold thread_events. induction l; simpl; auto. rewrite Nat.eqb_refl. simpl. congruence.
Qed.

Lemma events_other : forall idx j l, j <> idx -> thread_events idx (map (fun i => (j, i)) l) = [].
Proof.
  intros idx j l H. unfold thread_events. induction l; simpl; auto.
  destruct (Nat.eqb_spec j idx); [contradiction|auto].
Qed.

Lemma serial_valid : forall n t, valid_schedule n t (serial_schedule n t).
Proof.
  intros n t. unfold serial_schedule. split.
  - intros idx Hi.
    assert (H : forall k, thread_events idx (flat_map (fun j => map (fun i => (j, i)) (thread_range n t j)) (seq 0 k)) =
               if idx <? k then thread_range n t idx else []).
    { induction k as [|k IHk]; [reflexivity|].
      rewrite seq_S, flat_map_app, events_app, IHk. cbn [flat_map Nat.add]. rewrite app_nil_r.
      destruct (Nat.eq_dec k idx) as [->|E].
      - rewrite events_own. destruct (Nat.ltb_spec idx idx); [lia|].
        destruct (Nat.ltb_spec idx (S idx)); [reflexivity|lia].
      - rewrite events_other by auto. rewrite app_nil_r.
        destruct (Nat.ltb_spec idx k), (Nat.ltb_spec idx (S k)); auto; lia. }
    rewrite H. destruct (Nat.ltb_spec idx t); [reflexivity|lia].
  - apply Forall_forall. intros e He. apply in_flat_map in He. destruct He as (j & Hj & He).
    apply in_map_iff in He. destruct He as (i & <- & _). simpl. apply in_seq in Hj. lia.
Qed.

(** ** GetIndicesByItems *)
Lemma get_indices_exact : forall t items bs,
  0 < t -> Forall (fun b => b <> []) bs ->
  get_indices_by_items t items bs = Ok (positions items (concat bs)).
Proof.
  intros t items bs Ht Hne. unfold get_indices_by_items. destruct (Nat.eqb_spec t 0); [lia|]. f_equal.
  unfold positions. generalize 0 as base.
  induction bs as [|b bs IH]; intros base; [reflexivity|].
  inversion Hne as [|? ? Hb Hr]; subst. cbn [get_indices_loop]. destruct b as [|x b]; [contradiction|].
  remember (x :: b) as bb eqn:Ebb. clear Ebb. cbn [concat]. rewrite IH by auto.
  rewrite number_app, flat_map_app. f_equal.
  unfold get_batch_indices. rewrite <- flat_map_flat_map, ranges_tile by auto.
  rewrite <- (items_seq _ _ (fun i y => if existsb (beqb y) items then [N.of_nat i] else []) bb base).
  apply flat_map_ext. intros i. unfold lookup_item. reflexivity.
Qed.

(** ** The cache as a partition *)
Lemma numbered_nth : forall items i j it, nth_error items j = Some it ->
  nth_error (to_items i items) j = Some (mk_bitem (N.of_nat (i + j)) (snd it) (base64 (fst it))).
Proof.
  intros items i j it H. unfold to_items.
  rewrite (map_number_nth _ _ (fun a b => mk_bitem (N.of_nat a) (snd b) (base64 (fst b))) items i j), H.
  reflexivity.
Qed.

Lemma flat_map_load : forall (load : nat -> outcome (list bitem)) (g : nat -> list bitem) n,
  (forall b, b < n -> load b = Ok (g b)) ->
  flat_map (fun b => match load b with Ok l => l | _ => [] end) (seq 0 n) = flat_map g (seq 0 n).
Proof.
  intros load g n H. assert (HF : Forall (fun b => load b = Ok (g b)) (seq 0 n)).
  { apply Forall_forall. intros b Hb. apply in_seq in Hb. apply H. lia. }
  induction HF as [|b l Hb Hl IH]; simpl; auto. rewrite Hb, IH. reflexivity.
Qed.

Lemma cache_partition : forall (hash : bytes -> N) num items,
  0 < num -> Forall good_input items -> (N.of_nat (length items) < max64)%N ->
  exists c, omap (fun c => hb_write_all hash c items) (hb_open [] num) = Ok c /\
    (forall b, b < num -> exists l, hb_load c b = Ok l) /\
    Permutation
      (flat_map (fun b => match hb_load c b with Ok l => l | _ => [] end) (seq 0 num))
      (map (fun p => mk_bitem (N.of_nat (fst p)) (snd (snd p)) (base64 (fst (snd p)))) (number 0 items)) /\
    (forall b l i, b < num -> hb_load c b = Ok l -> In i l -> b = bucket_of hash num (b_data i)).
Proof.
  intros hash num items Hn Hg Hb.
  destruct (fresh_load hash num items Hn Hg Hb) as (c0 & c & O & W & _ & _ & L).
  exists c. rewrite O. simpl. rewrite W. split; [reflexivity|]. split; [eauto|]. split.
  - rewrite (flat_map_load _ (fun b => in_bucket hash num b (to_items 0 items))) by auto.
    apply (in_bucket_perm hash num _ Hn).
  - intros b l i Hb' Hl Hi. rewrite L in Hl by auto. injection Hl as <-.
    unfold in_bucket in Hi. apply filter_In in Hi. destruct Hi as [_ Hi]. apply Nat.eqb_eq in Hi. auto.
Qed.

Lemma base64_same_bucket : forall (hash : bytes -> N) num a b,
  Forall is_byte a -> Forall is_byte b ->
  (base64 a = base64 b <-> a = b) /\
  (a = b -> bucket_of hash num (base64 a) = bucket_of hash num (base64 b)).
Proof.
  intros hash num a b Ha Hb. split; [split|]; intros; subst; auto. apply base64_inj; auto.
Qed.

(** Reopening: old entries stay, new ones are numbered from 0 again. *)
Lemma cache_reopen : forall (hash : bytes -> N) num old new,
  0 < num -> Forall good_input old -> Forall good_input new ->
  (N.of_nat (length old) < max64)%N -> (N.of_nat (length new) < max64)%N ->
  exists c1 c2,
    omap (fun c => hb_write_all hash c old) (hb_open [] num) = Ok c1 /\
    omap (fun c => hb_write_all hash c new) (hb_open (hb_files c1) num) = Ok c2 /\
    forall b, b < num ->
      hb_load c2 b = Ok (filter (fun i => Nat.eqb (bucket_of hash num (b_data i)) b)
        (map (fun p => mk_bitem (N.of_nat (fst p)) (snd (snd p)) (base64 (fst (snd p)))) (number 0 old) ++
         map (fun p => mk_bitem (N.of_nat (fst p)) (snd (snd p)) (base64 (fst (snd p)))) (number 0 new))).
Proof.
  intros hash num old new Hn Ho Hw Bo Bw.
  assert (H0 : holds (repeat [] num) (repeat [] num)).
  { split; [|apply Forall_forall; intros x Hx; apply repeat_spec in Hx; subst; constructor].
    clear. induction num as [|n IH]; [reflexivity|]. simpl. rewrite IH at 1. reflexivity. }
  unfold hb_open at 1. replace (negb (num =? 0)) with true by (destruct num; [lia|reflexivity]).
  cbn [enforce app length]. rewrite Nat.sub_0_r.
  destruct (write_all_holds hash old (repeat [] num) (repeat [] num) num 0 Hn) as (f1 & i1 & E1 & [F1 G1] & L1 & B1); auto.
  { rewrite repeat_length. lia. }
  rewrite repeat_length in L1.
  eexists. unfold omap at 1. cbn [bind]. change 0%N with (N.of_nat 0). rewrite E1.
  destruct (session hash i1 num new Hn ltac:(lia) G1 Hw Bw) as (c & c' & O & W & _ & _ & L).
  exists c'. split; [reflexivity|]. cbn [hb_files]. rewrite F1, O. unfold omap. cbn [bind]. rewrite W.
  split; [reflexivity|]. intros b Hb. rewrite L by auto. f_equal.
  rewrite filter_app. f_equal.
  specialize (B1 b []). rewrite nth_error_repeat in B1 by auto. specialize (B1 eq_refl).
  apply (nth_error_nth _ _ []) in B1. exact B1.
Qed.

Lemma cache_reopen_clash : forall (hash : bytes -> N) num old new,
  0 < num -> Forall good_input old -> Forall good_input new ->
  (N.of_nat (length old) < max64)%N -> (N.of_nat (length new) < max64)%N ->
  old <> [] -> new <> [] ->
  exists c1 c2,
    omap (fun c => hb_write_all hash c old) (hb_open [] num) = Ok c1 /\
    omap (fun c => hb_write_all hash c new) (hb_open (hb_files c1) num) = Ok c2 /\
    ~ NoDup (map b_index
        (flat_map (fun b => match hb_load c2 b with Ok l => l | _ => [] end) (seq 0 num))).
Proof.
  intros hash num old new Hn Ho Hw Bo Bw No Nw.
  destruct (cache_reopen hash num old new Hn Ho Hw Bo Bw) as (c1 & c2 & H1 & H2 & L).
  exists c1, c2. split; [exact H1|]. split; [exact H2|].
  rewrite (flat_map_load _ _ num L). intros HD.
  fold (in_bucket hash num) in HD.
  eapply Permutation_NoDup in HD; [|apply Permutation_map; apply (in_bucket_perm hash num _ Hn)].
  destruct old as [|o old]; [contradiction|]. destruct new as [|w new]; [contradiction|].
  rewrite map_app in HD. cbn [number map fst snd b_index app] in HD.
  inversion HD as [|? ? HN _]. apply HN. apply in_or_app. right. left. reflexivity.
Qed.

Lemma cache_reopen_witness :
  exists (hash : bytes -> N) num old new c1 c2,
    0 < num /\ Forall good_input old /\ Forall good_input new /\
    (N.of_nat (length old) < max64)%N /\ (N.of_nat (length new) < max64)%N /\
    omap (fun c => hb_write_all hash c old) (hb_open [] num) = Ok c1 /\
    omap (fun c => hb_write_all hash c new) (hb_open (hb_files c1) num) = Ok c2 /\
    ~ NoDup (map b_index
        (flat_map (fun b => match hb_load c2 b with Ok l => l | _ => [] end) (seq 0 num))).
Proof.
  assert (G1 : Forall good_input [([1], 3); ([2], 0)]%N) by (repeat constructor).
  assert (G2 : Forall good_input [([7], 1)]%N) by (repeat constructor).
  destruct (cache_reopen_clash (fun _ => 0%N) 2 [([1], 3); ([2], 0)]%N [([7], 1)]%N)
    as (c1 & c2 & H1 & H2 & H3); auto; try discriminate; try reflexivity.
  exists (fun _ => 0%N), 2, [([1], 3); ([2], 0)]%N, [([7], 1)]%N, c1, c2.
  repeat split; auto.
Qed.
