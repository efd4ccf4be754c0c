From Coq Require Import List NArith Lia Bool Arith Permutation.
From Verif Require Import Base BaseProofs Text TextProofs StoreModel StoreSpec StoreProofs EcdhModel EcdhSpec
  EcdhProofs EcdhProofs2.
From Verif Require Import ThrModel ThrSpec.
Import ListNotations.

(** ** The positions behind the receiver's shuffled items *)
Fixpoint gsig (base : nat) (bs : list (list bytes * dupmap)) (shufs : list (list nat)) : list nat :=
  match bs, shufs with
  | b :: bs', s :: sh' => map (Nat.add base) s ++ gsig (base + length (fst b)) bs' sh'
  | _, _ => []
  end.

Lemma map_add_seq : forall n base i, map (Nat.add base) (seq i n) = seq (base + i) n.
Proof.
  induction n as [|n IH]; intros base i; [reflexivity|]. cbn [seq map]. f_equal.
  rewrite IH. f_equal. lia.
Qed.

Lemma gsig_perm : forall bs shufs base, good_shuffles bs shufs ->
  Permutation (gsig base bs shufs) (seq base (length (sent bs))).
Proof.
  intros bs shufs base H. revert base. induction H as [|b s bs shufs P _ IH]; intros base; [constructor|].
  cbn [gsig]. unfold sent in *. cbn [flat_map]. rewrite app_length, map_length, number_length.
  rewrite seq_app. apply Permutation_app; [|apply IH].
  rewrite (Permutation_map (Nat.add base) P), map_add_seq, Nat.add_0_r. reflexivity.
Qed.

Lemma gsig_length : forall bs shufs base, good_shuffles bs shufs ->
  length (gsig base bs shufs) = length (sent bs).
Proof. intros bs shufs base H. rewrite (Permutation_length (gsig_perm _ _ base H)). apply seq_length. Qed.

Definition dflt : bytes * N := ([], 0%N).

Lemma sent_nth : forall b d j, j < length b ->
  nth j (map (fun ix => (snd ix, dup_at d (fst ix))) (number 0 b)) dflt = (nth j b [], dup_at d j).
Proof.
  intros b d j. assert (G : forall k, j < length b ->
    nth j (map (fun ix => (snd ix, dup_at d (fst ix))) (number k b)) dflt = (nth j b [], dup_at d (k + j))).
  { revert j. induction b as [|x b IH]; intros j k H; [cbn in H; lia|]. destruct j as [|j].
    - cbn. rewrite Nat.add_0_r. reflexivity.
    - cbn [number map nth]. rewrite IH by (cbn in H; lia). f_equal. f_equal. lia. }
  intros H. apply (G 0 H).
Qed.

Lemma number_nth' : forall (A : Type) (l : list A) k i d, i < length l -> nth i (number k l) (0, d) = (k + i, nth i l d).
Proof.
  induction l as [|x l IH]; intros k i d H; [cbn in H; lia|]. destruct i as [|i]; cbn [number nth].
  - rewrite Nat.add_0_r. reflexivity.
  - rewrite IH by (cbn in H; lia). f_equal. lia.
Qed.

Lemma map_number_seq : forall (A B : Type) (f : nat * A -> B) (l : list A) k d,
  map f (number k l) = map (fun i => f (k + i, nth i l d)) (seq 0 (length l)).
Proof.
  induction l as [|x l IH]; intros k d; [reflexivity|]. cbn [number map length seq nth].
  rewrite Nat.add_0_r. f_equal. rewrite <- seq_shift, map_map, (IH (S k) d). apply map_ext. intros i.
  cbn [nth]. f_equal. f_equal. lia.
Qed.

Lemma nth_map_seq : forall (A : Type) (f : nat -> A) n i d, i < n -> nth i (map f (seq 0 n)) d = f i.
Proof.
  intros A f n i d H. rewrite (nth_indep _ d (f 0)) by (rewrite map_length, seq_length; exact H).
  rewrite map_nth, seq_nth by exact H. reflexivity.
Qed.

Section Online.
Variable Point : Type.
Variable hash_point : bytes -> Point.
Variable mask : bool -> Point -> Point.
Variable ser : Point -> bytes.
Variable deser : bytes -> Point.
Variable dual_mask_size L : nat.
Hypothesis deser_ser : forall x, deser (ser x) = x.
Hypothesis ser_len : forall x, length (ser x) = L.
Hypothesis mask_comm : forall x, mask true (mask false x) = mask false (mask true x).

Definition dual (x : bytes) : bytes := last_bytes dual_mask_size (ser (mask false (mask true (hash_point x)))).
Notation mself := (thr_mask_self Point hash_point mask ser).

Lemma masked_len : forall p items, Forall (fun x => length x = L) (map (fun it => ser (mask p (hash_point it))) items).
Proof. intros p items. apply Forall_forall. intros x H. apply in_map_iff in H. destruct H as (y & <- & _). apply ser_len. Qed.

Lemma ciphers_dual : forall p items,
  thr_ciphers Point mask ser deser dual_mask_size (negb p) (map (fun it => ser (mask p (hash_point it))) items) = map dual items.
Proof.
  intros p items. unfold thr_ciphers. rewrite map_map. apply map_ext. intros x. rewrite deser_ser. unfold dual.
  destruct p; cbn [negb]; [reflexivity|]. rewrite mask_comm. reflexivity.
Qed.

Lemma dual_len : forall items, Forall (fun x => length x = L - (L - dual_mask_size)) (map dual items).
Proof.
  intros items. apply Forall_forall. intros x H. apply in_map_iff in H. destruct H as (y & <- & _).
  unfold dual, last_bytes. rewrite skipn_length, ser_len. reflexivity.
Qed.

Lemma eqb_len0 : forall (A : Type) (l : list A), l <> [] -> Nat.eqb (length l) 0 = false.
Proof. intros A [|x l] H; [contradiction|reflexivity]. Qed.

Lemma number_map' : forall (A B : Type) (f : A -> B) l k, number k (map f l) = map (fun e => (fst e, f (snd e))) (number k l).
Proof. induction l as [|x l IH]; intros k; [reflexivity|]. cbn. rewrite IH. reflexivity. Qed.

Lemma online_peer : forall bs k, Forall (fun b => fst b <> []) bs ->
  thr_mask_peer Point mask ser deser dual_mask_size k (mself false true k bs) =
  Ok (map (fun e => (dual (fst e), snd e)) (sent bs)).
Proof.
  induction bs as [|[items dup] bs IH]; intros k H.
  - cbn. rewrite Nat.eqb_refl. reflexivity.
  - inversion H as [|? ? Hb Hr]; subst. cbn [fst] in Hb. cbn [thr_mask_self].
    rewrite (eqb_len0 _ _ Hb). cbn [thr_mask_peer]. rewrite batch_data_idx, Nat.eqb_refl. cbn [enforce].
    rewrite (recv_batch_data _ _ _ L) by apply masked_len.
    rewrite map_length, (eqb_len0 _ _ Hb). rewrite (IH (S k) Hr). cbn [bind].
    rewrite (ciphers_dual false). unfold sent. cbn [flat_map fst snd]. rewrite map_app, map_map. cbn [fst snd].
    rewrite number_map', map_map. cbn [fst snd].
    destruct items as [|x items]; [contradiction|]. reflexivity.
Qed.

Lemma apply_perm_len : forall idx l n, Permutation idx (seq 0 n) -> length (thr_apply idx l) = n.
Proof. intros idx l n P. unfold thr_apply. rewrite map_length, (Permutation_length P). apply seq_length. Qed.

(** The messages sent back. *)
Fixpoint backs (k : nat) (bs : list (list bytes * dupmap)) (shufs : list (list nat)) : list msg :=
  match bs with
  | [] => [batch_data [] [] k]
  | b :: bs' =>
    batch_data (thr_apply (match shufs with [] => [] | s :: _ => s end) (map dual (fst b))) [] k :: backs (S k) bs' (tl shufs)
  end.

(** MaskAndShufflePeer, then RecvDualMaskedSelf; [pre] are the rows already sent. *)
Lemma online_shuffle : forall broadcast bs shufs k (pre : list (bytes * N)),
  good_provider bs -> good_shuffles bs shufs ->
  thr_shuffle_peer Point mask ser deser dual_mask_size k (length pre) (mself true broadcast k bs) shufs =
    Ok (map (fun e => thr_save (fst e) (snd e)
                        (if broadcast then snd (nth (fst e) (pre ++ sent bs) dflt) else 0%N))
            (number (length pre) (gsig (length pre) bs shufs)), backs k bs shufs) /\
  thr_recv_dual k (backs k bs shufs) =
    Ok (map (fun j => (dual (fst (nth j (pre ++ sent bs) dflt)), 0%N)) (gsig (length pre) bs shufs)).
Proof.
  intros broadcast bs. induction bs as [|[items dup] bs IH]; intros shufs k pre G H.
  - inversion H; subst. cbn [thr_mask_self thr_shuffle_peer]. rewrite batch_data_idx, Nat.eqb_refl. cbn [enforce].
    split; [reflexivity|]. cbn. rewrite Nat.eqb_refl. reflexivity.
  - inversion H as [|? s ? shufs' P Hs]; subst. inversion G as [|? ? [Hb Hd] Gr]; subst. cbn [fst snd] in *.
    set (n := length items) in *.
    set (row := map (fun ix : nat * bytes => (snd ix, dup_at dup (fst ix))) (number 0 items)).
    assert (Lrow : length row = n) by (unfold row; rewrite map_length, number_length; reflexivity).
    assert (Ls : length s = n) by (rewrite (Permutation_length P); apply seq_length).
    assert (Hlt : forall j, In j s -> j < n).
    { intros j Hj. apply (Permutation_in _ P) in Hj. apply in_seq in Hj. lia. }
    destruct (IH shufs' (S k) (pre ++ row) Gr Hs) as (E1 & E2).
    rewrite app_length, Lrow in E1, E2.
    assert (ER : pre ++ sent ((items, dup) :: bs) = (pre ++ row) ++ sent bs)
      by (unfold sent at 1; cbn [flat_map fst snd]; fold (sent bs); rewrite app_assoc; reflexivity).
    rewrite ER. cbn [thr_mask_self]. fold n. rewrite (eqb_len0 _ _ Hb : Nat.eqb n 0 = false).
    cbn [thr_shuffle_peer]. rewrite batch_data_idx, Nat.eqb_refl. cbn [enforce].
    rewrite (recv_batch_data _ _ _ L) by apply masked_len.
    rewrite map_length. fold n. rewrite (eqb_len0 _ _ Hb : Nat.eqb n 0 = false).
    rewrite (ciphers_dual true). rewrite map_length. fold n.
    assert (ED : forall d, d = (if broadcast then dup else []) ->
                 thr_dup_cnts n d = Ok (map (fun i => if broadcast then dup_at dup i else 0%N) (seq 0 n))).
    { intros d ->. unfold thr_dup_cnts.
      destruct broadcast.
      - destruct (existsb (fun e : nat * N => Nat.leb n (fst e)) dup) eqn:Hx; [|reflexivity]. apply existsb_exists in Hx.
        destruct Hx as (e & He & Hl). rewrite Forall_forall in Hd. destruct (Hd e He) as [Hd1 _].
        apply Nat.leb_le in Hl. unfold n in Hl. lia.
      - reflexivity. }
    rewrite ED by (destruct items; [contradiction|reflexivity]). cbn [bind tl]. rewrite E1. cbn [bind].
    cbn [backs fst tl]. split.
    + f_equal. f_equal. cbn [gsig fst]. fold n. rewrite number_app, map_app, map_length, Ls. f_equal.
      unfold thr_records. rewrite Ls, number_map', map_map.
      rewrite (map_number_seq _ _ _ s (length pre) 0), Ls. apply map_ext_in. intros i Hi. apply in_seq in Hi.
      cbn [fst snd]. f_equal.
      assert (En : nth (length pre + i) ((pre ++ row) ++ sent bs) dflt = (nth i items [], dup_at dup i)).
      { rewrite <- app_assoc, app_nth2 by lia. replace (length pre + i - length pre) with i by lia.
        rewrite app_nth1 by lia. apply sent_nth. fold n. lia. }
      rewrite En. cbn [snd].
      rewrite (nth_map_seq _ (fun i => if broadcast then dup_at dup i else 0%N)) by lia. destruct broadcast; reflexivity.
    + cbn [thr_recv_dual]. rewrite batch_data_idx, Nat.eqb_refl. cbn [enforce].
      assert (FL : Forall (fun x => length x = L - (L - dual_mask_size)) (thr_apply s (map dual items))).
      { apply Forall_forall. intros x Hx. unfold thr_apply in Hx. apply in_map_iff in Hx. destruct Hx as (j & <- & Hj).
        pose proof (dual_len items) as FD. rewrite Forall_forall in FD. apply FD. apply nth_In. rewrite map_length.
        apply Hlt. exact Hj. }
      rewrite (recv_batch_data _ _ _ _ FL). cbn [fst].
      unfold thr_apply at 1. rewrite map_length, Ls, (eqb_len0 _ _ Hb : Nat.eqb n 0 = false).
      rewrite E2. cbn [bind]. f_equal. cbn [gsig fst]. fold n. rewrite map_app. f_equal.
      unfold thr_apply. rewrite !map_map. apply map_ext_in. intros j Hj. f_equal.
      assert (En : nth (length pre + j) ((pre ++ row) ++ sent bs) dflt = (nth j items [], dup_at dup j)).
      { rewrite <- app_assoc, app_nth2 by lia. replace (length pre + j - length pre) with j by lia.
        specialize (Hlt j Hj). rewrite app_nth1 by lia. apply sent_nth. fold n. lia. }
      rewrite En. cbn [fst]. rewrite (nth_indep _ [] (dual [])) by (rewrite map_length; apply Hlt; exact Hj).
      apply map_nth.
Qed.

Lemma online_ok : forall broadcast rp sp shufs,
  good_provider rp -> good_provider sp -> good_shuffles rp shufs ->
  thr_online Point hash_point mask ser deser dual_mask_size broadcast rp sp shufs =
  Ok (thr_close (map (fun e => thr_save (fst e) (snd e)
                        (if broadcast then snd (nth (fst e) (sent rp) dflt) else 0%N))
                     (number 0 (gsig 0 rp shufs))),
      map (fun j => (dual (fst (nth j (sent rp) dflt)), 0%N)) (gsig 0 rp shufs),
      map (fun e => (dual (fst e), snd e)) (sent sp)).
Proof.
  intros broadcast rp sp shufs Gr Gs Hs. unfold thr_online.
  destruct (online_shuffle broadcast rp shufs 0 [] Gr Hs) as (E1 & E2).
  cbn [length app] in E1, E2. rewrite E1. cbn [bind]. rewrite E2. cbn [bind].
  rewrite online_peer; [reflexivity|]. eapply Forall_impl; [|exact Gs]. cbn. intros a [Ha _]. exact Ha.
Qed.
End Online.

(** ** The receiver's matching *)
Definition st_of (th : nat) (l : list tmatch) : list tmatch * N * N :=
  (firstn th l, u32 (N.of_nat (length l)), N.of_nat (Nat.min th (length l))).

Definition one (peer : list bitem) (it : bitem) : list tmatch :=
  match set_find peer (b_data it) with
  | None => []
  | Some p => [mk_tmatch (u32 (b_index it)) (u32 (b_index p)) (b_dup p)]
  end.

Lemma u32_succ : forall a, u32 (u32 a + 1)%N = u32 (a + 1)%N.
Proof. intros a. apply StoreProofs.u32_add. Qed.

Lemma bin_step : forall th peer l it, (N.of_nat th < max32)%N ->
  thr_bin_step (N.of_nat th) peer (st_of th l) it = st_of th (l ++ one peer it).
Proof.
  intros th peer l it B. unfold thr_bin_step, st_of, one. destruct (set_find peer (b_data it)) as [p|].
  - rewrite app_length. cbn [length]. rewrite u32_succ.
    replace (N.of_nat (length l) + 1)%N with (N.of_nat (length l + 1)) by lia.
    destruct (N.ltb_spec (N.of_nat (Nat.min th (length l))) (N.of_nat th)) as [H|H].
    + assert (Hl : length l < th) by lia. f_equal; [f_equal|].
      * rewrite !firstn_all2; [reflexivity|rewrite app_length; cbn; lia|lia].
      * rewrite u32_small by lia. lia.
    + f_equal; [f_equal|].
      * rewrite firstn_app. replace (th - length l) with 0 by lia. rewrite firstn_O, app_nil_r. reflexivity.
      * lia.
  - rewrite app_nil_r. reflexivity.
Qed.

Lemma bin_fold : forall th peer self l, (N.of_nat th < max32)%N ->
  fold_left (thr_bin_step (N.of_nat th) peer) self (st_of th l) = st_of th (l ++ flat_map (one peer) self).
Proof.
  intros th peer self. induction self as [|it self IH]; intros l B; cbn [fold_left flat_map].
  - rewrite app_nil_r. reflexivity.
  - rewrite bin_step by exact B. rewrite IH by exact B. rewrite <- app_assoc. reflexivity.
Qed.

Section Match.
Variable hash : bytes -> N.

(** A match in terms of the numbered stores. *)
Definition tm1 (peer : list (bytes * N)) (e : nat * (bytes * N)) : list tmatch :=
  match find (fun p => beqb (fst (snd p)) (fst (snd e))) (number 0 peer) with
  | None => []
  | Some p => [mk_tmatch (u32 (N.of_nat (fst e))) (u32 (N.of_nat (fst p))) (snd (snd p))]
  end.

Lemma one_bin : forall num b self peer,
  Forall good_input self -> Forall good_input peer ->
  flat_map (one (in_bucket hash num b (to_items 0 peer))) (in_bucket hash num b (to_items 0 self)) =
  flat_map (tm1 peer) (filter (fun p => Nat.eqb (bucket_of hash num (base64 (fst (snd p)))) b) (number 0 self)).
Proof.
  intros num b self peer Hs Hp. generalize 0 at 2 3 as i. induction self as [|[d c] self IH]; intros i; [reflexivity|].
  inversion Hs as [|? ? [Hd Hc] Hr]; subst. rewrite to_items_cons. unfold in_bucket at 2. cbn [number filter b_data fst snd].
  specialize (IH Hr (S i)). unfold in_bucket at 2 in IH.
  destruct (Nat.eqb_spec (bucket_of hash num (base64 d)) b) as [E|E]; [|exact IH].
  cbn [flat_map]. rewrite IH. f_equal. unfold one, tm1. cbn [b_data b_index fst snd].
  rewrite find_bucket by auto.
  destruct (find (fun p => beqb (fst (snd p)) d) (number 0 peer)) as [p|]; reflexivity.
Qed.

Definition binned (num : nat) (self : list (bytes * N)) : list (nat * (bytes * N)) :=
  flat_map (fun b => filter (fun p => Nat.eqb (bucket_of hash num (base64 (fst (snd p)))) b) (number 0 self)) (seq 0 num).

Lemma binned_perm : forall num self, 0 < num -> Permutation (binned num self) (number 0 self).
Proof.
  intros num self H. unfold binned.
  apply (partition_perm _ (fun p : nat * (bytes * N) => bucket_of hash num (base64 (fst (snd p))))).
  apply Forall_forall. intros x _. apply bucket_lt. exact H.
Qed.

Lemma compute_ok : forall th num self peer c,
  (N.of_nat th < max32)%N -> 0 < num -> hb_open [] num = Ok c ->
  Forall good_input self -> Forall good_input peer ->
  (N.of_nat (length self) < max64)%N -> (N.of_nat (length peer) < max64)%N ->
  thr_compute (N.of_nat th) (hb_write_all hash c self) (hb_write_all hash c peer) =
  Ok (st_of th (flat_map (tm1 peer) (binned num self))).
Proof.
  intros th num self peer c Bt Hn O Hs Hp Bs Bp.
  destruct (fresh_load hash num self Hn Hs Bs) as (c1 & cs & O1 & W1 & N1 & _ & L1).
  destruct (fresh_load hash num peer Hn Hp Bp) as (c2 & cp & O2 & W2 & N2 & _ & L2).
  rewrite O in O1, O2. injection O1 as <-. injection O2 as <-. rewrite W1, W2.
  unfold thr_compute. rewrite N1, N2, Nat.eqb_refl. cbn [enforce]. unfold binned.
  assert (E : forall bins l, Forall (fun b => b < num) bins ->
    thr_bins (N.of_nat th) cs cp bins (st_of th l) =
    Ok (st_of th (l ++ flat_map (tm1 peer) (flat_map (fun b => filter (fun p => Nat.eqb (bucket_of hash num (base64 (fst (snd p)))) b) (number 0 self)) bins)))).
  { induction bins as [|b bins IH]; intros l F.
    - cbn. rewrite app_nil_r. reflexivity.
    - inversion F as [|? ? Fb Fr]; subst. cbn [thr_bins]. rewrite L1, L2 by exact Fb. cbn [bind].
      rewrite bin_fold by exact Bt. rewrite IH by exact Fr. cbn [flat_map]. rewrite flat_map_app, app_assoc.
      rewrite one_bin by assumption. reflexivity. }
  change ([], 0%N, 0%N) with (firstn 0 ([] : list tmatch), 0%N, 0%N).
  replace (firstn 0 ([] : list tmatch), 0%N, 0%N) with (st_of th []).
  - apply (E (seq 0 num) []). apply Forall_seq.
  - unfold st_of. cbn [length]. rewrite firstn_nil, Nat.min_0_r. reflexivity.
Qed.
End Match.

(** ** Restoring *)
Lemma position_spec : forall shuffled k (p : nat) x r0, NoDup shuffled -> nth_error shuffled p = Some x ->
  fold_left (fun r e => if N.eqb (snd e) x then Some (fst e) else r) (number k shuffled) r0 = Some (k + p).
Proof.
  induction shuffled as [|y l IH]; intros k p x r0 ND H; [destruct p; discriminate|].
  inversion ND as [|? ? Hn Hl]; subst. cbn [number fold_left fst snd]. destruct p as [|p].
  - cbn in H. injection H as ->. rewrite N.eqb_refl, Nat.add_0_r.
    assert (G : forall l' k', ~ In x l' -> fold_left (fun r e => if N.eqb (snd e) x then Some (fst e) else r) (number k' l') (Some k) = Some k).
    { induction l' as [|z l' IH']; intros k' Hz; [reflexivity|]. cbn [number fold_left fst snd].
      destruct (N.eqb_spec z x) as [->|]; [exfalso; apply Hz; left; reflexivity|]. apply IH'. intros Hc. apply Hz. right. exact Hc. }
    apply G. exact Hn.
  - cbn in H. rewrite (IH (S k) p x _ Hl H). f_equal. lia.
Qed.

Lemma position_some : forall shuffled x p, thr_position shuffled x = Some p -> nth_error shuffled p = Some x.
Proof.
  intros shuffled x p. unfold thr_position.
  assert (G : forall l k r0, fold_left (fun r e => if N.eqb (snd e) x then Some (fst e) else r) (number k l) r0 = Some p ->
    r0 = Some p \/ (k <= p /\ nth_error l (p - k) = Some x)).
  { induction l as [|y l IH]; intros k r0 H; [left; exact H|]. cbn [number fold_left fst snd] in H.
    destruct (IH _ _ H) as [E|[E1 E2]].
    - destruct (N.eqb_spec y x) as [->|]; [|left; exact E]. injection E as ->. right. split; [lia|].
      rewrite Nat.sub_diag. reflexivity.
    - right. split; [lia|]. replace (p - k) with (S (p - S k)) by lia. exact E2. }
  intros H. destruct (G _ _ _ H) as [E|[_ E]]; [discriminate|]. rewrite Nat.sub_0_r in E. exact E.
Qed.

Lemma restore_lens : forall shuffled recs st,
  length (fst (fold_left (thr_restore_step shuffled) recs st)) = length (fst st) /\
  length (snd (fold_left (thr_restore_step shuffled) recs st)) = length (snd st).
Proof.
  intros shuffled recs. induction recs as [|r recs IH]; intros st; [split; reflexivity|]. cbn [fold_left].
  destruct (IH (thr_restore_step shuffled st r)) as [-> ->]. unfold thr_restore_step.
  destruct (thr_position shuffled (t_origin r)); [|split; reflexivity]. cbn [fst snd]. rewrite !upd_length. split; reflexivity.
Qed.

(** The value at a position named by exactly one record. *)
Lemma restore_value : forall shuffled recs st p x r,
  NoDup shuffled -> nth_error shuffled p = Some x -> NoDup (map t_origin recs) -> In r recs -> t_origin r = x ->
  p < length (fst st) -> p < length (snd st) ->
  nth_error (fst (fold_left (thr_restore_step shuffled) recs st)) p = Some (u32 (t_shuffle r)) /\
  nth_error (snd (fold_left (thr_restore_step shuffled) recs st)) p = Some (t_dup r).
Proof.
  intros shuffled recs. induction recs as [|r0 recs IH] using rev_ind; intros st p x r ND Hx NR Hr Ex L1 L2; [destruct Hr|].
  rewrite fold_left_app. cbn [fold_left]. rewrite map_app in NR. cbn [map] in NR.
  apply NoDup_remove in NR. rewrite app_nil_r in NR. destruct NR as [NR1 NR2].
  destruct (restore_lens shuffled recs st) as [K1 K2].
  apply in_app_or in Hr. destruct Hr as [Hr|[->|[]]].
  - destruct (IH st p x r ND Hx NR1 Hr Ex L1 L2) as [V1 V2]. unfold thr_restore_step at 1 3.
    destruct (thr_position shuffled (t_origin r0)) as [q|] eqn:Eq; [|split; assumption].
    apply position_some in Eq.
    assert (Hq : q <> p).
    { intros ->. rewrite Hx in Eq. injection Eq as Eq. apply NR2. rewrite <- Eq, <- Ex. apply in_map. exact Hr. }
    cbn [fst snd]. rewrite !upd_nth. destruct (Nat.eqb_spec q p); [contradiction|]. split; assumption.
  - unfold thr_restore_step at 1 3.
    assert (Ep : thr_position shuffled (t_origin r) = Some p).
    { rewrite Ex. unfold thr_position. apply (position_spec shuffled 0 p x None ND Hx). }
    rewrite Ep. cbn [fst snd]. rewrite !upd_nth, Nat.eqb_refl.
    destruct (nth_error (fst (fold_left (thr_restore_step shuffled) recs st)) p) eqn:N1;
      [|apply nth_error_None in N1; lia].
    destruct (nth_error (snd (fold_left (thr_restore_step shuffled) recs st)) p) eqn:N2;
      [|apply nth_error_None in N2; lia].
    split; reflexivity.
Qed.

Lemma skipn_add : forall (A : Type) (l : list A) k m, skipn (k + m) l = skipn m (skipn k l).
Proof.
  induction l as [|x l IH]; intros k m; [rewrite !skipn_nil; reflexivity|]. destruct k as [|k]; [reflexivity|].
  cbn [Nat.add skipn]. apply IH.
Qed.

Lemma restore_loop_ok : forall bsz shuffled recs, (N.of_nat (length recs) < max32)%N -> (0 < u32 bsz)%N ->
  forall fuel k st, length recs - k < fuel -> k <= length recs ->
  thr_restore_loop fuel (thr_close recs) bsz shuffled (N.of_nat k) st =
  Ok (fold_left (thr_restore_step shuffled) (skipn k recs) st).
Proof.
  intros bsz shuffled recs B Hb. induction fuel as [|f IH]; intros k st Hf Hk; [lia|].
  cbn [thr_restore_loop]. unfold thr_read, thr_close. cbn [tc_recs tc_cnt]. rewrite u32_small by exact B.
  destruct (N.leb_spec (N.of_nat (length recs)) (N.of_nat k)) as [Hl|Hl].
  - rewrite skipn_all2 by lia. reflexivity.
  - rewrite Nat2N.id. set (m := N.to_nat (N.min (u32 bsz) (N.of_nat (length recs) - N.of_nat k))).
    assert (Hm : 0 < m <= length recs - k) by (unfold m; lia).
    assert (Lb : length (firstn m (skipn k recs)) = m) by (rewrite firstn_length, skipn_length; lia).
    destruct (firstn m (skipn k recs)) as [|r0 b0] eqn:Eb; [cbn in Lb; lia|].
    rewrite Lb. replace (N.of_nat k + N.of_nat m)%N with (N.of_nat (k + m)) by lia.
    change (mk_tcache recs (u32 (N.of_nat (length recs)))) with (thr_close recs) in *.
    replace (mk_tcache recs (N.of_nat (length recs))) with (thr_close recs)
      by (unfold thr_close; rewrite u32_small by exact B; reflexivity).
    rewrite IH by lia. f_equal. rewrite <- Eb, <- fold_left_app. f_equal.
    rewrite skipn_add. apply firstn_skipn.
Qed.
