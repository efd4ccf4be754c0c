(** Lemmas for C35. *)
From Coq Require Import List NArith Bool Arith Lia Permutation.
From Verif Require Import Base BaseProofs Text TextProofs StoreModel StoreSpec StoreProofs2 EcdhModel BucketProofs
  ShufModel ShufSpec ShufProofs UbCacheModel UbCacheSpec UbCacheProofs UbCacheProps UbPsiModel UbPsiSpec.
Import ListNotations.

(** ** Generic *)
Lemma cut_concat : forall n (items : list bytes), 0 < n -> Forall (fun x => length x = n) items -> cut n (concat items) = Ok items.
Proof.
  intros n items Hn H. unfold cut. rewrite (fixed_len _ n) by exact H. rewrite Nat.mod_mul, Nat.div_mul by lia. cbn [Nat.eqb enforce]. apply f_equal. change bytes with (list N) in *.
  apply nth_ext with (d := []) (d' := []); [rewrite map_length, seq_length; reflexivity|].
  intros i Hi. rewrite map_length, seq_length in Hi.
  rewrite nth_indep with (d' := firstn n (skipn (0 * n) (concat items))) by (rewrite map_length, seq_length; exact Hi).
  rewrite (map_nth (fun i => firstn n (skipn (i * n) (concat items)))). rewrite seq_nth by exact Hi. cbn [plus].
  rewrite fixed_skipn by exact H. replace n with (1 * n) at 1 by lia. rewrite fixed_firstn by (apply Forall_skipn; exact H).
  destruct (skipn i items) as [|x r] eqn:E; [apply (f_equal (@length bytes)) in E; rewrite skipn_length in E; cbn in E; lia|].
  cbn [firstn concat]. rewrite app_nil_r. rewrite <- (firstn_skipn i items), E, app_nth2; rewrite firstn_length, Nat.min_l by lia; [|lia].
  rewrite Nat.sub_diag. reflexivity.
Qed.

Lemma nodup_map_inj : forall (A B : Type) (f : A -> B) l,
  (forall a b, In a l -> In b l -> f a = f b -> a = b) -> NoDup l -> NoDup (map f l).
Proof.
  intros A B f l. induction l as [|x l IH]; intros H N; [constructor|]. inversion N as [|? ? N1 N2]; subst. cbn [map]. constructor.
  - intros I. apply in_map_iff in I. destruct I as (y & E & I). apply N1. rewrite <- (H y x); auto; [right; exact I|left; reflexivity].
  - apply IH; [|exact N2]. intros a b Ia Ib. apply H; right; assumption.
Qed.
Lemma nodup_flat_key : forall (A B C : Type) (h : A -> C) (f : A -> list B) (g : B -> C) l,
  NoDup (map h l) -> (forall x y, In y (f x) -> g y = h x) -> (forall x, length (f x) <= 1) -> NoDup (map g (flat_map f l)).
Proof.
  intros A B C h f g l N H1 H2. induction l as [|x l IH]; [constructor|]. cbn [map flat_map] in *. inversion N as [|? ? N1 N2]; subst.
  destruct (f x) as [|y [|z r]] eqn:E; [exact (IH N2)| |specialize (H2 x); rewrite E in H2; cbn in H2; lia].
  cbn [app map]. constructor; [|exact (IH N2)]. intros I. apply in_map_iff in I. destruct I as (y' & E' & I).
  apply in_flat_map in I. destruct I as (x' & I1 & I2). apply N1. rewrite <- (H1 x y) by (rewrite E; left; reflexivity).
  rewrite <- E', (H1 x' y' I2). apply in_map. exact I1.
Qed.
Lemma number_keys : forall (A : Type) (l : list A) k, map fst (number k l) = seq k (length l).
Proof. intros A l. induction l as [|x l IH]; intros k; [reflexivity|]. cbn [number map fst length seq]. rewrite IH. reflexivity. Qed.
Lemma number_nodup : forall (A : Type) (l : list A) k, NoDup (map (fun p => N.of_nat (fst p)) (number k l)).
Proof.
  intros A l k. rewrite <- (map_map fst N.of_nat), number_keys. apply nodup_map_inj; [|apply seq_NoDup]. intros a b _ _ E. lia.
Qed.

(** ** Maps *)
Lemma map_find_in : forall k v m, (forall w, In (k, w) m -> w = v) -> In (k, v) m -> map_find k m = Some v.
Proof.
  intros k v m H I. unfold map_find. destruct (find (fun e => fst e =? k)%N m) as [[k' w]|] eqn:E.
  - apply find_some in E. destruct E as (I' & E). cbn in E. apply N.eqb_eq in E. subst k'. cbn. f_equal. apply H. exact I'.
  - exfalso. eapply find_none in E; [|exact I]. cbn in E. rewrite N.eqb_refl in E. discriminate.
Qed.
Lemma map_find_none : forall k m, (forall w, ~ In (k, w) m) -> map_find k m = None.
Proof.
  intros k m H. unfold map_find. destruct (find (fun e => fst e =? k)%N m) as [[k' w]|] eqn:E; [|reflexivity].
  apply find_some in E. destruct E as (I' & E). cbn in E. apply N.eqb_eq in E. subst k'. exfalso. exact (H w I').
Qed.
Lemma map_find_some : forall k v m, map_find k m = Some v -> In (k, v) m.
Proof.
  intros k v m H. unfold map_find in H. destruct (find (fun e => fst e =? k)%N m) as [[k' w]|] eqn:E; [|discriminate].
  apply find_some in E. destruct E as (I' & E). cbn in E, H. apply N.eqb_eq in E. inversion H. subst. exact I'.
Qed.

Lemma dups_in : forall (A : Type) (b : list (A * N)) i d, In (i, d) (dups_of b) <-> d <> 0%N /\ exists x, nth_error b i = Some (x, d).
Proof.
  intros A b i d. unfold dups_of. rewrite in_flat_map. split.
  - intros ([j [x e]] & I & J). apply number_in in I. destruct I as (_ & I). rewrite Nat.sub_0_r in I. cbn [fst snd] in J.
    destruct (N.eqb_spec e 0); [destruct J|]. destruct J as [J|[]]. inversion J; subst. eauto.
  - intros (Hd & x & E). exists (i, (x, d)). split; [apply number_in; split; [lia|rewrite Nat.sub_0_r; exact E]|]. cbn [fst snd].
    destruct (N.eqb_spec d 0); [congruence|]. left. reflexivity.
Qed.
Lemma assoc_in : forall m i d, (forall e, In (i, e) m -> e = d) -> In (i, d) m -> assoc i m = Some d.
Proof.
  induction m as [|[j e] m IH]; intros i d H I; [destruct I|]. cbn [assoc]. destruct (Nat.eqb_spec j i) as [->|NE].
  - f_equal. apply H. left. reflexivity.
  - apply IH; [intros e' I'; apply H; right; exact I'|]. destruct I as [E|I]; [inversion E; congruence|exact I].
Qed.
Lemma assoc_none : forall m i, (forall e, ~ In (i, e) m) -> assoc i m = None.
Proof.
  induction m as [|[j e] m IH]; intros i H; [reflexivity|]. cbn [assoc]. destruct (Nat.eqb_spec j i) as [->|NE].
  - exfalso. apply (H e). left. reflexivity.
  - apply IH. intros e' I'. apply (H e'). right. exact I'.
Qed.
Lemma dup_at_of : forall (A : Type) (b : list (A * N)) i x d, nth_error b i = Some (x, d) -> dup_at (dups_of b) i = d.
Proof.
  intros A b i x d E. unfold dup_at. destruct (N.eq_dec d 0) as [->|NZ].
  - rewrite assoc_none; [reflexivity|]. intros e I. apply dups_in in I. destruct I as (H & y & I). rewrite E in I. inversion I. congruence.
  - rewrite (assoc_in _ _ d); [reflexivity| |].
    + intros e I. apply dups_in in I. destruct I as (H & y & I). rewrite E in I. inversion I. reflexivity.
    + apply dups_in. eauto.
Qed.
Lemma number_nth_err : forall (A : Type) (l : list A) k i, nth_error (number k l) i = option_map (pair (k + i)) (nth_error l i).
Proof.
  intros A l. induction l as [|x l IH]; intros k [|i]; cbn [number nth_error option_map]; try reflexivity.
  - rewrite Nat.add_0_r. reflexivity.
  - rewrite IH. replace (k + S i) with (S k + i) by lia. reflexivity.
Qed.
Lemma save_calls_dups : forall (A : Type) (g : A -> bytes) (b : list (A * N)),
  save_calls (map (fun e => g (fst e)) b) (dups_of b) = map (fun e => (g (fst e), snd e)) b.
Proof.
  intros A g b. unfold save_calls. apply nth_error_ext. intros i. rewrite !nth_error_map, number_nth_err, nth_error_map.
  destruct (nth_error b i) as [[x d]|] eqn:E; [|reflexivity]. cbn [option_map fst snd Nat.add]. rewrite (dup_at_of _ _ _ _ _ E). reflexivity.
Qed.
Lemma save_calls_none : forall items, save_calls items [] = map (fun x => (x, 0%N)) items.
Proof.
  intros items. unfold save_calls. apply nth_error_ext. intros i. rewrite !nth_error_map, number_nth_err.
  destruct (nth_error items i); reflexivity.
Qed.

(** Receiving messages that carry no counts / counts. *)
Lemma recv_plain : forall len f (bs : list (list bytes)), 0 < len -> Forall (Forall (fun x => length x = len)) bs ->
  recv_into len f (map (fun b => (concat b, [])) bs) = Ok (map (fun x => (f x, 0%N)) (concat bs)).
Proof.
  intros len f bs HL H. induction H as [|b bs H F IH]; [reflexivity|]. cbn [map recv_into concat].
  rewrite cut_concat by assumption. cbn [bind]. rewrite IH. cbn [omap bind]. rewrite save_calls_none, map_map, map_app. reflexivity.
Qed.
Lemma recv_cache_msgs : forall len (bt : list (list crec)), 0 < len -> Forall (Forall (fun r => length (cr_data r) = len)) bt ->
  recv_into len (fun x => x) (map cache_msg bt) = Ok (map (fun r => (cr_data r, cr_dup r)) (concat bt)).
Proof.
  intros len bt HL H. induction H as [|b bs H F IH]; [reflexivity|]. cbn [map recv_into concat].
  unfold cache_msg at 1. rewrite cut_concat; [|exact HL|apply Forall_map; exact H]. cbn [bind]. rewrite IH. cbn [omap bind].
  rewrite map_id, map_app. do 2 f_equal.
  assert (E := save_calls_dups bytes (fun x => x) (map (fun r => (cr_data r, cr_dup r)) b)). cbv beta in E.
  rewrite !map_map in E. cbn [fst snd] in E. exact E.
Qed.

(** ** The server's counters *)
Section Counts.
Variable Item : Type.
Definition counted (pre : list (Item * N)) (c : pinfo) : Prop :=
  pi_unique c = N.of_nat (length pre) /\ pi_total c = u32 (fold_right (fun e a => snd e + a)%N 0%N pre) /\
  (forall k v, In (k, v) (pi_dup c) <-> v <> 0%N /\ exists i x, k = N.of_nat i /\ nth_error pre i = Some (x, v)).

Lemma count_fold : forall U (dup : dupmap) t m,
  fold_left (fun s e => (u32 (fst s + snd e), (u32 (N.of_nat (fst e) + U), snd e) :: snd s)%N) dup (t, m) =
  (match dup with [] => t | _ => u32 (t + fold_right (fun e a => snd e + a)%N 0%N dup) end,
   rev (map (fun e => (u32 (N.of_nat (fst e) + U), snd e)%N) dup) ++ m).
Proof using.
  clear. intros U dup. induction dup as [|e dup IH]; intros t m; [reflexivity|]. cbn [fold_left fst snd]. rewrite IH. f_equal.
  - cbn [fold_right]. destruct dup as [|e' dup]; [cbn [fold_right]; rewrite N.add_0_r; reflexivity|].
    rewrite u32_u32_add. f_equal. lia.
  - cbn [map rev]. rewrite <- app_assoc. reflexivity.
Qed.
Lemma dups_sum : forall (A : Type) (b : list (A * N)),
  fold_right (fun e a => snd e + a)%N 0%N (dups_of b) = fold_right (fun e a => snd e + a)%N 0%N b.
Proof using.
  clear. intros A b. unfold dups_of. generalize O. induction b as [|[x d] b IH]; intros k; [reflexivity|].
  cbn [number flat_map fst snd]. destruct (N.eqb_spec d 0) as [->|]; cbn [app fold_right snd]; rewrite IH; reflexivity.
Qed.
Lemma sum_app : forall (A : Type) (a b : list (A * N)),
  fold_right (fun e s => snd e + s)%N 0%N (a ++ b) = (fold_right (fun e s => snd e + s)%N 0%N a + fold_right (fun e s => snd e + s)%N 0%N b)%N.
Proof using. clear. intros A a b. induction a as [|x a IH]; [reflexivity|]. cbn [app fold_right]. rewrite IH. lia. Qed.

Lemma count_batch_spec : forall pre c (b : list (Item * N)), counted pre c -> (N.of_nat (length (pre ++ b)) < max32)%N ->
  counted (pre ++ b) (count_batch c (length b) (dups_of b)).
Proof using.
  intros pre c b (HU & HT & HM) HL. unfold count_batch. rewrite count_fold. rewrite app_length in HL.
  split; [|split]; cbn [pi_unique pi_total pi_dup].
  - rewrite HU, app_length. rewrite u32_small by lia. lia.
  - rewrite sum_app, <- (dups_sum _ b). rewrite HT. destruct (dups_of b) as [|e r].
    + cbn [fold_right]. rewrite N.add_0_r. reflexivity.
    + rewrite u32_u32_add. reflexivity.
  - intros k v. rewrite in_app_iff, <- in_rev, in_map_iff, HM. rewrite HU. split.
    + intros [([i d] & E & I)|(HV & i & x & E & I)].
      * apply dups_in in I. destruct I as (Hd & x & I). cbn [fst snd] in E. inversion E; subst. split; [exact Hd|].
        assert (i < length b) by (apply nth_error_Some; congruence).
        exists (length pre + i), x. split; [rewrite u32_small; lia|]. rewrite nth_error_app2 by lia.
        replace (length pre + i - length pre) with i by lia. exact I.
      * split; [exact HV|]. exists i, x. split; [exact E|]. rewrite nth_error_app1; [exact I|]. apply nth_error_Some. congruence.
    + intros (HV & i & x & E & I). destruct (Nat.ltb_spec i (length pre)) as [G|G].
      * right. split; [exact HV|]. exists i, x. rewrite nth_error_app1 in I by exact G. auto.
      * left. rewrite nth_error_app2 in I by exact G. exists (i - length pre, v). cbn [fst snd].
        assert (i - length pre < length b) by (apply nth_error_Some; congruence).
        split; [f_equal; rewrite u32_small; lia|]. apply dups_in. eauto.
Qed.
Lemma counted_at : forall pre c i x d, counted pre c -> nth_error pre i = Some (x, d) -> map_at (pi_dup c) (N.of_nat i) = d.
Proof using.
  intros pre c i x d (_ & _ & HM) E. unfold map_at. destruct (N.eq_dec d 0) as [->|NZ].
  - rewrite map_find_none; [reflexivity|]. intros w I. apply HM in I. destruct I as (HW & j & y & Ej & I).
    apply Nat2N.inj in Ej. subst j. rewrite E in I. inversion I. congruence.
  - rewrite (map_find_in _ d); [reflexivity| |].
    + intros w I. apply HM in I. destruct I as (HW & j & y & Ej & I). apply Nat2N.inj in Ej. subst j. rewrite E in I. inversion I. reflexivity.
    + apply HM. eauto.
Qed.
Lemma total_end : forall pre c, counted pre c -> pi_total (count_end c) = total_rows Item pre.
Proof using.
  intros pre c (HU & HT & _). unfold count_end, total_rows. cbn [pi_total]. rewrite HU, HT, u32_u32_add. f_equal.
  clear. induction pre as [|e pre IH]; [reflexivity|]. cbn [length fold_right]. lia.
Qed.
End Counts.

(** ** Matching *)
Lemma last_match_unique : forall (saved : list (bytes * N)) ct i d, NoDup (map fst saved) ->
  (last_match saved ct = Some (i, d) <-> exists j, i = N.of_nat j /\ nth_error saved j = Some (ct, d)).
Proof.
  intros saved ct i d N. rewrite <- cm_find_last. unfold cm_find. split.
  - destruct (find _ (rev (number 0 saved))) as [[j [c e]]|] eqn:E; [|discriminate]. intros H. inversion H; subst. clear H.
    apply find_some in E. destruct E as (I & E). apply in_rev in I. apply number_in in I. destruct I as (_ & I). rewrite Nat.sub_0_r in I.
    apply beqb_spec in E. cbn in E. subst c. exists j. auto.
  - intros (j & -> & E). destruct (find _ (rev (number 0 saved))) as [[j' [c e]]|] eqn:F.
    + apply find_some in F. destruct F as (I & F). apply in_rev in I. apply number_in in I. destruct I as (_ & I). rewrite Nat.sub_0_r in I.
      apply beqb_spec in F. cbn in F. subst c.
      assert (j' = j). { eapply (proj1 (NoDup_nth_error (map fst saved)) N); [apply nth_error_Some|]; rewrite !nth_error_map, ?I, ?E; cbn; congruence. }
      subst j'. rewrite E in I. inversion I. reflexivity.
    + exfalso. apply find_none with (x := (j, (ct, d))) in F.
      * cbn in F. assert (beqb ct ct = true) by (apply beqb_spec; reflexivity). congruence.
      * apply -> in_rev. apply number_in. split; [lia|]. rewrite Nat.sub_0_r. exact E.
Qed.
Lemma all_pairs_in : forall saved peer i k sd d, NoDup (map fst saved) ->
  (In (i, k, sd, d) (all_pairs saved peer) <->
   exists j l ct, i = N.of_nat j /\ k = N.of_nat l /\ nth_error saved j = Some (ct, sd) /\ nth_error peer l = Some (ct, d)).
Proof.
  intros saved peer i k sd d N. unfold all_pairs. rewrite in_flat_map. split.
  - intros ([l [ct e]] & I & J). apply number_in in I. destruct I as (_ & I). rewrite Nat.sub_0_r in I. cbn [fst snd] in J.
    destruct (last_match saved ct) as [[i' sd']|] eqn:E; [|destruct J]. destruct J as [J|[]]. inversion J; subst.
    apply last_match_unique in E; [|exact N]. destruct E as (j & -> & E). exists j, l, ct. auto.
  - intros (j & l & ct & -> & -> & E & F). exists (l, (ct, d)). split; [apply number_in; split; [lia|rewrite Nat.sub_0_r; exact F]|].
    cbn [fst snd]. assert (L : last_match saved ct = Some (N.of_nat j, sd)) by (apply last_match_unique; [exact N|eauto]).
    rewrite L. left. reflexivity.
Qed.
Lemma all_pairs_keys : forall saved peer, NoDup (map (fun q : N * N * N * N => snd (fst (fst q))) (all_pairs saved peer)).
Proof.
  intros saved peer. unfold all_pairs.
  apply (nodup_flat_key _ _ _ (fun p => N.of_nat (fst p))); [apply number_nodup| |].
  - intros p y I. destruct (last_match saved (fst (snd p))) as [[a b]|]; [|destruct I]. destruct I as [<-|[]]. reflexivity.
  - intros p. destruct (last_match saved (fst (snd p))) as [[a b]|]; cbn; lia.
Qed.
