(** Lemmas for C108. *)
From Coq Require Import List NArith Bool Arith Lia.
From Verif Require Import Base BaseProofs Text TextProofs StoreModel StoreProofs PirPackModel GroupDbModel RdErrModel RdErrSpec.
Import ListNotations.

Lemma loop_clean : forall bs cur, rd_loop cur (calls bs) = bs.
Proof. induction bs as [|b bs IH]; intros cur; [reflexivity|]. unfold calls in *. cbn [map rd_loop]. rewrite IH. reflexivity. Qed.

Lemma loop_dup : forall evs b, b <> [] -> some_failed evs -> no_empty_batch evs ->
  exists l1 x l2, b :: rd_loop (Some b) evs = l1 ++ x :: x :: l2 /\ x <> [].
Proof.
  unfold some_failed, no_empty_batch. induction evs as [|[c|] evs IH]; intros b HB HF HN; [destruct HF| |].
  - destruct HF as [HF|HF]; [discriminate|].
    destruct (IH c) as (l1 & x & l2 & E & HX); [apply HN; left; reflexivity|exact HF|intros d I; apply HN; right; exact I|].
    exists (b :: l1), x, l2. split; [|exact HX]. cbn [rd_loop]. rewrite E. reflexivity.
  - exists [], b, (rd_loop (Some b) evs). split; [reflexivity|exact HB].
Qed.

Lemma repeated_row : forall evs, some_failed evs -> no_empty_batch evs ->
  concat (rd_loop None evs) = [] \/
  exists r a m c, concat (rd_loop None evs) = a ++ r :: m ++ r :: c.
Proof.
  intros [|[b|] evs] HF HN; [destruct HF| |left; reflexivity]. right.
  destruct HF as [HF|HF]; [discriminate|].
  destruct (loop_dup evs b) as (l1 & x & l2 & E & HX); [apply HN; left; reflexivity|exact HF|intros d I; apply HN; right; exact I|].
  cbn [rd_loop]. rewrite E. destruct x as [|r x]; [contradiction|]. exists r, (concat l1), x, (x ++ concat l2).
  rewrite concat_app. cbn [concat]. rewrite <- !app_comm_cons. reflexivity.
Qed.

Lemma repeated_keys : forall (r : row) a m c, ~ NoDup (map fst (a ++ r :: m ++ r :: c)).
Proof.
  intros r a m c H. rewrite map_app in H. cbn [map] in H. apply NoDup_remove_2 in H. apply H.
  apply in_or_app. right. rewrite map_app. apply in_or_app. right. left. reflexivity.
Qed.

Lemma distinct_iff : forall (ks : list bytes), Nat.eqb (length ks) (length (nodup (list_eq_dec N.eq_dec) ks)) = true <-> NoDup ks.
Proof.
  intros ks. rewrite Nat.eqb_eq. split; intros H.
  - induction ks as [|k ks IH]; [constructor|]. cbn [nodup length] in H.
    assert (L : length (nodup (list_eq_dec N.eq_dec) ks) <= length ks).
    { apply NoDup_incl_length; [apply NoDup_nodup|]. intros x I. apply nodup_In in I. exact I. }
    destruct (in_dec (list_eq_dec N.eq_dec) k ks) as [I|I]; [lia|]. cbn [length] in H. constructor; [exact I|apply IH; lia].
  - rewrite nodup_fixed_point by exact H. reflexivity.
Qed.

Lemma read_dup : forall evs, ~ NoDup (map fst (concat (rd_loop None evs))) -> rd_read evs = Throw.
Proof.
  intros evs H. unfold rd_read. destruct (Nat.eqb (length (concat (rd_loop None evs))) 0); [reflexivity|]. cbn [negb enforce].
  match goal with |- enforce ?b _ = _ => destruct b eqn:E; [|reflexivity] end. exfalso. apply H. apply distinct_iff.
  rewrite map_length. exact E.
Qed.

Section Hash.
Variable hash : bytes -> N.
Variable nb : N.
Hypothesis nb_ok : (0 < nb <= 2147483648)%N.

Lemma bucket_ok : forall k, bucket_of hash nb k = Ok (hash k mod nb)%N.
Proof using nb_ok.
  intros k. unfold bucket_of. destruct (N.eqb_spec nb 0) as [E|_]; [lia|].
  pose proof (N.mod_lt (hash k) nb ltac:(lia)). destruct (N.ltb_spec (hash k mod nb) 2147483648) as [_|G]; [reflexivity|lia].
Qed.

Lemma puts_ok : forall rows bs, length bs = N.to_nat nb ->
  exists bs', rd_puts hash nb rows bs = Ok bs' /\ length bs' = N.to_nat nb /\
    forall i, i < N.to_nat nb -> nth i bs' [] = nth i bs [] ++ rows_in_bucket hash nb i rows.
Proof using nb_ok.
  induction rows as [|r rows IH]; intros bs L; cbn [rd_puts].
  - exists bs. split; [reflexivity|]. split; [exact L|]. intros i _. cbn. rewrite app_nil_r. reflexivity.
  - unfold rd_put. rewrite bucket_ok. cbn [bind].
    set (j := N.to_nat (hash (fst r) mod nb)).
    assert (HJ : j < N.to_nat nb) by (pose proof (N.mod_lt (hash (fst r)) nb ltac:(lia)); unfold j; lia).
    assert (U : forall (l : list (list row)) k i, k < length l -> nth i (upd k (fun l => l ++ [r]) l) [] = if Nat.eqb k i then nth i l [] ++ [r] else nth i l []).
    { clear. induction l as [|x l IH]; intros k i H; [cbn in H; lia|]. destruct k as [|k]; cbn [upd].
      - destruct i; reflexivity.
      - destruct i as [|i]; [reflexivity|]. cbn [nth]. rewrite IH by (cbn in H; lia). reflexivity. }
    assert (UL : forall (l : list (list row)) k, length (upd k (fun l => l ++ [r]) l) = length l).
    { clear. induction l as [|x l IH]; intros k; destruct k; cbn [upd length]; try reflexivity. rewrite IH. reflexivity. }
    destruct (IH (upd j (fun l => l ++ [r]) bs)) as (bs' & E & L' & N'); [rewrite UL; exact L|].
    exists bs'. split; [exact E|]. split; [exact L'|]. intros i Hi. rewrite N' by exact Hi. rewrite U by lia.
    unfold rows_in_bucket. cbn [filter]. fold j. destruct (Nat.eqb j i); [rewrite <- app_assoc; reflexivity|reflexivity].
Qed.

Lemma bucketize_ok : forall evs, exists bs, rd_bucketize hash nb evs = Ok bs /\ length bs = N.to_nat nb /\
  forall i, i < N.to_nat nb -> nth i bs [] = rows_in_bucket hash nb i (concat (rd_loop None evs)).
Proof using nb_ok.
  intros evs. unfold rd_bucketize. destruct (puts_ok (concat (rd_loop None evs)) (repeat [] (N.to_nat nb))) as (bs & E & L & H); [apply repeat_length|].
  exists bs. split; [exact E|]. split; [exact L|]. intros i Hi. rewrite H by exact Hi. rewrite nth_repeat. reflexivity.
Qed.
End Hash.
