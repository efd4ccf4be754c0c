(** Property C22: the cuckoo table. *)
From Coq Require Import List NArith Lia Bool.
From Verif Require Import Base StoreModel CuckooModel CuckooSpec CuckooProofs.
Import ListNotations.

Lemma cuckoo_places : forall o inserts, good_opts o ->
  exists t0, ck_new o = Ok t0 /\
    (ck_insert_all o t0 inserts = Throw \/
     exists t, ck_insert_all o t0 inserts = Ok t /\
       (forall i, (i < N.of_nat (length (concat inserts)))%N ->
          exists pl, stored t i pl /\ forall pl', stored t i pl' -> pl' = pl) /\
       (forall i pl, stored t i pl -> (i < N.of_nat (length (concat inserts)))%N) /\
       (forall i p h, stored t i (InBin p h) -> (h < ko_hash o)%N /\
          exists code, nth_error (concat inserts) (N.to_nat i) = Some code /\
                       N.of_nat p = (hash_nr code h mod ko_bins o)%N)).
Proof.
  intros o inserts G. destruct (ck_new_inv o G) as (t0 & E0 & I0 & H0). exists t0. split; [exact E0 | ].
  destruct (ck_insert_all_inv o G inserts t0 I0) as [E | (t & E & I & H)]; [left; exact E | right].
  exists t. split; [exact E | ]. rewrite H0 in H. cbn [app] in H. rewrite <- H. apply inv_places; assumption.
Qed.

Lemma cuckoo_checks : forall o inserts t0 t, good_opts o -> ck_new o = Ok t0 -> ck_insert_all o t0 inserts = Ok t ->
  sanity_check o t = (if (N.of_nat (length (concat inserts)) =? ko_input o)%N then Ok tt else Throw) /\
  (forall i p h, stored t i (InBin p h) ->
     exists m code, min_colliding o t (N.of_nat p) = Ok m /\ nth_error (concat inserts) (N.to_nat i) = Some code /\
       (m <= h)%N /\ (hash_nr code m mod ko_bins o = N.of_nat p)%N /\
       forall k, (k < m)%N -> (hash_nr code k mod ko_bins o <> N.of_nat p)%N).
Proof.
  intros o inserts t0 t G E0 E. destruct (ck_new_inv o G) as (t1 & E1 & I0 & H0).
  rewrite E0 in E1. injection E1 as <-.
  destruct (ck_insert_all_inv o G inserts t0 I0) as [E2 | (t2 & E2 & I & H)]; rewrite E in E2; [discriminate | ].
  injection E2 as <-. rewrite H0 in H. cbn [app] in H. rewrite <- H. split.
  - apply sanity_ok; assumption.
  - intros i p h ST. eapply min_colliding_spec; eauto.
Qed.

(** C22.  Any sequence of Insert calls on a new table either throws or leaves
    every input at exactly one place - in a bin selected by the hash number it is
    tagged with, or in the stash - and nothing else in the table. *)
Theorem C22_every_input_placed_once :
  forall o inserts, good_opts o ->
  exists t0, ck_new o = Ok t0 /\
    (ck_insert_all o t0 inserts = Throw \/
     exists t, ck_insert_all o t0 inserts = Ok t /\
       (forall i, (i < N.of_nat (length (concat inserts)))%N ->
          exists pl, stored t i pl /\ forall pl', stored t i pl' -> pl' = pl) /\
       (forall i pl, stored t i pl -> (i < N.of_nat (length (concat inserts)))%N) /\
       (forall i p h, stored t i (InBin p h) -> (h < ko_hash o)%N /\
          exists code, nth_error (concat inserts) (N.to_nat i) = Some code /\
                       N.of_nat p = (hash_nr code h mod ko_bins o)%N)).
Proof. exact cuckoo_places. Qed.
Print Assumptions C22_every_input_placed_once.

(** C22.  On such a table SanityCheck passes exactly when all announced inputs
    were inserted, and MinCollidingHashIdx of a used bin is the smallest hash
    number of its input that selects the bin. *)
Theorem C22_checks :
  forall o inserts t0 t, good_opts o -> ck_new o = Ok t0 -> ck_insert_all o t0 inserts = Ok t ->
  sanity_check o t = (if (N.of_nat (length (concat inserts)) =? ko_input o)%N then Ok tt else Throw) /\
  (forall i p h, stored t i (InBin p h) ->
     exists m code, min_colliding o t (N.of_nat p) = Ok m /\ nth_error (concat inserts) (N.to_nat i) = Some code /\
       (m <= h)%N /\ (hash_nr code m mod ko_bins o = N.of_nat p)%N /\
       forall k, (k < m)%N -> (hash_nr code k mod ko_bins o <> N.of_nat p)%N).
Proof. exact cuckoo_checks. Qed.
Print Assumptions C22_checks.

(** Four inputs in two calls.  With four bins items are moved to their second
    and third choice; with three bins one goes to the stash, and without a stash
    the call throws. *)
Definition ex_codes : list (list N) :=
  [[0x000300010000; 0x000200010000]; [0x000400000000; 0x000100000001]]%N.
Definition ex_table (bins : N) (stash : nat) : outcome cuckoo :=
  let o := mk_ko 4 stash 3 128 bins in
  do t0 <- ck_new o; ck_insert_all o t0 ex_codes.

Example C22_example :
  good_opts (mk_ko 4 0 3 128 4) /\
    (exists t, ex_table 4 0 = Ok t /\
    ck_bins t = [2 + 1 * 2 ^ 56; 3 + 2 * 2 ^ 56; 1 + 2 * 2 ^ 56; 0 + 2 * 2 ^ 56]%N /\
    sanity_check (mk_ko 4 0 3 128 4) t = Ok tt /\
    stored t 3 (InBin 1 2) /\ min_colliding (mk_ko 4 0 3 128 4) t 1 = Ok 0%N) /\
    (exists t, ex_table 3 1 = Ok t /\ ck_stash t = [2]%N /\ stored t 2 (InStash 0)) /\
    ex_table 3 0 = Throw.
Proof.
  split; [unfold good_opts; cbn; lia | ]. split; [ | split; [ | vm_compute; reflexivity]].
  - eexists. split; [vm_compute; reflexivity | ]. split; [reflexivity | ]. split; [vm_compute; reflexivity | ].
    split; [ | vm_compute; reflexivity]. eexists. split; [reflexivity | ]. split; [discriminate | ]. split; reflexivity.
  - eexists. split; [vm_compute; reflexivity | ]. split; [reflexivity | ].
    eexists. split; [reflexivity | ]. split; [discriminate | reflexivity].
Qed.
