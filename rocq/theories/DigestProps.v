(** Properties C47 and C48: composite keys and the equal-input shortcut. *)
From Coq Require Import List NArith Lia Bool Arith Permutation Sorted.
From Verif Require Import Base Text TextProofs JoinModel JoinSpec JoinProps BucketModel DigestModel DigestSpec DigestProofs.
Import ListNotations.

(** ** C47.  Full statement: [forall a b, length a = length b -> row_key a = row_key b -> a = b].
    Missing: columns other than the last that contain a comma; for those it is false
    ([C47_composite_keys_refuted]). *)
Theorem C47_composite_keys_partial :
  forall (n : nat) (a b : list bytes), plain_columns n a -> plain_columns n b ->
  (row_key a = row_key b <-> a = b).
Proof. intros n a b Ha Hb. split; [apply (row_key_inj n); assumption|congruence]. Qed.
Print Assumptions C47_composite_keys_partial.

(** One key column: no restriction on the values. *)
Theorem C47_single_key : forall (x y : bytes), row_key [x] = row_key [y] <-> x = y.
Proof. intros x y. unfold row_key, keys_join. cbn [join_with]. tauto. Qed.
Print Assumptions C47_single_key.

(** In the key summary of a sorted table, rows fall under one entry exactly if they agree on every
    key column. *)
Theorem C47_grouping_partial :
  forall (n : nat) (R : bytes -> bytes -> Prop) (R_anti : forall x y, R x y -> R y x -> x = y)
         (rows : list (list bytes)) (bs : list (list bytes)) es m,
  Forall (plain_columns n) rows -> concat bs = map row_key rows -> Forall (fun b => b <> []) bs ->
  rows <> [] -> (N.of_nat (length rows) < max32)%N -> StronglySorted R (map row_key rows) ->
  key_info_make beqb [] bs = (es, m) ->
  forall i j a b, nth_error rows i = Some a -> nth_error rows j = Some b ->
  ((exists e, In e es /\ (ke_start e <= N.of_nat i <= ke_start e + ke_dup e)%N /\
                         (ke_start e <= N.of_nat j <= ke_start e + ke_dup e)%N) <-> a = b).
Proof.
  intros n R R_anti rows bs es m HF HC HB HN HL HS HM i j a b Hi Hj.
  destruct (C01_key_summary_exact bytes beqb beqb_spec [] R R_anti (map row_key rows) bs es m HC HB) as (K1 & _ & K2 & _);
    [destruct rows; [contradiction|discriminate]|rewrite map_length; exact HL|exact HS|exact HM|].
  assert (Mi := map_nth_error row_key _ _ Hi). assert (Mj := map_nth_error row_key _ _ Hj).
  rewrite Forall_forall in HF. split.
  - intros (e & He & A & B). apply (K2 e i He) in A. apply (K2 e j He) in B.
    apply (row_key_inj n); [apply HF, (nth_error_In _ _ Hi)|apply HF, (nth_error_In _ _ Hj)|congruence].
  - intros ->. pose proof (proj1 (K1 (row_key b)) (nth_error_In _ _ Mj)) as I.
    apply in_map_iff in I as (e & E & He).
    exists e. split; [exact He|]. rewrite !(K2 e _ He), E. split; assumption.
Qed.
Print Assumptions C47_grouping_partial.

(** Two rows that differ in both key columns are one key: the summary counts the second row as a
    duplicate of the first. *)
Theorem C47_composite_keys_refuted :
  exists a b : list bytes, length a = 2 /\ length b = 2 /\ nth 0 a [] <> nth 0 b [] /\ nth 1 a [] <> nth 1 b [] /\
    row_key a = row_key b /\
    fst (key_info_make beqb [] [[row_key a; row_key b]]) = [mk_kentry (row_key a) 0 1]%N.
Proof.
  exists [[97; 44; 98]; [99]]%N, [[97]; [98; 44; 99]]%N.
  repeat split; try discriminate; reflexivity.
Qed.
Print Assumptions C47_composite_keys_refuted.

Example C47_example :
  let rows := [[[97]; [98]]; [[97]; [98; 44]]; [[97]; [98; 44]]]%N in
  Forall (plain_columns 2) rows /\
  fst (key_info_make beqb [] [map row_key rows]) =
    [mk_kentry [97; 44; 98] 0 0; mk_kentry [97; 44; 98; 44] 1 1]%N.
Proof.
  split; [|reflexivity].
  repeat constructor; cbn; intuition discriminate.
Qed.

(** ** C48.  The parties skip the protocol exactly if the check is on, no party has a duplicate key
    and all digests are equal. *)
Theorem C48_when_skipped :
  forall (check : bool) (parties : list kinfo), parties <> [] ->
  exists r, digest_equal check parties = Ok r /\
    (r = true <-> check = true /\ (forall p, In p parties -> ki_dup p = 0%N) /\
                  forall p q, In p parties -> In q parties -> ki_hash p = ki_hash q).
Proof.
  intros [] parties H.
  - destruct (digest_equal_true parties H) as (r & R & S). exists r. split; [exact R|]. rewrite S. tauto.
  - exists false. split; [reflexivity|]. split; [discriminate|]. intros [A _]. discriminate.
Qed.
Print Assumptions C48_when_skipped.

(** The duplicate count the shortcut looks at tells whether a sorted table repeats a key. *)
Theorem C48_duplicates_seen :
  forall (sha : bytes -> bytes) (R : bytes -> bytes -> Prop) (bs : list (list bytes)),
  (forall x y, R x y -> R y x -> x = y) ->
  Forall (fun b => b <> []) bs -> bs <> [] -> (N.of_nat (length (concat bs)) < max32)%N ->
  StronglySorted R (concat bs) ->
  (ki_dup (sorted_info sha bs) = 0%N <-> NoDup (concat bs)).
Proof. exact dup_seen. Qed.
Print Assumptions C48_duplicates_seen.

Example C48_duplicates_example :
  let bs := [[[97]]; [[97]; [98]]]%N in
  StronglySorted (fun x y => x = y \/ (x = [97] /\ y = [98])%N) (concat bs) /\
  Forall (fun b => b <> []) bs /\ ki_dup (sorted_info (fun x => x) bs) = 1%N /\
  digest_equal true [sorted_info (fun x => x) bs; unique_info (fun x => x) [[97]; [98]]%N] = Ok false.
Proof. cbn. repeat split; repeat (constructor; auto); discriminate. Qed.

(** Full statement: as below without [P].  Missing: keys that are prefixes of one another, for which
    it is false ([C48_same_keys_refuted]).  For keys of one fixed length see
    [fixed_length_prefix_free]. *)
Theorem C48_same_keys_partial :
  forall (sha : bytes -> bytes) (P : bytes -> Prop) (check : bool) (parties : list kinfo),
  (forall a b, sha a = sha b -> a = b) -> prefix_free P ->
  Forall (made sha) parties -> Forall (fun p => Forall P (ki_keys p)) parties ->
  digest_equal check parties = Ok true ->
  (forall p q, In p parties -> In q parties -> ki_keys p = ki_keys q) /\
  forall p, In p parties -> equal_indices p = common_positions (ki_keys p) (map ki_keys parties).
Proof. intros sha P [] parties; [apply same_keys|discriminate]. Qed.
Print Assumptions C48_same_keys_partial.

(** The same for the legacy runner, whose files need not be sorted. *)
Theorem C48_legacy_same_keys_partial :
  forall (sha : bytes -> bytes) (P : bytes -> Prop) (files : list (list bytes)),
  (forall a b, sha a = sha b -> a = b) -> prefix_free P -> Forall (Forall P) files ->
  legacy_equal sha files = Ok true -> forall a b, In a files -> In b files -> a = b.
Proof. exact legacy_same. Qed.
Print Assumptions C48_legacy_same_keys_partial.

(** Keys are hashed one after the other without separator, so tables without a common key can have
    equal digests, whatever the hash: each party then reports all its rows as intersection. *)
Theorem C48_same_keys_refuted :
  forall sha : bytes -> bytes, exists p q : kinfo,
    made sha p /\ made sha q /\ digest_equal true [p; q] = Ok true /\
    equal_indices p = [0; 1]%N /\ common_positions (ki_keys p) [ki_keys p; ki_keys q] = [].
Proof.
  intros sha. exists (sorted_info sha [[[97]; [98; 99]]])%N, (sorted_info sha [[[97; 98]; [99]]])%N.
  split; [constructor; reflexivity|]. split; [constructor; reflexivity|].
  split; [|split; reflexivity].
  destruct (digest_equal_true [sorted_info sha [[[97]; [98; 99]]]; sorted_info sha [[[97; 98]; [99]]]]%N) as (r & R & S);
    [discriminate|]. rewrite R. f_equal. apply S. split.
  - intros p [<-|[<-|[]]]; reflexivity.
  - intros p q [<-|[<-|[]]] [<-|[<-|[]]]; reflexivity.
Qed.
Print Assumptions C48_same_keys_refuted.

Example C48_example :
  let p := sorted_info (fun x => x) [[[97; 98]]; [[99; 100]]]%N in
  let q := unique_info (fun x => x) [[97; 98]; [99; 100]]%N in
  prefix_free (of_length 2) /\ made (fun x => x) p /\ made (fun x => x) q /\
  Forall (of_length 2) (ki_keys p) /\ Forall (of_length 2) (ki_keys q) /\
  digest_equal true [p; q] = Ok true /\ equal_indices p = [0; 1]%N /\
  digest_equal true [p; unique_info (fun x => x) [[97; 98]; [99; 101]]%N] = Ok false.
Proof.
  cbn zeta. split; [apply fixed_length_prefix_free; lia|].
  split; [constructor; reflexivity|]. split; [constructor; reflexivity|].
  split; [repeat constructor|]. split; [repeat constructor|]. repeat split.
Qed.
