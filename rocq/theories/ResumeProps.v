(** C31: bucket-wise PSI restarted from a recovery folder. *)
From Coq Require Import List NArith Bool Arith Lia.
From Verif Require Import Base JoinModel ResumeModel ResumeProofs.
Import ListNotations.

(** After any crashes, a party that then completes a run has exactly the entries of all buckets in
    its index file, as a set; the full claim, each exactly once, is refuted below. *)
Theorem C31_exactly_once_partial :
  forall nbuckets (res : bool -> nat -> list (N * N)) (skip : nat -> bool) s p,
  (forall q b, skip b = true -> res q b = []) ->
  rhistory nbuckets res skip s ->
  forall e, In e (rp_file (rcomplete nbuckets res skip s p)) <-> exists b, b < nbuckets /\ In e (res p b).
Proof.
  intros nbuckets res skip s p HS H e. rewrite (rcomplete_set nbuckets res skip s H p e). split.
  - intros (b & L & _ & I). eauto.
  - intros (b & L & I). exists b. split; [exact L|]. split; [|exact I].
    destruct (skip b) eqn:E; [|reflexivity]. rewrite (HS p b E) in I. contradiction.
Qed.
Print Assumptions C31_exactly_once_partial.

(** If both parties stop only after both stored the same bucket count, each entry is there once. *)
Theorem C31_clean_stop_exactly_once :
  forall nbuckets (res : bool -> nat -> list (N * N)) (skip : nat -> bool) s p,
  (forall q b, skip b = true -> res q b = []) ->
  rclean nbuckets res skip s ->
  rp_file (rcomplete nbuckets res skip s p) = concat (map (res p) (seq 0 nbuckets)).
Proof.
  intros nbuckets res skip s p HS H. rewrite (rclean_file nbuckets res skip s H p), flat_map_concat_map. f_equal.
  apply map_ext. intros b. unfold eff. destruct (skip b) eqn:E; [rewrite (HS p b E); reflexivity|reflexivity].
Qed.
Print Assumptions C31_clean_stop_exactly_once.

(** False in general: a crash after bucket 0 was appended to the index file and before its count
    was stored doubles its entries, and the result stage then rejects the file. *)
Definition sx_res (p : bool) (b : nat) : list (N * N) :=
  match b with O => [(0, 0)] | S O => [(2, 0)] | _ => [] end%N.
Definition sx_state : rsystem :=
  fun p => rapply_all (rinit p) (firstn (if p then 1 else 2) (run_events 2 sx_res (fun _ => false) p (rstart rinit))).
Theorem C31_exactly_once_refuted :
  exists nbuckets (res : bool -> nat -> list (N * N)) (skip : nat -> bool) s p,
    (forall q b, skip b = true -> res q b = []) /\ rhistory nbuckets res skip s /\
    NoDup (concat (map (res p) (seq 0 nbuckets))) /\
    ~ NoDup (rp_file (rcomplete nbuckets res skip s p)) /\
    let rows := [(1, 10); (2, 20); (3, 30)]%N in
    deal_result_index (Key := N) (0, 0)%N (0, 0)%N JInner RoleReceiver RoleReceiver 8 rows
      [mk_kentry 1 0 0; mk_kentry 2 1 0; mk_kentry 3 2 0]%N
      (sort_index_file (rp_file (rcomplete nbuckets res skip s p))) = Throw.
Proof.
  exists 2, sx_res, (fun _ => false), sx_state, true. split; [discriminate|]. split; [|split; [|split]].
  - apply (rh_run 2 sx_res (fun _ => false) rinit (fun p => if p then 1 else 2)). constructor.
  - cbn. repeat constructor; cbn; intuition discriminate.
  - cbn. intros H. inversion H as [|? ? N _]; subst. apply N. left. reflexivity.
  - vm_compute. reflexivity.
Qed.
Print Assumptions C31_exactly_once_refuted.

(** Non-trivial cases: the state above; and a clean stop after bucket 1 of 3, bucket 1 empty. *)
Example C31_example :
  rp_file (sx_state true) = [(0, 0)]%N /\ rp_parsed (sx_state true) = 0 /\ rp_parsed (sx_state false) = 1 /\
  rp_file (rcomplete 2 sx_res (fun _ => false) sx_state true) = [(0, 0); (0, 0); (2, 0)]%N /\
  rp_file (rcomplete 2 sx_res (fun _ => false) sx_state false) = [(0, 0); (0, 0); (2, 0)]%N.
Proof. repeat split; reflexivity. Qed.
Definition sy_res (p : bool) (b : nat) : list (N * N) :=
  match b with O => [(0, 0); (4, 1)] | S (S O) => [(2, 0)] | _ => [] end%N.
Definition sy_skip (b : nat) : bool := Nat.eqb b 1.
Definition sy_state : rsystem := fun p => rapply_all (rinit p) (flat_map (bucket_events sy_res sy_skip p) (seq (rstart rinit) (2 - rstart rinit))).
Example C31_example_clean :
  (forall q b, sy_skip b = true -> sy_res q b = []) /\ rclean 3 sy_res sy_skip sy_state /\
  rp_parsed (sy_state true) = 1 /\ rp_file (rcomplete 3 sy_res sy_skip sy_state false) = [(0, 0); (4, 1); (2, 0)]%N.
Proof.
  split; [intros q b H; apply Nat.eqb_eq in H; subst; reflexivity|]. split; [|split; reflexivity].
  apply (rc_run 3 sy_res sy_skip rinit 2); [constructor|cbn; lia].
Qed.
