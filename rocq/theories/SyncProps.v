(** Properties C33 and C34: synchronisation and broadcast among n parties. *)
From Coq Require Import List NArith Lia Bool Arith.
From Verif Require Import Base Text SyncModel SyncProofs.
Import ListNotations.

(** C33.  n parties, any of whose functions may fail, polled in any relative
    timing: when the step is over at all parties, either all returned and all
    functions had returned normally, or all got an exception. *)
Theorem C33_all_or_none :
  forall n func_ok s, wreach n func_ok s -> w_over n s ->
  (forall i, i < n -> w_phase s i = WRet /\ func_ok i = true) \/
  (forall i, i < n -> w_phase s i = WExc).
Proof. exact sync_end. Qed.
Print Assumptions C33_all_or_none.

(** Already when the first party returns it is certain that every function
    returned normally and that no party has raised; and a party raises only if
    some function failed. *)
Theorem C33_at_first_return :
  forall n func_ok s, wreach n func_ok s ->
  (forall i, i < n -> w_phase s i = WRet ->
     (forall j, j < n -> func_ok j = true) /\ forall j, j < n -> w_phase s j <> WExc) /\
  (forall i, i < n -> w_phase s i = WExc -> exists j, j < n /\ func_ok j = false).
Proof. exact sync_all_or_none. Qed.
Print Assumptions C33_at_first_return.

(** No party waits for ever: until the step is over somebody can move, and an
    execution with k polls that found a function still running has at most
    n * (2 k + 3) steps. *)
Theorem C33_ends :
  (forall n func_ok s, wreach n func_ok s -> w_over n s \/ exists s', wstep n func_ok s s') /\
  (forall n func_ok k m s, wruns n func_ok k m s -> m <= n * (2 * k + 3)) /\
  (forall n func_ok s, wreach n func_ok s <-> exists k m, wruns n func_ok k m s).
Proof. exact (conj sync_progress (conj sync_bounded runs_iff)). Qed.
Print Assumptions C33_ends.

(** Two parties; party 1 needs one more round than party 0; both return.  With
    party 1 failing instead, party 0 gets an exception. *)
Example C33_example_ok : exists s,
  wreach 2 (fun _ => true) s /\ w_phase s 0 = WRet /\ w_phase s 1 = WRet /\
  w_flags s 0 = [true; true] /\ w_flags s 1 = [false; true].
Proof.
  set (ok := fun _ : nat => true).
  pose proof (w_start 2 ok) as R0.
  unshelve epose proof (w_more _ _ _ _ R0 (w_ready_ok 2 ok _ 0 0 _ _ _)) as R1.
  all: try reflexivity. all: try lia.
  unshelve epose proof (w_more _ _ _ _ R1 (w_not_ready 2 ok _ 1 0 _ _)) as R2.
  all: try reflexivity. all: try lia.
  unshelve epose proof (w_more _ _ _ _ R2 (w_next 2 ok _ 0 0 true _ _ _ _)) as R3.
  all: try reflexivity. all: try lia.
  { intros [|[|j]] Hj; [discriminate|discriminate|lia]. }
  { exists 1. split; [lia|reflexivity]. }
  unshelve epose proof (w_more _ _ _ _ R3 (w_next 2 ok _ 1 0 false _ _ _ _)) as R4.
  all: try reflexivity. all: try lia.
  { intros [|[|j]] Hj; [discriminate|discriminate|lia]. }
  { exists 1. split; [lia|reflexivity]. }
  unshelve epose proof (w_more _ _ _ _ R4 (w_again 2 ok _ 0 1 _ _)) as R5.
  all: try reflexivity. all: try lia.
  unshelve epose proof (w_more _ _ _ _ R5 (w_ready_ok 2 ok _ 1 1 _ _ _)) as R6.
  all: try reflexivity. all: try lia.
  unshelve epose proof (w_more _ _ _ _ R6 (w_break 2 ok _ 1 1 true _ _ _)) as R7.
  all: try reflexivity. all: try lia.
  { intros [|[|j]] Hj; [reflexivity|reflexivity|lia]. }
  unshelve epose proof (w_more _ _ _ _ R7 (w_break 2 ok _ 0 1 true _ _ _)) as R8.
  all: try reflexivity. all: try lia.
  { intros [|[|j]] Hj; [reflexivity|reflexivity|lia]. }
  eexists. split; [exact R8|]. repeat split.
Qed.

Example C33_example_exc : exists s,
  wreach 2 (fun i => Nat.eqb i 0) s /\ w_phase s 0 = WExc /\ w_phase s 1 = WExc.
Proof.
  set (ok := fun i : nat => Nat.eqb i 0).
  pose proof (w_start 2 ok) as R0.
  unshelve epose proof (w_more _ _ _ _ R0 (w_ready_ok 2 ok _ 0 0 _ _ _)) as R1.
  all: try reflexivity. all: try lia.
  unshelve epose proof (w_more _ _ _ _ R1 (w_ready_exc 2 ok _ 1 0 _ _ _)) as R2.
  all: try reflexivity. all: try lia.
  unshelve epose proof (w_more _ _ _ _ R2 (w_lost 2 ok _ 0 0 true 1 _ _ _ _ _)) as R3.
  all: try reflexivity. all: try lia.
  eexists. split; [exact R3|]. split; reflexivity.
Qed.

(** C34.  Full statement: whatever the parties offer, either nobody or exactly one
    offers something and afterwards all hold it, or the call raises.  False: a
    result at rank 0 together with one at another rank is accepted, and the
    parties end with different results. *)
Theorem C34_two_holders_refuted :
  exists offers after, 2 <= length (filter (fun o => match fst o with [] => false | _ => true end) offers) /\
    broadcast_result offers = Ok after /\ nth 0 after ([], []) <> nth 1 after ([], []).
Proof.
  exists [([[97%N]], []); ([[98%N]], []); ([], [])]. eexists. split; [cbn; auto|].
  split; [reflexivity|]. cbn. discriminate.
Qed.
Print Assumptions C34_two_holders_refuted.

(** What holds: a single result, at any rank, reaches everybody unchanged with its
    counts; without results nothing changes; the call raises exactly when two
    ranks other than 0 offer something.  Missing: rejection when rank 0 is one of
    exactly two holders. *)
Theorem C34_broadcast_partial :
  (forall before after res dup, res <> [] ->
     broadcast_result (repeat ([], []) before ++ (res, dup) :: repeat ([], []) after) =
     Ok (repeat (res, dup) (before + S after))) /\
  (forall n, broadcast_result (repeat ([], []) n) = Ok (repeat ([], []) n)) /\
  (forall rank0 others, broadcast_result (rank0 :: others) = Throw <->
     2 <= length (filter (fun o => match fst o with [] => false | _ => true end) others)).
Proof. exact (conj broadcast_one (conj broadcast_none broadcast_rejects)). Qed.
Print Assumptions C34_broadcast_partial.

Example C34_example :
  broadcast_result [([], []); ([], []); ([[97%N]; [98%N]], [(1, 4)%N])] =
    Ok (repeat ([[97%N]; [98%N]], [(1, 4)%N]) 3) /\
  broadcast_result [([], []); ([[97%N]], []); ([[98%N]], [])] = Throw.
Proof. split; reflexivity. Qed.
