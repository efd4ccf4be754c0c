(** Model of psi/utils/sync.h and psi/utils/sync.cc.

    The link layer (yacl::link) is assumed reliable and order preserving:
    AllGather gives every party the list of all contributions in rank order, and a
    Recv raises when the peer has gone. *)
From Coq Require Import List NArith Lia Bool Arith.
From Verif Require Import Base Text.
Import ListNotations.

(* ------------------------------------------------------------------ *)
(** * BroadcastResult (sync.cc 55-81) *)

(** duplicate_item_cnt, an unordered_map from position to count. *)
Definition dupcnt : Type := list (N * N).
Fixpoint dup_get (m : dupcnt) (k : N) : option N :=
  match m with
  | [] => None
  | (i, c) :: r => if (i =? k)%N then Some c else dup_get r k
  end.

(** Loop over the gathered sizes (lines 62-69): the rank to broadcast from.
    [i] is the loop index, [br] the value of broadcast_rank so far. *)
Fixpoint pick_rank (sizes : list nat) (i br : nat) : outcome nat :=
  match sizes with
  | [] => Ok br
  | s :: r => if Nat.ltb 0 s then enforce (Nat.eqb br 0) (pick_rank r (S i) i)
              else pick_rank r (S i) br
  end.

(** DeserializeStrItems into (items, counts) (utils/serialize.h 79-99): items are
    appended, a count already present for a key is kept (map::insert). *)
Definition receive_into (mine from : list bytes * dupcnt) : list bytes * dupcnt :=
  (fst mine ++ fst from, snd mine ++ snd from).

(** All parties call BroadcastResult with [offers]; result: what each holds
    afterwards.  An exception is raised at all parties alike, since all see the
    same sizes. *)
Definition broadcast_result (offers : list (list bytes * dupcnt)) : outcome (list (list bytes * dupcnt)) :=
  let sizes := map (fun o => length (fst o)) offers in
  do root <- pick_rank sizes 0 0;
  if Nat.eqb (fold_right Nat.max 0 sizes) 0 then Ok offers
  else
    let msg := nth root offers ([], []) in
    Ok (map (fun o => match fst o with [] => receive_into o msg | _ => o end) offers).

(* ------------------------------------------------------------------ *)
(** * SyncWait (sync.h 42-91) *)

(** Where a party is: at the top of the loop in round r with [done] (line 55);
    inside AllGather of round r having sent [done] (line 77); returned; or left by
    an exception. *)
Inductive wphase : Type :=
| WTop (r : nat) (done : bool)
| WSent (r : nat) (done : bool)
| WRet
| WExc.

(** State: phase and the flags sent so far (round by round) of every party. *)
Record wstate : Type := mk_w { w_phase : nat -> wphase; w_flags : nat -> list bool }.

Definition w_init : wstate := mk_w (fun _ => WTop 0 false) (fun _ => []).

Definition w_set (s : wstate) (i : nat) (ph : wphase) (fl : list bool) : wstate :=
  mk_w (fun j => if Nat.eqb j i then ph else w_phase s j)
       (fun j => if Nat.eqb j i then fl else w_flags s j).

Definition flag_at (s : wstate) (r j : nat) : option bool := nth_error (w_flags s j) r.

Section Sync.
(** World size; whether party i's function, once it ends, returns normally. *)
Variable n : nat.
Variable func_ok : nat -> bool.

(** One step of party i < n. *)
Inductive wstep (s : wstate) : wstate -> Prop :=
(** wait_for times out: send "unfinished" (lines 57, 76-77). *)
| w_not_ready : forall i r, i < n -> w_phase s i = WTop r false ->
    wstep s (w_set s i (WSent r false) (w_flags s i ++ [false]))
(** wait_for is ready and get() returns: send "finished" (58-66, 76-77). *)
| w_ready_ok : forall i r, i < n -> w_phase s i = WTop r false -> func_ok i = true ->
    wstep s (w_set s i (WSent r true) (w_flags s i ++ [true]))
(** get() rethrows (67-71). *)
| w_ready_exc : forall i r, i < n -> w_phase s i = WTop r false -> func_ok i = false ->
    wstep s (w_set s i WExc (w_flags s i))
(** done in an earlier round: send "finished" again. *)
| w_again : forall i r, i < n -> w_phase s i = WTop r true ->
    wstep s (w_set s i (WSent r true) (w_flags s i ++ [true]))
(** AllGather returns and no flag is "unfinished": leave the loop (78-84). *)
| w_break : forall i r d, i < n -> w_phase s i = WSent r d ->
    (forall j, j < n -> flag_at s r j = Some true) ->
    wstep s (w_set s i WRet (w_flags s i))
(** AllGather returns with an "unfinished" flag: next round. *)
| w_next : forall i r d, i < n -> w_phase s i = WSent r d ->
    (forall j, j < n -> flag_at s r j <> None) ->
    (exists j, j < n /\ flag_at s r j = Some false) ->
    wstep s (w_set s i (WTop (S r) d) (w_flags s i))
(** A peer has left without sending its flag of this round: Recv raises. *)
| w_lost : forall i r d j, i < n -> w_phase s i = WSent r d ->
    j < n -> w_phase s j = WExc -> flag_at s r j = None ->
    wstep s (w_set s i WExc (w_flags s i)).

Inductive wreach : wstate -> Prop :=
| w_start : wreach w_init
| w_more : forall s s', wreach s -> wstep s s' -> wreach s'.

(** Executions with k failed polls (steps in which wait_for times out) and m steps
    in all. *)
Inductive wstepk (s : wstate) : bool -> wstate -> Prop :=
| wk_wait : forall i r, i < n -> w_phase s i = WTop r false ->
    wstepk s true (w_set s i (WSent r false) (w_flags s i ++ [false]))
| wk_other : forall s', wstep s s' ->
    (forall i r, i < n -> w_phase s i = WTop r false -> s' <> w_set s i (WSent r false) (w_flags s i ++ [false])) ->
    wstepk s false s'.
Inductive wruns : nat -> nat -> wstate -> Prop :=
| wr_start : wruns 0 0 w_init
| wr_step : forall k m s s' b, wruns k m s -> wstepk s b s' ->
    wruns (k + if b then 1 else 0) (S m) s'.

Definition w_over (s : wstate) : Prop :=
  forall i, i < n -> w_phase s i = WRet \/ w_phase s i = WExc.
End Sync.
