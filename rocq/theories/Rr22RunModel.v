(** Model of psi/algorithm/rr22/rr22_psi.h, class Rr22Runner (lines 165-303): the
    three ways of driving the buckets.

    A stage call (Prepare, RunOprf, GetIntersection of one bucket) is one interval of
    time: it begins, and later it returns or throws.  Stage calls talk to the peer on
    a link of their own (lines 176-178), so a call may be unable to return before the
    peer has begun the same stage of the same bucket; which calls wait like that is
    a parameter.  A condition-variable wait with a predicate is a guarded atomic
    step (every change of a queue is followed by notify_all under the same mutex).
    The loop variables of type int (lines 215, 233) are modelled by nat: bucket_num
    is below 2^31. *)
From Coq Require Import List Arith Bool.
Import ListNotations.

Inductive stage : Type := SPrep | SRun | SInt.
Definition stage_eqb (a b : stage) : bool :=
  match a, b with SPrep, SPrep => true | SRun, SRun => true | SInt, SInt => true | _, _ => false end.

(** A stage call that has returned: the stage and the bucket. *)
Definition call : Type := (stage * nat)%type.

(* ------------------------------------------------------------------ *)
(** * Run (lines 180-187): one bucket after the other *)
Definition run_bucket (b : nat) : list call := [(SPrep, b); (SRun, b); (SInt, b)].
Definition run_seq (start n : nat) : list call := flat_map run_bucket (seq start (n - start)).

(* ------------------------------------------------------------------ *)
(** * ParallelRun (lines 250-280): the calls of each thread.  With bucket_num <=
      parallel_num there is one thread, running Run (251-254). *)
Definition par_thread (n p t : nat) : list call :=
  flat_map run_bucket (filter (fun j => Nat.eqb (j mod p) t) (seq 0 n)).
Definition parallel_run (start n p : nat) : list (list call) :=
  if Nat.leb n p then [run_seq start n]
  else map (par_thread n p) (seq 0 p).

(* ------------------------------------------------------------------ *)
(** * AsyncRun (lines 189-248) *)

(** The prepare thread (203-213): at the top of the loop with index i, in Prepare of
    bucket i, waiting to push bucket i, or ended by an exception in Prepare of i. *)
Inductive pthr : Type := PTop (i : nat) | PPrep (i : nat) | PPush (i : nat) | PDead (i : nat).
(** The run thread (214-231); b is the bucket of the runner popped. *)
Inductive rthr : Type := RTop (i : nat) | RRun (i b : nat) | RPush (i b : nat) | RDead (i : nat).
(** The intersection thread (232-244). *)
Inductive xthr : Type := XTop (i : nat) | XInt (i b : nat) | XDead (i : nat).

(** One party: its threads, the two queues, the stage calls returned so far. *)
Record pstate : Type := mk_ps {
  s_p : pthr; s_r : rthr; s_x : xthr;
  s_q1 : list nat; s_q2 : list nat;
  s_log : list call }.

Definition cache_size : nat := 1.   (* line 192 *)

(** The party is inside, or has returned from, this stage call. *)
Definition current (s : pstate) (c : call) : Prop :=
  s_p s = PPrep (snd c) /\ fst c = SPrep
  \/ (exists i, s_r s = RRun i (snd c) /\ fst c = SRun)
  \/ (exists i, s_x s = XInt i (snd c) /\ fst c = SInt).
Definition begun (s : pstate) (c : call) : Prop := In c (s_log s) \/ current s c.

Section Async.
(** bucket_num_ and start_idx, the same at both parties; which calls of which party
    throw; which calls of which party wait for the peer to begin the same call. *)
Variables n start : nat.
Variable throws : bool -> call -> bool.
Variable waits : bool -> call -> bool.

Definition may_return (who : bool) (peer : pstate) (c : call) : Prop :=
  throws who c = false /\ (waits who c = true -> begun peer c).

Inductive astep (who : bool) (peer : pstate) : pstate -> pstate -> Prop :=
(** 204-206: the loop body begins, Prepare is entered. *)
| a_p_begin : forall i r x q1 q2 l, i < n ->
    astep who peer (mk_ps (PTop i) r x q1 q2 l) (mk_ps (PPrep i) r x q1 q2 l)
| a_p_return : forall i r x q1 q2 l, may_return who peer (SPrep, i) ->
    astep who peer (mk_ps (PPrep i) r x q1 q2 l) (mk_ps (PPush i) r x q1 q2 (l ++ [(SPrep, i)]))
| a_p_throw : forall i r x q1 q2 l, throws who (SPrep, i) = true ->
    astep who peer (mk_ps (PPrep i) r x q1 q2 l) (mk_ps (PDead i) r x q1 q2 l)
(** 207-211 *)
| a_p_push : forall i r x q1 q2 l, length q1 < cache_size ->
    astep who peer (mk_ps (PPush i) r x q1 q2 l) (mk_ps (PTop (S i)) r x (q1 ++ [i]) q2 l)
(** 215-224 *)
| a_r_pop : forall p i x b q1 q2 l, i < n ->
    astep who peer (mk_ps p (RTop i) x (b :: q1) q2 l) (mk_ps p (RRun i b) x q1 q2 l)
| a_r_return : forall p i b x q1 q2 l, may_return who peer (SRun, b) ->
    astep who peer (mk_ps p (RRun i b) x q1 q2 l) (mk_ps p (RPush i b) x q1 q2 (l ++ [(SRun, b)]))
| a_r_throw : forall p i b x q1 q2 l, throws who (SRun, b) = true ->
    astep who peer (mk_ps p (RRun i b) x q1 q2 l) (mk_ps p (RDead i) x q1 q2 l)
(** 225-229 *)
| a_r_push : forall p i b x q1 q2 l,
    astep who peer (mk_ps p (RPush i b) x q1 q2 l) (mk_ps p (RTop (S i)) x q1 (q2 ++ [b]) l)
(** 233-242 *)
| a_x_pop : forall p r i b q1 q2 l, i < n ->
    astep who peer (mk_ps p r (XTop i) q1 (b :: q2) l) (mk_ps p r (XInt i b) q1 q2 l)
| a_x_return : forall p r i b q1 q2 l, may_return who peer (SInt, b) ->
    astep who peer (mk_ps p r (XInt i b) q1 q2 l) (mk_ps p r (XTop (S i)) q1 q2 (l ++ [(SInt, b)]))
| a_x_throw : forall p r i b q1 q2 l, throws who (SInt, b) = true ->
    astep who peer (mk_ps p r (XInt i b) q1 q2 l) (mk_ps p r (XDead i) q1 q2 l).

Definition a_init : pstate := mk_ps (PTop start) (RTop start) (XTop start) [] [] [].

(** Both parties run AsyncRun; any interleaving. *)
Inductive sstep : pstate * pstate -> pstate * pstate -> Prop :=
| s_left : forall a b a', astep true b a a' -> sstep (a, b) (a', b)
| s_right : forall a b b', astep false a b b' -> sstep (a, b) (a, b').

(** States after k steps. *)
Inductive sreach : nat -> pstate * pstate -> Prop :=
| s_start : sreach 0 (a_init, a_init)
| s_more : forall k s s', sreach k s -> sstep s s' -> sreach (S k) s'.

(** AsyncRun can return, normally or by an exception, only when its three threads
    have ended: get() on each future (245-247), and after an exception of one get()
    the destructors of the other futures, which wait for their threads. *)
Definition returned (s : pstate) : Prop :=
  (s_p s = PTop n \/ exists i, s_p s = PDead i) /\
  (s_r s = RTop n \/ exists i, s_r s = RDead i) /\
  (s_x s = XTop n \/ exists i, s_x s = XDead i).
End Async.
