(** What callers of Progress rely on, and the discipline under which it can hold. *)
From Coq Require Import List NArith Bool.
From Verif Require Import Base ProgressModel.
Import ListNotations.
Local Open Scope N_scope.

(** The weights of an object add up to something sane. *)
Definition sane_weights (ws : list N) : Prop := fold_right N.add 0 ws * 100 < 2 ^ 64.

(** Shape of a progress tree in use: not more sub jobs than announced weights, percentages
    up to 100. *)
Inductive sane : nat -> progress -> Prop :=
| sane_single : forall h p dn ws, p <= 100 -> sane h (PNode PSingle p dn ws [])
| sane_multi : forall h m p dn ws subs, m <> PSingle -> sane_weights ws -> (length subs <= length ws)%nat ->
    Forall (sane h) subs -> sane (S h) (PNode m p dn ws subs).

(** Disciplined calls: a leaf's percentage is not lowered; weights are set before any sub
    job starts and before any percentage is reported; sub jobs are added only up to their
    announced number. *)
Definition disciplined (o : pop) (t : progress) : Prop :=
  match t with PNode m p dn ws subs =>
    match o with
    | OUpdate q => m <> PSingle \/ p <= q
    | ODone => True
    | OSetWeights nw nm => subs = [] /\ nm <> PSingle /\ sane_weights nw /\ (m = PSingle -> p = 0)
    | OSetCount n nm => subs = [] /\ nm <> PSingle /\ sane_weights (firstn n ws ++ repeat 1 (n - length ws)) /\ (m = PSingle -> p = 0)
    | OAdd | ONext => m <> PSingle /\ (length subs < length ws)%nat
    end
  end.
Fixpoint disciplined_call (path : list nat) (o : pop) (t : progress) : Prop :=
  match path with
  | [] => disciplined o t
  | i :: r => match t with PNode m _ _ _ subs => m <> PSingle /\ exists s, nth_error subs i = Some s /\ disciplined_call r o s end
  end.

(** All announced sub jobs exist, and an object already marked done shows 100. *)
Inductive complete : progress -> Prop :=
| complete_single : forall p dn ws subs, (dn = true -> p = 100) -> complete (PNode PSingle p dn ws subs)
| complete_multi : forall m p ws subs, m <> PSingle -> length subs = length ws -> 0 < fold_right N.add 0 ws ->
    Forall complete subs -> complete (PNode m p false ws subs)
| complete_done : forall m p ws subs d, m <> PSingle -> get (PNode m p true ws subs) = Ok d -> d_pct d = 100 ->
    complete (PNode m p true ws subs).

(** The calls of BucketPsi::Run (psi/legacy/bucket_psi.cc 269-324 and 443) with n buckets. *)
Definition bucket_psi_calls (n : nat) : list (list nat * pop) :=
  [([], OSetWeights [15; 65; 20] PSerial); ([], ONext); ([], ONext)] ++
  map (fun i => ([1%nat], OUpdate (100 * N.of_nat (S i) / N.of_nat n))) (seq 0 n) ++
  [([], ONext); ([], ODone)].
Fixpoint states (t : progress) (cs : list (list nat * pop)) : list progress :=
  t :: match cs with [] => [] | (p, o) :: r => states (call p o t) r end.
(** Percentages shown along a run: defined everywhere and never decreasing. *)
Definition never_decreases (ts : list progress) : Prop :=
  forall i j t t', (i <= j)%nat -> nth_error ts i = Some t -> nth_error ts j = Some t' ->
  exists d d', get t = Ok d /\ get t' = Ok d' /\ d_pct d <= d_pct d' <= 100.
Fixpoint disciplined_run (t : progress) (cs : list (list nat * pop)) : Prop :=
  match cs with [] => True | (p, o) :: r => disciplined_call p o t /\ disciplined_run (call p o t) r end.
