(** What a user of the bucket drivers relies on, in terms of the stage calls made. *)
From Coq Require Import List Arith Bool.
From Verif Require Import Rr22RunModel.
Import ListNotations.

(** The buckets on which a stage was carried out, in that order. *)
Definition done_by (st : stage) (l : list call) : list nat :=
  map snd (filter (fun c => stage_eqb (fst c) st) l).

(** Every RunOprf is preceded by the Prepare of the bucket, every GetIntersection by
    its RunOprf. *)
Definition stages_in_order (l : list call) : Prop :=
  (forall l1 b l2, l = l1 ++ (SRun, b) :: l2 -> In (SPrep, b) l1) /\
  (forall l1 b l2, l = l1 ++ (SInt, b) :: l2 -> In (SRun, b) l1).

(** Every bucket from start on went through each stage exactly once, in order. *)
Definition all_buckets_done (start n : nat) (l : list call) : Prop :=
  stages_in_order l /\
  forall st, done_by st l = seq start (n - start).
