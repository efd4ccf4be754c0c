(** Model of the durable effects of bucket-wise PSI with recovery:
    kkrt/receiver.cc 102-152, kkrt/sender.cc, rr22/receiver.cc 110-138, rr22/sender.cc and
    algorithm/psi_operator.cc 100-134 (OnSequenceRun).

    For each bucket a party appends its results to the index file (IndexWriter::Commit,
    utils/index_store.cc 86-109; the file is not truncated on restart, interface.h 100) and then
    stores parsed_bucket_count.  Simplified: an index line is written entirely or not at all;
    a bucket is either done by both parties or skipped by both. *)
From Coq Require Import List NArith Bool Arith.
From Verif Require Import Base.
Import ListNotations.

Inductive rev_event : Type := RLine (e : N * N) | RParsed (n : nat).
Record rparty : Type := mk_rparty { rp_file : list (N * N); rp_parsed : nat }.
Definition rapply (p : rparty) (e : rev_event) : rparty :=
  match e with
  | RLine l => mk_rparty (rp_file p ++ [l]) (rp_parsed p)
  | RParsed n => mk_rparty (rp_file p) n
  end.
Definition rapply_all (p : rparty) (es : list rev_event) : rparty := fold_left rapply es p.

Section Resume.
Variable nbuckets : nat.
(** Entries a party writes for a bucket; the same in every run because the bucket contents are. *)
Variable res : bool -> nat -> list (N * N).
(** Buckets passed over without storing the count (kkrt: an empty bucket, "continue"). *)
Variable skip : nat -> bool.

Definition bucket_events (p : bool) (b : nat) : list rev_event :=
  if skip b then [] else map RLine (res p b) ++ [RParsed (S b)].
Definition run_events (p : bool) (start : nat) : list rev_event :=
  flat_map (bucket_events p) (seq start (nbuckets - start)).

Definition rsystem : Type := bool -> rparty.
Definition rstart (s : rsystem) : nat := Nat.min (rp_parsed (s (negb true))) (rp_parsed (s true)).
Definition rinit : rsystem := fun _ => mk_rparty [] 0.

(** Any number of runs; each party executes some prefix of its events. *)
Inductive rhistory : rsystem -> Prop :=
| rh_init : rhistory rinit
| rh_run : forall s cut, rhistory s ->
    rhistory (fun p => rapply_all (s p) (firstn (cut p) (run_events p (rstart s)))).

(** A run in which party [p] reaches the end. *)
Definition rcomplete (s : rsystem) (p : bool) : rparty := rapply_all (s p) (run_events p (rstart s)).

(** Crashes only after both parties have stored the count of the same bucket. *)
Inductive rclean : rsystem -> Prop :=
| rc_init : rclean rinit
| rc_run : forall s m, rclean s -> rstart s <= m <= nbuckets ->
    rclean (fun p => rapply_all (s p) (flat_map (bucket_events p) (seq (rstart s) (m - rstart s)))).
End Resume.
