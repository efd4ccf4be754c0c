(** Specification of the index file: an append-only log with a volatile tail. *)
From Coq Require Import List NArith Lia Bool.
From Verif Require Import Base IndexModel.
Import ListNotations.

(** [durable]: entries on disk ([None]: no file); [tail]: [None] when no writer
    exists, [Some (open, pending, n)]: entries written but not yet on disk and the
    number of entries this writer accepted. *)
Record log : Type := mk_log { durable : option (list (N * N)); tail : option (bool * list (N * N) * nat) }.

Definition log_flush (d : option (list (N * N))) (p : list (N * N)) : option (list (N * N)) :=
  match d with Some x => Some (x ++ p) | None => Some p end.

Definition log_add (l : log) (ps : list (N * N)) : outcome log :=
  match tail l with
  | None => UB
  | Some (false, _, _) => Throw
  | Some (true, p, n) => Ok (mk_log (durable l) (Some (true, p ++ ps, n + length ps)))
  end.

Definition log_step (l : log) (o : iop) : outcome log :=
  match o with
  | OpOpen trunc =>
    let d := match tail l with
             | Some (true, p, _) => log_flush (durable l) p
             | _ => durable l
             end in
    Ok (mk_log (Some (if trunc then [] else match d with Some x => x | None => [] end))
               (Some (true, [], 0)))
  | OpWrite i c => log_add l [(i, c)]
  | OpWrites is => log_add l (map (fun i => (i, 0%N)) is)
  | OpWriteV is cs =>
    match log_add l (combine is cs) with
    | Ok l' => if Nat.leb (length is) (length cs) then Ok l' else UB
    | x => x
    end
  | OpCommit =>
    match tail l with
    | None => UB
    | Some (false, _, _) => Throw
    | Some (true, p, n) => Ok (mk_log (log_flush (durable l) p) (Some (true, [], n)))
    end
  | OpClose =>
    match tail l with
    | None => UB
    | Some (false, _, n) => Ok l
    | Some (true, p, n) => Ok (mk_log (log_flush (durable l) p) (Some (false, [], n)))
    end
  | OpCrash => Ok (mk_log (durable l) None)
  end.

Fixpoint log_run (l : log) (ops : list iop) : outcome log :=
  match ops with
  | [] => Ok l
  | o :: r => do l' <- log_step l o; log_run l' r
  end.

(** Number of entries the operations try to write (bound for the counters). *)
Definition op_size (o : iop) : nat :=
  match o with
  | OpWrite _ _ => 1
  | OpWrites is | OpWriteV is _ => length is
  | _ => 0
  end.
Definition ops_size (ops : list iop) : nat := fold_right (fun o a => op_size o + a) 0 ops.

(** Reading a list front to back for ever. *)
Definition stream {A : Type} (l : list A) (n : nat) : list (option A) :=
  map (nth_error l) (seq 0 n).
