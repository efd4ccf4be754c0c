(** Properties C08, C09: index files and readers. *)
From Coq Require Import List NArith Lia Bool Permutation Sorted Arith.
From Verif Require Import Base IndexModel IndexSpec IndexProofs JoinModel.
Import ListNotations.

(** C08.  For every history of writer operations (including crashes and
    reopenings) the writer behaves like the log of IndexSpec: it raises exactly
    when the log does, and the file read back is the durable part of the log. *)
Theorem C08_index_file_history :
  forall ops, (N.of_nat (ops_size ops) < max64)%N ->
  match irun (mk_ist None None) ops, log_run (mk_log None None) ops with
  | Ok st, Ok l =>
      (forall d, durable l = Some d -> parse_file (i_file st) = Ok d) /\
      (durable l = None -> i_file st = None) /\
      match i_wr st, tail l with
      | Some w, Some (o, p, n) =>
          w_closed w = negb o /\ w_cache w = N.of_nat (length p) /\ w_cnt w = N.of_nat n
      | None, None => True
      | _, _ => False
      end
  | Throw, Throw => True
  | UB, UB => True
  | _, _ => False
  end.
Proof. exact index_history. Qed.
Print Assumptions C08_index_file_history.

(** The file reader hands out the parsed rows in order and then end-of-data for
    ever, however arrow cuts the rows into (non-empty) batches. *)
Theorem C08_index_file_readback :
  forall l src n,
  concat src = l -> Forall (fun b => b <> []) src -> (N.of_nat n < max64)%N ->
  fst (r_reads n (r_init src)) = stream l n /\
  r_cnt (snd (r_reads n (r_init src))) = N.of_nat (Nat.min n (length l)).
Proof. exact file_reads. Qed.
Print Assumptions C08_index_file_readback.

(** Write, close, reopen, write, commit, write, crash, reopen: the entry written
    after the commit is lost, the rest survives. *)
Example C08_example :
  let ops := [OpOpen false; OpWriteV [1; 2] [0; 5]; OpClose; OpClose; OpOpen false; OpWrites [7];
              OpCommit; OpWrite 8 1; OpCrash; OpOpen false; OpWrite 9 0; OpClose]%N in
  omap (fun l => (durable l, tail l)) (log_run (mk_log None None) ops) =
    Ok (Some [(1, 0); (2, 5); (7, 0); (9, 0)]%N, Some (false, [], 1)) /\
  bind (irun (mk_ist None None) ops) (fun st => parse_file (i_file st)) =
    Ok [(1, 0); (2, 5); (7, 0); (9, 0)]%N /\
  irun (mk_ist None None) [OpOpen true; OpWrite 1 1; OpClose; OpWrite 2 2]%N = Throw /\
  fst (r_reads 4 (r_init [[(1, 0); (2, 5)]; [(7, 0)]]%N)) =
    [Some (1, 0); Some (2, 5); Some (7, 0); None]%N.
Proof. vm_compute. repeat split. Qed.

(** C09.  [srt] is std::sort with the comparison of line 208. *)
Theorem C09_memory_reader :
  forall (srt : list (N * N) -> list (N * N))
         (srt_perm : forall l, Permutation (srt l) l)
         (srt_sorted : forall l, StronglySorted (fun a b => (fst a <= fst b)%N) (srt l))
         index dup n,
  (length index = length dup ->
   exists st items, m_make srt index dup = Ok st /\
     Permutation items (combine index dup) /\
     StronglySorted (fun a b => (fst a <= fst b)%N) items /\
     fst (m_reads n st) = stream items n) /\
  (length index <> length dup -> m_make srt index dup = Throw).
Proof. exact mem_reader. Qed.
Print Assumptions C09_memory_reader.

Example C09_example :
  let srt := JoinModel.sort_by (fun a b => (fst a <=? fst b)%N) in
  omap (fun st => fst (m_reads 4 st)) (m_make srt [5; 3; 9]%N [1; 0; 2]%N) =
    Ok [Some (3, 0); Some (5, 1); Some (9, 2); None]%N.
Proof. vm_compute. reflexivity. Qed.
