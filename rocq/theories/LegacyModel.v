(** Model of psi/legacy/bucket_psi.cc: FilterFileByIndices, GetResultIndices, RunBucketPsi
    and the output step, over files seen as lists of lines. *)
From Coq Require Import List NArith ZArith Bool.
From Verif Require Import Base Text StoreModel.
Import ListNotations.

Section Filter.
Context {A : Type}.

(** Loop of FilterFileByIndices (134-161): remaining lines, idx, the not yet consumed
    indices (indices_iter), the lines written so far, actual_count.  The result is what was
    written, the final idx, actual_count. *)
Fixpoint filter_loop (diff : bool) (hdr : nat) (ls : list A) (idx : nat) (it : list N)
  (out : list A) (cnt : N) : list A * nat * N :=
  match ls with
  | [] => (out, idx, cnt)
  | l :: r =>
      if Nat.ltb idx hdr then filter_loop diff hdr r (S idx) it (out ++ [l]) cnt
      else
        if negb diff && match it with [] => true | _ => false end then (out, idx, cnt)
        else
          let hit := match it with i :: _ => N.eqb i (N.of_nat (idx - hdr)) | [] => false end in
          let '(out', cnt') := if xorb hit diff then (out ++ [l], (cnt + 1)%N) else (out, cnt) in
          filter_loop diff hdr r (S idx) (if hit then tl it else it) out' cnt'
  end.
(** target_count (162-164): size_t arithmetic. *)
Definition sub64 (a b : N) : N := Z.to_N ((Z.of_N a - Z.of_N b) mod Z.of_N max64).
(** FilterFileByIndices with a vector (125-175): lines written and the returned count.
    When it throws, what was written stays in the output file. *)
Definition filter_file (diff : bool) (hdr : nat) (ls : list A) (indices : list N) : outcome (list A * N) :=
  let '(out, idx, cnt) := filter_loop diff hdr ls 0 indices [] 0%N in
  let n := N.of_nat (length indices) in
  let target := if diff then sub64 (sub64 (N.of_nat idx) (N.of_nat hdr)) n else n in
  enforce (N.eqb cnt target) (Ok (out, n)).

(** FilterFileByIndices with an index file (177-232): a current index and a reader that
    counts what it handed out; the reader is the list of indices still to come. *)
Fixpoint filter_loop_reader (diff : bool) (hdr : nat) (ls : list A) (idx : nat) (cur : option N)
  (rest : list N) (read : N) (out : list A) (cnt : N) : list A * nat * N * N :=
  match ls with
  | [] => (out, idx, cnt, read)
  | l :: r =>
      if Nat.ltb idx hdr then filter_loop_reader diff hdr r (S idx) cur rest read (out ++ [l]) cnt
      else
        if negb diff && match cur with None => true | _ => false end then (out, idx, cnt, read)
        else
          let hit := match cur with Some i => N.eqb i (N.of_nat (idx - hdr)) | None => false end in
          let '(out', cnt') := if xorb hit diff then (out ++ [l], (cnt + 1)%N) else (out, cnt) in
          let '(cur', rest', read') :=
            if hit then match rest with i :: t => (Some i, t, (read + 1)%N) | [] => (None, [], read) end
            else (cur, rest, read) in
          filter_loop_reader diff hdr r (S idx) cur' rest' read' out' cnt'
  end.
Definition filter_file_reader (diff : bool) (hdr : nat) (ls : list A) (indices : list N) : outcome (list A * N) :=
  let '(cur, rest, read) := match indices with i :: t => (Some i, t, 1%N) | [] => (None, [], 0%N) end in
  let '(out, idx, cnt, read') := filter_loop_reader diff hdr ls 0 cur rest read [] 0%N in
  let target := if diff then sub64 (sub64 (N.of_nat idx) (N.of_nat hdr)) read' else read' in
  enforce (N.eqb cnt target) (Ok (out, read')).
End Filter.

(** GetResultIndices (450-471); std::sort followed by std::binary_search is membership. *)
Definition get_result_indices (items : list bitem) (result : list bytes) : list N :=
  match result with
  | [] => []
  | _ =>
      if Nat.eqb (length result) (length items) then map b_index items
      else map b_index (filter (fun it => existsb (beqb (b_data it)) result) items)
  end.

(** RunBucketPsi (400-446): [psi b own] is mem_psi_->Run on the items of bucket b. *)
Fixpoint run_buckets (psi : nat -> list bytes -> list bytes) (c : hbc) (bs : list nat) : outcome (list N) :=
  match bs with
  | [] => Ok []
  | b :: r =>
      do items <- hb_load c b;
      do rest <- run_buckets psi c r;
      Ok (get_result_indices items (psi b (map b_data items)) ++ rest)
  end.
(** Run without sorting of the output (264-324, 326-350): CreateCacheFromCsv, the buckets,
    std::sort of the indices, FilterFileByIndices with one header line.  [num] is the
    negotiated bucket count (0: one side is empty). *)
Definition legacy_run {A : Type} (hash : bytes -> N) (psi : nat -> list bytes -> list bytes) (srt : list N -> list N)
  (num : nat) (ls : list A) (items : list (bytes * N)) : outcome (list A * N) :=
  do idx <- (if Nat.eqb num 0 then Ok []
             else do c <- omap (fun c => hb_write_all hash c items) (hb_open [] num);
                  run_buckets psi c (seq 0 num));
  filter_file false 1 ls (srt idx).
