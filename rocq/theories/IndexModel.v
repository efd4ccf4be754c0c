(** Model of psi/utils/index_store.cc: IndexWriter, FileIndexReader,
    MemoryIndexReader.

    A file is a list of text lines: the header "psi_index,psi_peer_cnt" or a row.
    Not modelled: number formatting and CSV type inference (indices are below
    2^63, so arrow infers an integer column and the static cast to UInt64Array
    reads the same value), I/O failures. *)
From Coq Require Import List NArith Lia Bool Permutation Sorted.
From Verif Require Import Base.
Import ListNotations.
Local Open Scope N_scope.

Inductive fline : Type := FHead | FRow (i c : N).

(** IndexWriter members (index_store.h 58-78): outfile_ open?, the two array
    builders, cache_cnt_, write_cnt_. *)
Record wst : Type := mk_wst {
  w_closed : bool; w_ib : list N; w_cb : list N; w_cache : N; w_cnt : N }.

(** The disk: [None] when the index file does not exist; and the writer object,
    if one is alive. *)
Record ist : Type := mk_ist { i_file : option (list fline); i_wr : option wst }.

Definition append (f : option (list fline)) (l : list fline) : option (list fline) :=
  match f with Some x => Some (x ++ l) | None => Some l end.

(** Constructor (index_store.cc 33-61): header only if trunc or the file is
    missing, then open for appending. *)
Definition w_open (trunc : bool) (f : option (list fline)) : ist :=
  let f' := if trunc || (match f with None => true | _ => false end)
            then Some [FHead] else f in
  mk_ist f' (Some (mk_wst false [] [] 0 0)).

(** WriteCache(index, cnt) (index_store.cc 84-93). *)
Definition w_write1 (w : wst) (i c : N) : outcome wst :=
  enforce (negb (w_closed w))
    (Ok (mk_wst false (w_ib w ++ [i]) (w_cb w ++ [c]) (u64 (w_cache w + 1)) (u64 (w_cnt w + 1)))).

(** WriteCache(indexes, duplicate_cnt) (index_store.cc 63-72): duplicate_cnt[i]
    is an unchecked vector access. *)
Fixpoint w_writev_loop (w : wst) (is cs : list N) : outcome wst :=
  match is with
  | [] => Ok w
  | i :: is' =>
    match cs with
    | [] => UB
    | c :: cs' => do w' <- w_write1 w i c; w_writev_loop w' is' cs'
    end
  end.
Definition w_writev (w : wst) (is cs : list N) : outcome wst :=
  enforce (negb (w_closed w)) (w_writev_loop w is cs).

(** WriteCache(indexes) (index_store.cc 74-82), cnt defaults to 0. *)
Fixpoint w_writes_loop (w : wst) (is : list N) : outcome wst :=
  match is with
  | [] => Ok w
  | i :: is' => do w' <- w_write1 w i 0; w_writes_loop w' is'
  end.
Definition w_writes (w : wst) (is : list N) : outcome wst :=
  enforce (negb (w_closed w)) (w_writes_loop w is).

(** Commit (index_store.cc 95-115). The record batch has as many rows as the
    index array. *)
Definition rows_of (is cs : list N) : list fline := map (fun p => FRow (fst p) (snd p)) (combine is cs).
Definition w_commit (f : option (list fline)) (w : wst) : outcome (option (list fline) * wst) :=
  enforce (negb (w_closed w))
    (if w_cache w =? 0 then Ok (f, w)
     else Ok (append f (rows_of (w_ib w) (w_cb w)), mk_wst false [] [] 0 (w_cnt w))).

(** Close (index_store.cc 117-127). *)
Definition w_close (f : option (list fline)) (w : wst) : outcome (option (list fline) * wst) :=
  if w_closed w then Ok (f, w)
  else do (f', w') <- w_commit f w;
       Ok (f', mk_wst true (w_ib w') (w_cb w') (w_cache w') (w_cnt w')).

(** What a user does. [OpOpen] constructs a new writer after destroying the
    previous one (the destructor closes, index_store.cc 129); [OpCrash] loses the
    process without running destructors. *)
Inductive iop : Type :=
| OpOpen (trunc : bool) | OpWrite (i c : N) | OpWriteV (is cs : list N) | OpWrites (is : list N)
| OpCommit | OpClose | OpCrash.

Definition with_writer (st : ist) (k : wst -> outcome ist) : outcome ist :=
  match i_wr st with
  | None => UB                       (* no object *)
  | Some w => k w
  end.

Definition istep (st : ist) (o : iop) : outcome ist :=
  match o with
  | OpOpen t =>
    match i_wr st with
    | None => Ok (w_open t (i_file st))
    | Some w => do (f, _) <- w_close (i_file st) w; Ok (w_open t f)
    end
  | OpWrite i c => with_writer st (fun w => do w' <- w_write1 w i c; Ok (mk_ist (i_file st) (Some w')))
  | OpWriteV is cs => with_writer st (fun w => do w' <- w_writev w is cs; Ok (mk_ist (i_file st) (Some w')))
  | OpWrites is => with_writer st (fun w => do w' <- w_writes w is; Ok (mk_ist (i_file st) (Some w')))
  | OpCommit => with_writer st (fun w => do (f, w') <- w_commit (i_file st) w; Ok (mk_ist f (Some w')))
  | OpClose => with_writer st (fun w => do (f, w') <- w_close (i_file st) w; Ok (mk_ist f (Some w')))
  | OpCrash => Ok (mk_ist (i_file st) None)
  end.

Fixpoint irun (st : ist) (ops : list iop) : outcome ist :=
  match ops with
  | [] => Ok st
  | o :: r => do st' <- istep st o; irun st' r
  end.

(* ------------------------------------------------------------------ *)
(** * FileIndexReader (index_store.cc 131-197) *)

(** The arrow streaming reader takes the first line as header and hands out the
    remaining rows in batches of its choice. *)
Fixpoint parse_rows (l : list fline) : outcome (list (N * N)) :=
  match l with
  | [] => Ok []
  | FHead :: _ => Throw              (* a header inside the data is not a number *)
  | FRow i c :: r => do x <- parse_rows r; Ok ((i, c) :: x)
  end.
Definition parse_file (f : option (list fline)) : outcome (list (N * N)) :=
  match f with
  | Some (FHead :: r) => parse_rows r
  | _ => Throw                       (* missing file, or required column missing *)
  end.

(** batch_ (null or rows), idx_in_batch_, read_cnt_, and what arrow still holds. *)
Record rst : Type := mk_rst {
  r_batch : option (list (N * N)); r_idx : nat; r_cnt : N; r_src : list (list (N * N)) }.

Definition r_init (src : list (list (N * N))) : rst := mk_rst None 0 0 src.

(** HasNext (index_store.cc 149-172). *)
Definition r_has_next (st : rst) : bool * rst :=
  let need := match r_batch st with
              | None => true
              | Some b => Nat.leb (length b) (r_idx st)
              end in
  if need then
    match r_src st with
    | [] => (false, mk_rst None (r_idx st) (r_cnt st) [])
    | b :: s => (Nat.ltb 0 (length b), mk_rst (Some b) 0 (r_cnt st) s)
    end
  else match r_batch st with
       | None => (false, st)
       | Some b => (Nat.ltb (r_idx st) (length b), st)
       end.

(** GetNextWithPeerCnt (index_store.cc 186-197). *)
Definition r_next (st : rst) : option (N * N) * rst :=
  let '(h, st') := r_has_next st in
  if h then
    match r_batch st' with
    | Some b => (nth_error b (r_idx st'),
                 mk_rst (Some b) (S (r_idx st')) (u64 (r_cnt st' + 1)) (r_src st'))
    | None => (None, st')
    end
  else (None, st').

(** [n] successive calls. *)
Fixpoint r_reads (n : nat) (st : rst) : list (option (N * N)) * rst :=
  match n with
  | O => ([], st)
  | S k => let '(x, st1) := r_next st in
           let '(l, st2) := r_reads k st1 in (x :: l, st2)
  end.

(* ------------------------------------------------------------------ *)
(** * MemoryIndexReader (index_store.cc 199-229); [srt] is std::sort. *)
Section Mem.
Variable srt : list (N * N) -> list (N * N).

Record mst : Type := mk_mst { m_items : list (N * N); m_cnt : nat }.

(** Constructor (index_store.cc 199-210). *)
Definition m_make (index dup : list N) : outcome mst :=
  enforce (Nat.eqb (length index) (length dup)) (Ok (mk_mst (srt (combine index dup)) 0)).

(** GetNextWithPeerCnt / HasNext (index_store.cc 212-229). *)
Definition m_has_next (st : mst) : bool := Nat.ltb (m_cnt st) (length (m_items st)).
Definition m_next (st : mst) : option (N * N) * mst :=
  if m_has_next st
  then (nth_error (m_items st) (m_cnt st), mk_mst (m_items st) (S (m_cnt st)))
  else (None, st).
Fixpoint m_reads (n : nat) (st : mst) : list (option (N * N)) * mst :=
  match n with
  | O => ([], st)
  | S k => let '(x, st1) := m_next st in
           let '(l, st2) := m_reads k st1 in (x :: l, st2)
  end.
End Mem.
