(** Model of duplicate-key PIR (DK-PIR): psi/utils/csv_converter.cc (MergeColumnAndRow 108-166,
    ExtractResult 210-281), psi/algorithm/dkpir/sender.cc (ProcessQueries 32-91, CheckRowCount
    480-493), oprf_receiver.cc (process_items 40-68, process_responses 70-111), receiver.cc
    (ComputeRowCountCt 214-250, ComputeRowCount 252-266, SaveResult 282-297), common.cc
    (ComputePoly 28-47, WriteIntersectionResults 84-140), sender_cnt_db.cc (EncryptCount 47-85)
    and entry.cc (SenderOnline, ReceiverOnline).

    Arguments: the curve of the OPRF (points, scalar multiplication, hashing an item to a point and
    a point to a hashed item), the permutation drawn from the shuffle seed, the traversal order of
    an unordered_map.  The APSI library is ideal: the answer to a hashed item is the label stored
    under it.  ElGamal points are represented by their discrete logarithms modulo the group order.
    The temporary CSV files are lists of records: fields are taken to be free of commas, quotes and
    line breaks.  Row counts are unbounded numbers (the code uses int and uint64_t). *)
From Coq Require Import List NArith ZArith Bool.
From Verif Require Import Base Text StoreModel PirPackModel.
Import ListNotations.

(** kColumnDelimiter, kRowDelimiter (csv_converter.h 26-27). *)
Definition col_delim : N := 30%N.
Definition row_delim : N := 31%N.

(** A data row: key and labels. *)
Definition drow : Type := bytes * list bytes.

(** key_value_map: value and count per key. *)
Definition kvmap : Type := list (bytes * (bytes * N)).

(** Loop body of MergeColumnAndRow (csv_converter.cc 139-156). *)
Fixpoint merge_row (k v : bytes) (m : kvmap) : kvmap :=
  match m with
  | [] => [(k, (v, 1%N))]
  | (k', (v', c)) :: m' =>
    if beqb k' k then (k', (v' ++ row_delim :: v, c + 1)%N) :: m' else (k', (v', c)) :: merge_row k v m'
  end.
Definition merge_all (rows : list drow) : kvmap :=
  fold_left (fun m r => merge_row (fst r) (join_with col_delim (snd r)) m) rows [].

Fixpoint find_key {V : Type} (k : bytes) (m : list (bytes * V)) : option V :=
  match m with [] => None | (k', v) :: m' => if beqb k' k then Some v else find_key k m' end.

Section Shuffle.
Variable Point Hashed : Type.
Variable smul : Z -> Point -> Point.
Variable to_point : bytes -> Point.
Variable to_hash : Point -> Hashed.
Variable hashed_eqb : Hashed -> Hashed -> bool.

(** process_items: one scalar for all queries (oprf_receiver.cc 44-67). *)
Definition blind (r : Z) (items : list bytes) : list Point := map (fun x => smul r (to_point x)) items.

(** Indices of one task (sender.cc 61): start, start + step, ... below the query count; the fuel
    is the query count. *)
Fixpoint stride (fuel start step n : nat) : list nat :=
  match fuel with
  | O => []
  | S f => if Nat.ltb start n then start :: stride f (start + step) step n else []
  end.
Definition task_indices (threads n : nat) : list (list nat) :=
  let t := Nat.min threads n in map (fun s => stride n s t n) (seq 0 t).

(** ProcessQueries (sender.cc 53-90).  [shuffle] is shuffle_indexes; [sched] the order in which
    the threads' steps happen; the response starts zeroed ([zero]). *)
Definition sender_step (k : Z) (qs : list Point) (shuffle : list nat) (resp : list Point) (idx : nat) : outcome (list Point) :=
  match nth_error qs idx, nth_error shuffle idx with
  | Some q, Some j => if Nat.ltb j (length resp) then Ok (upd j (fun _ => smul k q) resp) else UB
  | _, _ => UB
  end.
Fixpoint sender_steps (k : Z) (qs : list Point) (shuffle : list nat) (sched : list nat) (resp : list Point) : outcome (list Point) :=
  match sched with
  | [] => Ok resp
  | i :: s => do resp' <- sender_step k qs shuffle resp i; sender_steps k qs shuffle s resp'
  end.
Definition process_queries (k : Z) (zero : Point) (shuffle sched : list nat) (qs : list Point) : outcome (list Point) :=
  sender_steps k qs shuffle sched (repeat zero (length qs)).
(** Without count check the sender keeps the order (GenerateOPRFResponse). *)
Definition plain_queries (k : Z) (qs : list Point) : list Point := map (smul k) qs.

(** process_responses (oprf_receiver.cc 70-111). *)
Definition unblind (rinv : Z) (resp : list Point) : list Hashed := map (fun p => to_hash (smul rinv p)) resp.

(** The database built from a merged table, keyed by hashed item, and its ideal lookup. *)
Definition make_db {V : Type} (k : Z) (m : list (bytes * V)) : list (Hashed * V) :=
  map (fun p => (to_hash (smul k (to_point (fst p))), snd p)) m.
Fixpoint find_hash {V : Type} (h : Hashed) (db : list (Hashed * V)) : option V :=
  match db with [] => None | (h', v) :: db' => if hashed_eqb h' h then Some v else find_hash h db' end.
Definition query_db {V : Type} (db : list (Hashed * V)) (hs : list Hashed) : list (option V) :=
  map (fun h => find_hash h db) hs.
End Shuffle.

(** WriteIntersectionResults (common.cc 97-126): [Some] entries are found. *)
Definition write_results (skip_count_check : bool) (shuffle : list nat) (orig : list bytes)
    (inter : list (option bytes)) : outcome (list (bytes * bytes)) :=
  do ls <- map_out (fun i =>
    match nth_error orig i, (if skip_count_check then Some i else nth_error shuffle i) with
    | Some q, Some j =>
      match nth_error inter j with
      | Some (Some v) => Ok [(q, v)]
      | Some None => Ok []
      | None => UB
      end
    | _, _ => UB
    end) (seq 0 (length orig));
  Ok (concat ls).

(** ExtractResult (csv_converter.cc 210-281) on the temporary file: result rows and row count.
    A file with only a header is rejected by the constructor (97-99). *)
Definition extract_one (nlabels : nat) (kv : bytes * bytes) : outcome (list drow) :=
  map_out (fun rv => let ls := split_on col_delim rv in
    enforce (Nat.eqb nlabels (length ls)) (Ok (fst kv, ls))) (split_on row_delim (snd kv)).
Definition extract_result (nlabels : nat) (kvs : list (bytes * bytes)) : outcome (list drow * N) :=
  enforce (negb (Nat.eqb nlabels 0))
    (match kvs with
     | [] => Throw
     | _ => do rs <- map_out (extract_one nlabels) kvs;
            Ok (concat rs, N.of_nat (length (concat rs)))
     end).

(** ComputeRowCount (receiver.cc 252-266). *)
Definition compute_row_count (inter : list (option bytes)) : N :=
  fold_left (fun c m => match m with Some v => c + N.of_nat (length (split_on row_delim v)) | None => c end)%N inter 0%N.

(** * Row-count check *)
Section Count.
Variable order : Z.
Local Open Scope Z_scope.

(** ComputePoly (common.cc 28-47). *)
Definition poly1 (a b x : Z) : Z := a * x + b.
Definition poly2 (a b x y : Z) : Z := a * x + b * y.

(** ElgamalEncryptor::Encrypt (encryptor.h 34-40): secret key [x], randomness [r]. *)
Definition encrypt (x r m : Z) : Z * Z := (r mod order, (m + r * x) mod order).
(** EncryptCount (sender_cnt_db.cc 63-76); [rnd] gives each row's randomness. *)
Definition encrypt_count (x a b : Z) (rnd : bytes -> Z) (kc : bytes * N) : bytes * (Z * Z) :=
  (fst kc, encrypt x (rnd (fst kc)) (poly1 a b (Z.of_N (snd kc)))).

(** ComputeRowCountCt (receiver.cc 214-250); [None]: nothing found, a default-constructed
    ciphertext, whose serialisation is not modelled. *)
Definition ct_add (c d : Z * Z) : Z * Z := ((fst c + fst d) mod order, (snd c + snd d) mod order).
Definition compute_ct (inter : list (option (Z * Z))) : option (Z * Z) :=
  fold_left (fun acc m =>
    match m, acc with
    | Some c, Some s => Some (ct_add s c)
    | Some c, None => Some c
    | None, _ => acc
    end) inter None.

(** CheckRowCount (sender.cc 480-493). *)
Definition check_row_count (x a b : Z) (query_count : N) (ct : Z * Z) (row_count : N) : bool :=
  (poly2 a b (Z.of_N row_count) (Z.of_N query_count) + x * fst ct) mod order =? snd ct mod order.
End Count.

(** * A whole run (entry.cc 60-340) *)
Section Run.
Variable Point Hashed : Type.
Variable smul : Z -> Point -> Point.
Variable to_point : bytes -> Point.
Variable to_hash : Point -> Hashed.
Variable hashed_eqb : Hashed -> Hashed -> bool.
Variable map_order : kvmap -> kvmap.

(** The choices of one run: OPRF key, the receiver's scalar and its inverse, shuffle, schedule. *)
Record choices : Type := mk_choices {
  ch_k : Z; ch_r : Z; ch_rinv : Z; ch_zero : Point; ch_shuffle : list nat; ch_sched : list nat }.

(** The receiver's hashed items (entry.cc 227-286).  Duplicate or missing queries are refused
    (wrapper/apsi/utils/csv_reader.cc 157-161). *)
Fixpoint has_dup (qs : list bytes) : bool :=
  match qs with [] => false | q :: r => existsb (beqb q) r || has_dup r end.
Definition hashed_items (skip : bool) (c : choices) (qs : list bytes) : outcome (list Hashed) :=
  enforce (negb (has_dup qs) && negb (match qs with [] => true | _ => false end))
    (let bl := blind _ smul to_point (ch_r c) qs in
     do resp <- (if skip then Ok (plain_queries _ smul (ch_k c) bl)
                 else process_queries _ smul (ch_k c) (ch_zero c) (ch_shuffle c) (ch_sched c) bl);
     Ok (unblind _ _ smul to_hash (ch_rinv c) resp)).

(** Answers from the value and the count database. *)
Definition value_answers (c : choices) (table : list drow) (hs : list Hashed) : list (option bytes) :=
  query_db _ hashed_eqb
    (make_db _ _ smul to_point to_hash (ch_k c) (map (fun p => (fst p, fst (snd p))) (map_order (merge_all table)))) hs.
Definition count_answers (order x a b : Z) (rnd : bytes -> Z) (c : choices) (table : list drow)
    (hs : list Hashed) : list (option (Z * Z)) :=
  query_db _ hashed_eqb
    (make_db _ _ smul to_point to_hash (ch_k c)
       (map (encrypt_count order x a b rnd) (map (fun p => (fst p, snd (snd p))) (map_order (merge_all table))))) hs.

(** Without count check. *)
Definition run_plain (c : choices) (nlabels : nat) (table : list drow) (qs : list bytes) : outcome (list drow * N) :=
  do hs <- hashed_items true c qs;
  do kvs <- write_results true (ch_shuffle c) qs (value_answers c table hs);
  extract_result nlabels kvs.

(** With count check: the sender gives the seed away only after the check passed; [report] is the
    row count the receiver sends, computed from the answers by an honest one. *)
Definition run_checked (order x a b : Z) (rnd : bytes -> Z) (report : list (option bytes) -> N)
    (c : choices) (nlabels : nat) (table : list drow) (qs : list bytes) : outcome (list drow * N) :=
  do hs <- hashed_items false c qs;
  match compute_ct order (count_answers order x a b rnd c table hs) with
  | None => Throw
  | Some ct =>
    let vals := value_answers c table hs in
    enforce (check_row_count order x a b (N.of_nat (length qs)) ct (report vals))
      (do kvs <- write_results false (ch_shuffle c) qs vals; extract_result nlabels kvs)
  end.
End Run.
