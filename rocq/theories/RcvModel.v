(** Model of the APSI receiver's way from a query to its output: psi/wrapper/apsi/receiver.cc
    (ExtractHashes 160-190, create_query 234-369, request_query 371-441, process_result_part 443-619,
    process_result 621-666, process_result_worker 668-), psi/wrapper/apsi/utils/common.cc
    (stream_intersection_results 182-211, print_intersection_results 213-255),
    psi/wrapper/apsi/cli/entry.cc (RunReceiver 98-, from 180 on) and psi/wrapper/apsi/api/receiver.cc
    (RequestQuery 122-162, ProcessResult 164-243).

    Arguments: the sender's replies, the cuckoo table of kuku, the text of a label.  A result package is
    what its decryption shows: for every place of its bundle whether all field elements are zero, and
    the label decrypted there.  The checks of label lengths in process_result_part and the threads that receive
    packages (any order of the packages) are left out. *)
From Coq Require Import List NArith Arith Bool.
From Verif Require Import Base Text StoreModel GroupDbModel.
Import ListNotations.
Local Open Scope N_scope.

(** MatchRecord: [None] not found, [Some None] found without a label. *)
Notation record := (option (option bytes)).
(** A result package: bundle_idx and the places of the bundle. *)
Record package : Type := mk_package { pk_bundle : N; pk_places : list record }.

(** ExtractHashes: nothing if the reply has another number of values (receiver.cc 165-182). *)
Definition extract_hashes (count : nat) (reply : option (list N)) : list N :=
  match reply with
  | None => []
  | Some hs => if Nat.eqb (length hs) count then hs else []
  end.

(** table_idx_to_item_idx_ (receiver.cc 289-294): a later item with the same place replaces an earlier. *)
Fixpoint make_itt (loc : N -> N) (i : nat) (hs : list N) (m : list (N * nat)) : list (N * nat) :=
  match hs with [] => m | h :: hs' => make_itt loc (S i) hs' ((loc h, i) :: m) end.

(** The loop over the places of a package (process_result_part). *)
Fixpoint scan (itt : list (N * nat)) (t : N) (places : list record) (mrs : list record) : outcome (list record) :=
  match places with
  | [] => Ok mrs
  | None :: r => scan itt (t + 1) r mrs
  | Some l :: r =>
      match assoc t itt with
      | None => scan itt (t + 1) r mrs
      | Some i =>
          match nth_error mrs i with
          | None => UB
          | Some (Some _) => Throw
          | Some None => scan itt (t + 1) r (upd i (fun _ => Some l) mrs)
          end
      end
  end.
(** process_result_part; a null package gives nothing. *)
Definition process_part (per : N) (itt : list (N * nat)) (count : nat) (p : option package) : outcome (list record) :=
  match p with
  | None => Ok []
  | Some p => scan itt (pk_bundle p * per) (pk_places p) (repeat None count)
  end.

(** The merge of a package's records into all records (process_result 631-660, process_result_worker 701-). *)
Fixpoint merge (mrs this : list record) : outcome (list record) :=
  match mrs, this with
  | m :: mrs', t :: this' =>
      match t, m with
      | Some _, Some _ => Throw
      | Some _, None => do r <- merge mrs' this'; Ok (t :: r)
      | None, _ => do r <- merge mrs' this'; Ok (m :: r)
      end
  | _, _ => Ok mrs
  end.
(** process_result. *)
Fixpoint process (per : N) (itt : list (N * nat)) (count : nat) (ps : list (option package)) (mrs : list record) : outcome (list record) :=
  match ps with
  | [] => Ok mrs
  | p :: ps' =>
      do this <- process_part per itt count p;
      if Nat.eqb (length this) (length mrs) then do mrs' <- merge mrs this; process per itt count ps' mrs'
      else process per itt count ps' mrs
  end.

Section Run.
(** The table after the items were inserted: the place of each item; [None]: an insertion failed
    (receiver.cc 244-287).  Items already in the table are passed over. *)
Variable cuckoo : list N -> option (N -> N).
(** label.to_string(). *)
Variable show : bytes -> bytes.
Variable per : N.

(** One query: the OPRF values, the table, the packages (request_query; RequestQuery and ProcessResult
    of the API). *)
Definition ask (keys : list bytes) (oprf : option (list N)) (reply : (N -> N) -> list (option package)) : outcome (list record) :=
  let hs := extract_hashes (length keys) oprf in
  match cuckoo hs with
  | None => Throw
  | Some loc => process per (make_itt loc 0 hs []) (length hs) (reply loc) (repeat None (length hs))
  end.

(** print_intersection_results: header, lines and number of matches; intersection[i] is not checked. *)
Fixpoint print_rows (keys : list bytes) (inter : list record) (header rows : bytes) (cnt : nat) : outcome (bytes * bytes * nat) :=
  match keys, inter with
  | [], _ => Ok (header, rows, cnt)
  | _ :: _, [] => UB
  | k :: keys', None :: inter' => print_rows keys' inter' header rows cnt
  | k :: keys', Some None :: inter' => print_rows keys' inter' header (rows ++ k ++ [10]) (S cnt)
  | k :: keys', Some (Some l) :: inter' =>
      print_rows keys' inter' (header ++ [44; 118; 97; 108; 117; 101]) (rows ++ k ++ [44] ++ show l ++ [10]) (S cnt)
  end.
Definition print_results (keys : list bytes) (inter : list record) (append : bool) (file : bytes) : outcome (bytes * nat) :=
  do r <- print_rows keys inter [107; 101; 121] [] 0;
  let '(header, rows, cnt) := r in
  Ok (if append then file ++ rows else header ++ [10] ++ rows, cnt).

(** stream_intersection_results: keys and values. *)
Fixpoint stream_results (keys : list bytes) (inter : list record) (ks vs : list bytes) : outcome (list bytes * list bytes) :=
  match keys, inter with
  | [], _ => Ok (ks, vs)
  | _ :: _, [] => UB
  | k :: keys', None :: inter' => stream_results keys' inter' ks vs
  | k :: keys', Some None :: inter' => stream_results keys' inter' (ks ++ [k]) vs
  | k :: keys', Some (Some l) :: inter' => stream_results keys' inter' (ks ++ [k]) (vs ++ [show l])
  end.

(** A bucket: its keys, the reply to the OPRF request and that to the query. *)
Definition bucket_query : Type := (list bytes * option (list N) * ((N -> N) -> list (option package)))%type.

(** The buckets of RunReceiver (entry.cc 199-253): appended to once a bucket had a match. *)
Fixpoint run_cli (bs : list bucket_query) (append : bool) (file : bytes) (total : nat) : outcome (bytes * nat) :=
  match bs with
  | [] => Ok (file, total)
  | (keys, oprf, reply) :: bs' =>
      do inter <- ask keys oprf reply;
      do r <- print_results keys inter append file;
      run_cli bs' (append || (0 <? snd r)%nat) (fst r) (total + snd r)
  end.
(** ProcessResult of the API to a file (api/receiver.cc 203-243): appended to after the first bucket. *)
Fixpoint run_api (bs : list bucket_query) (append : bool) (file : bytes) (counts : list nat) : outcome (bytes * list nat) :=
  match bs with
  | [] => Ok (file, counts)
  | (keys, oprf, reply) :: bs' =>
      do inter <- ask keys oprf reply;
      do r <- print_results keys inter append file;
      run_api bs' true (fst r) (counts ++ [snd r])
  end.
(** ProcessResult of the API to vectors (164-201). *)
Fixpoint run_stream (bs : list bucket_query) (ks vs : list bytes) : outcome (list bytes * list bytes) :=
  match bs with
  | [] => Ok (ks, vs)
  | (keys, oprf, reply) :: bs' =>
      do inter <- ask keys oprf reply;
      do r <- stream_results keys inter ks vs;
      run_stream bs' (fst r) (snd r)
  end.
End Run.
