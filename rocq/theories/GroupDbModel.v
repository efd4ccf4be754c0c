(** Model of the APSI wrapper's bucketed databases:
    psi/wrapper/apsi/utils/csv_reader.cc (GroupBucketize 235-313),
    psi/wrapper/apsi/utils/group_db.cc (ProcessGroupParallel 152-182, GroupDBItem 207-402,
    GroupDB 510-567), psi/wrapper/apsi/api/receiver.cc (BucketizeItems 62-89, ProcessResult),
    psi/wrapper/apsi/api/sender.cc (RunQuery 98-) and
    psi/wrapper/apsi/cli/sender_dispatcher.cc (the empty-bucket reply).

    Arguments: std::hash of a string; the order in which an unordered_map is traversed; the
    APSI library, as a database built from rows, its serialisation and its lookup.  A group file
    is a list of records; its text is modelled in QuoteModel.v (keys and values without quotes).  Buffering of the
    group files is not modelled: a crash keeps a prefix of the writes. *)
From Coq Require Import List NArith Bool.
From Verif Require Import Base Text StoreModel PirPackModel.
Import ListNotations.
Local Open Scope N_scope.

(** (num_buckets + group_cnt - 1) / group_cnt in size_t (csv_reader.cc 262, group_db.cc 531, 540, 558). *)
Definition per_group (nb ng : N) : N := u64 (nb + ng - 1) / ng.

(** GetBucketIndexOfGroup (group_db.cc 530-537): first bucket and number of buckets. *)
Definition group_range (nb ng g : N) : N * N :=
  let per := per_group nb ng in
  let b := N.min nb (g * per) in
  let e := N.min nb ((g + 1) * per) in (b, e - b).

(** GetBucketGroupIdx (group_db.cc 554-559). *)
Definition group_of (nb ng b : N) : outcome N := enforce (b <? nb) (Ok (b / per_group nb ng)).

(** The groups [beg, end) of each process (group_db.cc 152-179); a process count of 0 divides by
    zero. *)
Definition proc_range (ng pn i : N) : list N :=
  let per := u64 (ng + pn - 1) / pn in
  let b := per * i in
  if ng <=? b then [] else
  let e := N.min (per * (i + 1)) ng in
  map (fun k => b + N.of_nat k) (seq 0 (N.to_nat (e - b))).
Definition proc_ranges (ng pn : N) : outcome (list (list N)) :=
  if pn =? 0 then UB else Ok (map (fun i => proc_range ng pn (N.of_nat i)) (seq 0 (N.to_nat pn))).

(** [m[b].emplace_back(v)] on an unordered_map of vectors. *)
Fixpoint add_to {V : Type} (b : N) (v : V) (m : list (N * list V)) : list (N * list V) :=
  match m with
  | [] => [(b, [v])]
  | (b', vs) :: m' => if b' =? b then (b', vs ++ [v]) :: m' else (b', vs) :: add_to b v m'
  end.
Fixpoint assoc {V : Type} (b : N) (m : list (N * V)) : option V :=
  match m with [] => None | (b', v) :: m' => if b' =? b then Some v else assoc b m' end.

Definition row : Type := bytes * bytes.
(** A record of a group file. *)
Inductive gline : Type := GHead | GRow (b : N) (r : row).

Section GroupDb.
Variable hash : bytes -> N.

(** int bucket_idx = hash % bucket_cnt (csv_reader.cc 294, receiver.cc 67).  Indexing with a
    negative int is undefined. *)
Definition bucket_of (nb : N) (k : bytes) : outcome N :=
  if nb =? 0 then UB else
  let b := hash k mod nb in if b <? 2147483648 then Ok b else UB.

(** The writes of GroupBucketize in order (csv_reader.cc 246-304): a header for every group, then
    each row to its group. *)
Definition divide_row (nb ng : N) (r : row) : outcome (nat * gline) :=
  do b <- bucket_of nb (fst r); Ok (N.to_nat (b / per_group nb ng), GRow b r).
Definition divide_writes (nb ng : N) (rows : list row) : outcome (list (nat * gline)) :=
  enforce (1 <=? ng)
    (do ws <- map_out (divide_row nb ng) rows;
     Ok (map (fun g => (g, GHead)) (seq 0 (N.to_nat ng)) ++ ws)).
(** Streams are opened for appending: nothing removes earlier content. *)
Definition write1 (fs : list (list gline)) (w : nat * gline) : list (list gline) :=
  upd (fst w) (fun f => f ++ [snd w]) fs.
Definition writes (fs : list (list gline)) (ws : list (nat * gline)) : list (list gline) :=
  fold_left write1 ws fs.

(** status file: GROUP_DB_STATE_EMPTY or later. *)
Record gdisk : Type := mk_gdisk { gd_divided : bool; gd_files : list (list gline) }.
Definition fresh_disk (ng : N) : gdisk := mk_gdisk false (repeat [] (N.to_nat ng)).

(** DivideGroup (group_db.cc 510-526). *)
Definition divide_group (nb ng : N) (rows : list row) (d : gdisk) : outcome gdisk :=
  if gd_divided d then Ok d else
  do ws <- divide_writes nb ng rows;
  enforce (negb (match rows with [] => true | _ => false end))
    (Ok (mk_gdisk true (writes (gd_files d) ws))).
(** DivideGroup stopped after [n] writes. *)
Definition divide_crash (nb ng : N) (rows : list row) (n : nat) (d : gdisk) : outcome gdisk :=
  if gd_divided d then Ok d else
  do ws <- divide_writes nb ng rows; Ok (mk_gdisk false (writes (gd_files d) (firstn n ws))).

Section Item.
Variable DB : Type.
Variable build : list row -> DB.
Variable ser : DB -> bytes.
Variable deser : bytes -> option DB.
Variable map_order : list (N * list row) -> list (N * list row).

(** db_data of Generate (group_db.cc 313-336): rows appended to their bucket. *)
Fixpoint collect (ls : list gline) (m : list (N * list row)) : outcome (list (N * list row)) :=
  match ls with
  | [] => Ok m
  | GHead :: _ => Throw (* bucket_id is not an integer: ReadNext fails, 301 *)
  | GRow b r :: ls' => collect ls' (add_to b r m)
  end.

Definition is_duplicated (rs : list row) : bool :=
  (fix go (rs : list row) := match rs with
   | [] => false
   | r :: rs' => existsb (fun r' => beqb (fst r) (fst r')) rs' || go rs'
   end) rs.

(** flush_proc (group_db.cc 346-361): offset of every bucket, and the file. *)
Fixpoint layout (m : list (N * list row)) (f : bytes) : list (N * nat) * bytes :=
  match m with
  | [] => ([], f)
  | (b, rs) :: m' => let '(os, f') := layout m' (f ++ ser (build rs)) in ((b, length f) :: os, f')
  end.

(** Generate without files from an earlier run (group_db.cc 276-402). *)
Definition generate (max_bucket : N) (ls : list gline) : outcome (list (N * nat) * bytes) :=
  match ls with
  | GHead :: rows =>
    do m <- collect rows [];
    enforce (N.of_nat (length m) <=? max_bucket)
      (let m' := map_order m in
       enforce (negb (existsb (fun p => is_duplicated (snd p)) m')) (Ok (layout m' [])))
  | _ => Throw
  end.

(** What a group leaves on disk: its source file and, once generated, offsets and databases. *)
Record gitem : Type := mk_gitem { gi_src : list gline; gi_db : option (list (N * nat) * bytes) }.

(** GenerateGroup / Generate / LoadMeta (group_db.cc 264-276, 539-548). *)
Definition gen_item (max_bucket : N) (it : gitem) : outcome gitem :=
  match gi_db it with
  | Some (os, _) => enforce (N.of_nat (length os) <=? max_bucket) (Ok it)
  | None => do d <- generate max_bucket (gi_src it); Ok (mk_gitem (gi_src it) (Some d))
  end.

(** LoadBucket (group_db.cc 239-255): [None] is the null database, also if reading failed. *)
Definition load_bucket (it : gitem) (b : N) : outcome (option DB) :=
  match gi_db it with
  | None => Throw
  | Some (os, f) =>
    match assoc b os with
    | None => Ok None
    | Some o => Ok (deser (skipn o f))
    end
  end.

(** GetBucketDB (group_db.cc 561-567). *)
Definition get_bucket_db (nb ng : N) (items : list gitem) (b : N) : outcome (option DB) :=
  do g <- group_of nb ng b;
  match nth_error items (N.to_nat g) with
  | None => UB
  | Some it => do it' <- gen_item (per_group nb ng) it; load_bucket it' b
  end.

(** The children of ProcessGroupParallel: a group whose generation fails is only logged
    (group_db.cc 83-92, 117-138). *)
Definition gen_all (max_bucket : N) (items : list gitem) : list gitem :=
  map (fun it => match gen_item max_bucket it with Ok it' => it' | _ => it end) items.

Definition items_of (d : gdisk) : list gitem := map (fun f => mk_gitem f None) (gd_files d).

Variable lookup : DB -> bytes -> option bytes.
Variable query_order : list (N * list bytes) -> list (N * list bytes).

(** BucketizeItems (receiver.cc 62-89). *)
Fixpoint bucketize (nb : N) (qs : list bytes) (m : list (N * list bytes)) : outcome (list (N * list bytes)) :=
  match qs with
  | [] => Ok m
  | q :: qs' => do b <- bucket_of nb q; bucketize nb qs' (add_to b q m)
  end.

Definition matches (db : DB) (qs : list bytes) : list row :=
  flat_map (fun q => match lookup db q with Some v => [(q, v)] | None => [] end) qs.

(** One bucket's query.  With no database for the bucket the dispatcher answers with zero result
    packages, the RunQuery of the API with an empty string, which the receiver cannot parse. *)
Definition answer (api : bool) (nb ng : N) (items : list gitem) (ctx : N * list bytes) : outcome (list row) :=
  do db <- get_bucket_db nb ng items (u32 (fst ctx));
  match db with
  | Some db => Ok (matches db (snd ctx))
  | None => if api then Throw else Ok []
  end.

(** A receiver's whole query: results of the buckets appended. *)
Definition run_queries (api : bool) (nb ng : N) (items : list gitem) (qs : list bytes) : outcome (list row) :=
  do m <- bucketize nb qs [];
  do rs <- map_out (answer api nb ng items) (query_order m);
  Ok (concat rs).
End Item.
End GroupDb.
