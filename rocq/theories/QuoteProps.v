(** C95: the rows of a grouped APSI database on their way through the group files. *)
From Coq Require Import List NArith Lia Bool Arith String.
From Verif Require Import Base Text StoreModel PirPackModel GroupDbModel GroupDbSpec GroupDbProofs QuoteModel QuoteSpec QuoteProofs.
Import ListNotations.
Local Open Scope list_scope.

(** Rows without quotes and line ends come back as they were written, wherever the reader cuts the
    file into blocks. *)
Theorem C95_blocks :
  forall labeled ls blocks, records plain labeled ls -> cut_at_lines blocks (group_text labeled ls) ->
  group_read labeled blocks = Ok ls.
Proof. exact blocks_read. Qed.
Print Assumptions C95_blocks.

(** Read as one block, a file gives back its rows if, and only if, no key and no value has a
    quote. *)
Theorem C95_quotes :
  forall labeled ls, records (fun _ => True) labeled ls ->
  (group_read labeled [group_text labeled ls] = Ok ls <-> records unquoted labeled ls).
Proof. intros labeled ls R. split; [now apply read_only_unquoted|apply one_block_read]. Qed.
Print Assumptions C95_quotes.

(** A table without quotes and line ends, divided into groups: every group file is read as it was
    written. *)
Theorem C95_divided :
  forall hash nb ng labeled table d, wide nb ng ->
  (forall k v, In (k, v) table -> plain k /\ plain v /\ (labeled = false -> v = [])) ->
  divide_group hash nb ng table (fresh_disk ng) = Ok d ->
  forall g file blocks, nth_error (gd_files d) g = Some file -> cut_at_lines blocks (group_text labeled file) ->
  group_read labeled blocks = Ok file.
Proof. exact divided_read. Qed.
Print Assumptions C95_divided.

(** A source table in the form of RFC 4180 is read as it is, with all its quotes and line ends. *)
Theorem C95_source :
  forall table, source_rows (asc "key,value" ++ newline :: flat_map rfc_line table) = Ok (true, table).
Proof. exact source_read. Qed.
Print Assumptions C95_source.

Definition one_group (rows : list row) : list gline := GHead :: map (GRow 0) rows.

(** A key with a quote is stored as another key. *)
Theorem C95_key_refuted :
  exists k k', k <> k' /\ source_rows (asc "key,value" ++ newline :: rfc_line (k, asc "1")) = Ok (true, [(k, asc "1")]) /\
    divide_group (fun _ => 7%N) 1 1 [(k, asc "1")] (fresh_disk 1) = Ok (mk_gdisk true [one_group [(k, asc "1")]]) /\
    group_read true [group_text true (one_group [(k, asc "1")])] = Ok (one_group [(k', asc "1")]).
Proof.
  exists [97; 34; 98]%N, [97; 98; 34]%N. split; [discriminate|]. split; [reflexivity|]. split; reflexivity.
Qed.
Print Assumptions C95_key_refuted.

(** A key that ends with a quote takes the next row of its group with it. *)
Theorem C95_row_refuted :
  exists a b c, unquoted b /\
    group_read false [group_text false (one_group [(a, []); (b, [])])] = Ok (one_group [(c, [])]) /\ c <> a /\ c <> b.
Proof.
  exists [97; 34]%N, [98]%N, [97; 34; 10; 48; 44; 98; 34]%N. split; [intros [H|[]]; discriminate|]. split; [reflexivity|]. split; discriminate.
Qed.
Print Assumptions C95_row_refuted.

(** A value that ends with a quote makes the whole group unreadable, also for keys without
    quotes; the process that builds the group only logs this. *)
Theorem C95_group_refuted :
  exists v, group_read true [group_text true (one_group [(asc "a", v); (asc "b", asc "2")])] = Throw /\
    source_rows (asc "key,value" ++ newline :: flat_map rfc_line [(asc "a", v); (asc "b", asc "2")]) = Ok (true, [(asc "a", v); (asc "b", asc "2")]).
Proof. exists [49; 34]%N. split; reflexivity. Qed.
Print Assumptions C95_group_refuted.

(** A block that ends inside the quotes of a key is an error, whatever follows: the group cannot be
    read, and no row is silently changed. *)
Theorem C95_open :
  forall labeled ls b k1 blocks, records unquoted labeled ls -> unquoted k1 ->
  group_read labeled ((group_text labeled ls ++ dec b ++ comma :: quote :: k1) :: blocks) = Throw.
Proof. exact open_throws. Qed.
Print Assumptions C95_open.

(** A value with a line end is read back from one block, and torn apart where a block ends
    inside it. *)
Theorem C95_cut_refuted :
  exists ls blocks, records unquoted true ls /\ cut_at_lines blocks (group_text true ls) /\
    group_read true [group_text true ls] = Ok ls /\ group_read true blocks = Throw.
Proof.
  exists (one_group [(asc "a", asc "1" ++ newline :: asc "2")]).
  exists [asc "bucket_id,key,value" ++ newline :: asc "0," ++ in_quotes (asc "a") ++ comma :: quote :: asc "1" ++ [newline]; asc "2" ++ quote :: [newline]].
  split; [|split; [|split; reflexivity]].
  - exists [(0%N, (asc "a", asc "1" ++ newline :: asc "2"))]. split; [reflexivity|]. constructor; [|constructor]. cbn [fst snd].
    split; [lia|]. unfold unquoted. split; [|split; [|discriminate]]; vm_compute; intuition discriminate.
  - split; [reflexivity|]. constructor; [|constructor; [|constructor]].
    + exists (asc "bucket_id,key,value" ++ newline :: asc "0," ++ in_quotes (asc "a") ++ comma :: quote :: asc "1"). reflexivity.
    + exists (asc "2" ++ [quote]). reflexivity.
Qed.
Print Assumptions C95_cut_refuted.

Example C95_example :
  records plain true (one_group [(asc "a,b", asc "1"); ([], asc "x y")]) /\
  group_read true [group_text true (one_group [(asc "a,b", asc "1")]); line_text true (GRow 0 ([], asc "x y"))] =
    Ok (one_group [(asc "a,b", asc "1"); ([], asc "x y")]).
Proof.
  split; [|reflexivity]. exists [(0%N, (asc "a,b", asc "1")); (0%N, ([], asc "x y"))]. split; [reflexivity|].
  repeat constructor; cbn [fst snd]; try lia; try discriminate; vm_compute; intuition discriminate.
Qed.
