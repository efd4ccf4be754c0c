(** Model of the temporary CSV files of duplicate-key PIR as text: psi/utils/csv_converter.cc (WriteCsvFile
    33-54, ExtractQueryTo 168-208, the text of ExtractResult 217-276), psi/algorithm/dkpir/sender_cnt_db.cc
    (GetCount 29-40), common.cc (the text of WriteIntersectionResults 94-139), receiver.cc (ExtractItems 28-49)
    and psi/wrapper/apsi/utils/csv_reader.cc (ApsiCsvReader::read 95-161).

    Arrow's parser is [csv] of QuoteModel.  Simplified: a file is read as one block; any error of Arrow ends
    the run ([Throw]); a found record has a label. *)
From Coq Require Import List NArith ZArith Bool String.
From Verif Require Import Base Text StoreModel PirPackModel GroupDbModel QuoteModel ShellModel DkPirModel.
Import ListNotations.
Local Open Scope list_scope.
Local Open Scope N_scope.

(** WriteCsvFile: with the values, or with the counts; [m] in the order of the unordered_map. *)
Definition pair_line (p : bytes * bytes) : bytes := fst p ++ comma :: snd p ++ [newline].
Definition pairs_text (m : list (bytes * bytes)) : bytes := asc "key,value" ++ newline :: flat_map pair_line m.
Definition value_text (m : kvmap) : bytes := pairs_text (map (fun e => (fst e, fst (snd e))) m).
Definition count_text (m : kvmap) : bytes := pairs_text (map (fun e => (fst e, dec (snd (snd e)))) m).
(** ExtractQueryTo. *)
Definition query_text (qs : list bytes) : bytes := asc "key" ++ newline :: flat_map (fun q => q ++ [newline]) qs.

(** ApsiCsvReader::read: labelled or not, and the records. *)
Fixpoint repeated (l : list bytes) : bool := match l with [] => false | x :: r => existsb (beqb x) r || repeated r end.
Definition read_db (text : bytes) : outcome (bool * list row) :=
  do lr <- source_rows text;
  enforce (negb (Nat.eqb (List.length (snd lr)) 0))
    (enforce (negb (repeated (map fst (snd lr)))) (Ok lr)).
(** ExtractItems: the queries asked. *)
Definition read_queries (text : bytes) : outcome (list bytes) :=
  do lr <- read_db text; if fst lr then Throw else Ok (map fst (snd lr)).
(** The value database, and the row counts as GetCount reads them. *)
Definition read_values (text : bytes) : outcome (list (bytes * bytes)) :=
  do lr <- read_db text; if fst lr then Ok (snd lr) else Throw.
Definition read_counts (text : bytes) : outcome (list (bytes * Z)) :=
  do rs <- read_values text; map_out (fun r => do c <- stoi (snd r); Ok (fst r, c)) rs.

(** WriteIntersectionResults writes the same kind of file; ExtractResult reads it, without asking for
    distinct keys, and writes the result under the user's names. *)
Definition read_result (text : bytes) : outcome (list (bytes * bytes)) :=
  do lr <- source_rows text;
  if fst lr then enforce (negb (Nat.eqb (List.length (snd lr)) 0)) (Ok (snd lr)) else Throw.
Definition result_text (key_name : bytes) (label_names : list bytes) (rows : list drow) : bytes :=
  flat_map (fun r => join_with comma (fst r :: snd r) ++ [newline]) ((key_name, label_names) :: rows).
Definition save_result (key_name : bytes) (label_names : list bytes) (text : bytes) : outcome (bytes * N) :=
  do kvs <- read_result text;
  do rn <- extract_result (List.length label_names) kvs;
  Ok (result_text key_name label_names (fst rn), snd rn).
