(** Model of the table / join stage of PSI v2:
    psi/utils/table_utils.cc, psi/utils/join_processor.cc and the result part of
    psi/interface.cc.

    Not modelled: the CSV syntax (a file is a list of lines and the key of a
    line is given by a function), the asynchronous writer in KeyInfo::Make (each
    write is awaited before the next one starts, lines 350-352, so the file
    contents are those of the sequential program), reuse of an existing key-info
    file through its ".meta" companion, and logging. *)
From Coq Require Import List NArith Lia Bool.
From Verif Require Import Base.
Import ListNotations.
Local Open Scope N_scope.

Section Join.

(** A joined key (the string produced by KeysJoin, key.cc 185-187) and its
    operator==. *)
Variable Key : Type.
Variable keqb : Key -> Key -> bool.
Variable empty_key : Key.

(** A line of a CSV file; [empty_line] is what std::getline leaves in its
    argument when there is nothing left to read. *)
Variable Line : Type.
Variable empty_line : Line.

(* ------------------------------------------------------------------ *)
(** * KeyInfo::Make for a sorted table (table_utils.cc 280-374) *)

(** One line of the key-info file (table_utils.cc 306-318). *)
Record kentry : Type := mk_kentry { ke_key : Key; ke_start : N; ke_dup : N }.

(** Loop state (table_utils.cc 322-327): table_index, cur_key,
    cur_key_start_index, cur_key_dup_cnt and the lines written so far. *)
Record kst : Type := mk_kst {
  ks_index : N; ks_cur : Key; ks_start : N; ks_dup : N; ks_out : list kentry }.

(** table_utils.cc 322-327 *)
Definition kinit : kst := mk_kst 0 empty_key 0 0 [].

(** Body of the for loop (table_utils.cc 332-349), uint32_t counters. *)
Definition kstep (st : kst) (item : Key) : kst :=
  if ks_index st =? 0 then
    mk_kst (u32 (ks_index st + 1)) item (ks_start st) (ks_dup st) (ks_out st)
  else if negb (keqb (ks_cur st) item) then
    mk_kst (u32 (ks_index st + 1)) item (ks_index st) 0
           (ks_out st ++ [mk_kentry (ks_cur st) (ks_start st) (ks_dup st)])
  else
    mk_kst (u32 (ks_index st + 1)) (ks_cur st) (ks_start st) (u32 (ks_dup st + 1)) (ks_out st).

(** The outer while loop (table_utils.cc 326-357): the provider hands out
    batches, an empty one ends the loop. *)
Fixpoint kloop (st : kst) (batches : list (list Key)) : kst :=
  match batches with
  | [] => st
  | [] :: _ => st
  | b :: r => kloop (fold_left kstep b st) r
  end.

(** Meta data counters of write_to_csv (table_utils.cc 313-317). *)
Record kmeta : Type := mk_kmeta { km_dup : N; km_unique : N; km_origin : N }.

Definition kcount (m : kmeta) (e : kentry) : kmeta :=
  mk_kmeta (if ke_dup e =? 0 then km_dup m else u32 (km_dup m + 1))
           (u32 (km_unique m + 1))
           (u32 (km_origin m + 1 + ke_dup e)).

(** KeyInfo::Make (table_utils.cc 280-374): entries plus meta; the last key is
    written unconditionally (line 360). *)
Definition key_info_make (batches : list (list Key)) : list kentry * kmeta :=
  let st := kloop kinit batches in
  let es := ks_out st ++ [mk_kentry (ks_cur st) (ks_start st) (ks_dup st)] in
  (es, fold_left kcount es (mk_kmeta 0 0 0)).

(** KeyInfo::Make for a table declared to have unique keys (table_utils.cc
    376-422) together with UniqueTableKeysInfoProvider::ReadBatchWithInfo
    (175-184): entry i is row i, duplicate count 0. *)
Definition unique_key_info (keys : list Key) : list kentry :=
  map (fun p => mk_kentry (snd p) (N.of_nat (fst p)) 0) (number 0 keys).

(* ------------------------------------------------------------------ *)
(** * InterIndexProcessor (table_utils.cc 544-598) *)

(** InterInfo (table_utils.h): start_index, self_dup_cnt, peer_dup_cnt. *)
Record iinfo : Type := mk_iinfo { ii_start : N; ii_self : N; ii_peer : N }.

(** Members of InterIndexProcessor: the look-ahead index_with_peer_cnt_, what the
    index reader still holds, the batches the key-info provider still holds,
    self_info_index_ and finish_. *)
Record pst : Type := mk_pst {
  p_cur : option (N * N); p_rd : list (N * N);
  p_prov : list (list (N * N)); p_idx : N; p_finish : bool }.

(** IndexReader::GetNextWithPeerCnt. *)
Definition rd_next (rd : list (N * N)) : option (N * N) * list (N * N) :=
  match rd with
  | [] => (None, [])
  | x :: r => (Some x, r)
  end.

(** Constructor (table_utils.cc 544-549). *)
Definition pinit (rd : list (N * N)) (prov : list (list (N * N))) : pst :=
  let '(c, r) := rd_next rd in mk_pst c r prov 0 false.

(** The for loop over one provider batch (table_utils.cc 577-595). *)
Fixpoint pscan (batch : list (N * N)) (cur : option (N * N)) (rd : list (N * N))
         (idx : N) (inter : list iinfo)
  : outcome (option (N * N) * list (N * N) * N * list iinfo * bool) :=
  match batch with
  | [] => Ok (cur, rd, idx, inter, false)
  | (s, d) :: b =>
    match cur with
    | None => Ok (cur, rd, idx, inter, true)
    | Some (j, p) =>
      if idx =? j then
        let '(c, r) := rd_next rd in
        pscan b c r (u32 (idx + 1)) (inter ++ [mk_iinfo (u32 s) (u32 d) (u32 p)])
      else if j <? idx then Throw
      else pscan b cur rd (u32 (idx + 1)) inter
    end
  end.

(** The while (inter.empty()) loop (table_utils.cc 563-596), structural in the
    batches the provider still holds. *)
Fixpoint ploop (prov : list (list (N * N))) (cur : option (N * N)) (rd : list (N * N))
         (idx : N) (fin : bool) : outcome (list iinfo * pst) :=
  match prov with
  | [] | [] :: _ =>
    match cur with
    | Some _ => Throw
    | None => Ok ([], mk_pst cur rd prov idx fin)
    end
  | b :: ps =>
    do (c, r, i, inter, f) <- pscan b cur rd idx [];
    match inter with
    | [] => ploop ps c r i (fin || f)
    | _ => Ok (inter, mk_pst c r ps i (fin || f))
    end
  end.

(** GetBatchInfo (table_utils.cc 551-598). *)
Definition get_batch_info (st : pst) : outcome (list iinfo * pst) :=
  if p_finish st then Ok ([], st)
  else match p_cur st with
       | None => Ok ([], mk_pst (p_cur st) (p_rd st) (p_prov st) (p_idx st) true)
       | Some _ => ploop (p_prov st) (p_cur st) (p_rd st) (p_idx st) false
       end.

(* ------------------------------------------------------------------ *)
(** * ResultDumper and ApplyPeerDupCnt (table_utils.cc 452-542) *)

(** ResultDumper: a file is absent when its path is empty (452-464). *)
Record dumper : Type := mk_dumper {
  d_int : option (list Line); d_exc : option (list Line); d_icnt : N; d_ecnt : N }.

(** Dump (473-481): [dup + 1] copies of the line. *)
Definition dump (line : Line) (dup : N) (file : option (list Line)) : option (list Line) :=
  option_map (fun f => f ++ repeat line (N.to_nat dup + 1)) file.

(** ToIntersect / ToExcept (465-471). *)
Definition to_intersect (d : dumper) (line : Line) (dup : N) : dumper :=
  mk_dumper (dump line dup (d_int d)) (d_exc d) (d_icnt d + (1 + dup)) (d_ecnt d).
Definition to_except (d : dumper) (line : Line) (dup : N) : dumper :=
  mk_dumper (d_int d) (dump line dup (d_exc d)) (d_icnt d) (d_ecnt d + (1 + dup)).

(** std::getline. *)
Definition getline (f : list Line) : Line * list Line :=
  match f with
  | [] => (empty_line, [])
  | l :: r => (l, r)
  end.

(** State of ApplyPeerDupCnt: rest of the sorted file, sorted_file_index, dumper
    and the three counters (500-502). *)
Record ast : Type := mk_ast {
  a_file : list Line; a_idx : N; a_d : dumper; a_self : N; a_peer : N; a_uniq : N }.

(** while (sorted_file_index < info.start_index) (517-521), [n] iterations. *)
Fixpoint skip_except (n : nat) (st : ast) : ast :=
  match n with
  | O => st
  | S k =>
    let '(l, f) := getline (a_file st) in
    skip_except k (mk_ast f (u32 (a_idx st + 1)) (to_except (a_d st) l 0)
                          (a_self st) (a_peer st) (a_uniq st))
  end.

(** for (i = 0; i <= info.self_dup_cnt; ++i) (522-525), [n] iterations. *)
Fixpoint take_intersect (n : nat) (peer : N) (f : list Line) (d : dumper) : list Line * dumper :=
  match n with
  | O => (f, d)
  | S k => let '(l, f') := getline f in take_intersect k peer f' (to_intersect d l peer)
  end.

(** Body of the loop over one batch of infos (516-529).  The C++ loop
    "for (uint32_t i = 0; i <= self_dup_cnt; ++i)" would not terminate for
    self_dup_cnt = 2^32-1; here it performs self_dup_cnt + 1 iterations. *)
Definition apply_info (st : ast) (i : iinfo) : ast :=
  let st1 := skip_except (N.to_nat (ii_start i - a_idx st)) st in
  let '(f, d) := take_intersect (N.to_nat (ii_self i) + 1) (ii_peer i) (a_file st1) (a_d st1) in
  mk_ast f (u32 (a_idx st1 + ii_self i + 1)) d
         (u32 (a_self st1 + ii_self i + 1)) (u32 (a_peer st1 + ii_peer i + 1)) (a_uniq st1).

(** while (!inter_index_info.empty()) (514-532); [fuel] bounds the number of
    calls of GetBatchInfo. *)
Fixpoint apply_loop (fuel : nat) (ps : pst) (st : ast) : outcome ast :=
  match fuel with
  | O => Diverge
  | S k =>
    do (inter, ps') <- get_batch_info ps;
    match inter with
    | [] => Ok st
    | _ =>
      let st1 := mk_ast (a_file st) (a_idx st) (a_d st) (a_self st) (a_peer st)
                        (u32 (a_uniq st + N.of_nat (length inter))) in
      apply_loop k ps' (fold_left apply_info inter st1)
    end
  end.

(** while (getline) ToExcept (534-537). *)
Definition drain (st : ast) : ast := skip_except (length (a_file st)) st.

(** StatInfo (table_utils.h 232-247). *)
Record stat_info : Type := mk_stat {
  s_self : N; s_peer : N; s_original : N; s_join : N; s_uniq : N }.

(** ApplyPeerDupCnt (497-542); [file] is the sorted table file including its
    header line. *)
Definition apply_peer_dup_cnt (file : list Line) (prov : list (list (N * N)))
           (rd : list (N * N)) (d0 : dumper) : outcome (dumper * stat_info) :=
  let '(h, f) := getline file in
  let d1 := to_except (to_intersect d0 h 0) h 0 in
  do st <- apply_loop (S (S (length prov))) (pinit rd prov) (mk_ast f 0 d1 0 0 0);
  let st' := drain st in
  Ok (a_d st', mk_stat (a_self st') (a_peer st') (a_idx st')
                       (u32 (d_icnt (a_d st') - 1)) (a_uniq st')).

(* ------------------------------------------------------------------ *)
(** * JoinProcessor (join_processor.cc) *)

Inductive role : Type := RoleSender | RoleReceiver.
Definition role_eqb (a b : role) : bool :=
  match a, b with
  | RoleSender, RoleSender | RoleReceiver, RoleReceiver => true
  | _, _ => false
  end.

(** AdvancedJoinType after the constructor mapped UNSPECIFIED to INNER
    (join_processor.cc 187-190). *)
Inductive join_type : Type := JInner | JLeft | JRight | JFull | JDifference.

(** Does the join processor produce an intersect / except file?
    (join_processor.cc 211-222) *)
Definition has_intersect (t : join_type) : bool :=
  match t with JDifference => false | _ => true end.

Definition has_except (t : join_type) (self left : role) : bool :=
  match t with
  | JDifference | JFull => true
  | JLeft => role_eqb left self
  | JRight => negb (role_eqb left self)
  | JInner => false
  end.

(** ResultDumper constructor applied to the two paths (452-464). *)
Definition make_dumper (t : join_type) (self left : role) : dumper :=
  mk_dumper (if has_intersect t then Some [] else None)
            (if has_except t self left then Some [] else None) 0 0.

(** A line of the final output file: header, a copied line, or the NULL line. *)
Inductive oline : Type := OHead | OLine (l : Line) | ONull.

(** write_output (join_processor.cc 291-303): skips the header of the input. *)
Definition write_output (f : option (list Line)) : list oline :=
  match f with
  | None => []
  | Some l => map OLine (tl l)
  end.

(** GenerateResult (join_processor.cc 283-341). *)
Definition generate_result (t : join_type) (self left : role)
           (fint fexc : option (list Line)) (peer_except_cnt : N) : list oline :=
  let na := repeat ONull (N.to_nat (u32 peer_except_cnt)) in
  [OHead]
  ++ write_output fint
  ++ (if negb (role_eqb self left)
         && (match t with JLeft | JDifference | JFull => true | _ => false end)
      then na else [])
  ++ write_output fexc
  ++ (if role_eqb self left
         && (match t with JRight | JDifference | JFull => true | _ => false end)
      then na else []).

(* ------------------------------------------------------------------ *)
(** * Sorting (key.cc 122-183): "sort --stable" as insertion sort *)

Section Sort.
Variable A : Type.
Variable leb : A -> A -> bool.
Fixpoint insert_by (x : A) (l : list A) : list A :=
  match l with
  | [] => [x]
  | y :: r => if leb x y then x :: l else y :: insert_by x r
  end.
Fixpoint sort_by (l : list A) : list A :=
  match l with
  | [] => []
  | x :: r => insert_by x (sort_by r)
  end.
End Sort.

(** Numeric sort of the index file by its first column (interface.cc 157-160). *)
Definition sort_index_file (l : list (N * N)) : list (N * N) :=
  sort_by (N * N) (fun a b => fst a <=? fst b) l.

(* ------------------------------------------------------------------ *)
(** * One party: Init (interface.cc 84-95) and Finalize (145-193) *)

Variable line_key : Line -> Key.       (* the key ArrowCsvBatchProvider reads off a line *)
Variable kleb : Key -> Key -> bool.    (* key order used by MultiKeySort *)
Variable header : Line.

(** Input table sorted on the keys (SortedTable::Make, table_utils.cc 252-262). *)
Definition sorted_rows (rows : list Line) : list Line :=
  sort_by Line (fun a b => kleb (line_key a) (line_key b)) rows.

(** What Init computes: Table's constructor needs a header and at least one data
    line (arrow_helper.cc 77-104), then the key info.  [bs] is the batch size of
    the CSV provider (kBatchSize, 65536 in the code). *)
Definition party_init (bs : nat) (rows : list Line) : outcome (list Line * list kentry * kmeta) :=
  enforce (negb (Nat.eqb (length rows) 0))
    (let srt := sorted_rows rows in
     let '(es, m) := key_info_make (chunks bs (map line_key srt)) in
     Ok (srt, es, m)).

(** DealResultIndex for a party whose keys may repeat (join_processor.cc 270-281). *)
Definition deal_result_index (t : join_type) (self left : role) (bs : nat)
           (srt : list Line) (es : list kentry) (idx : list (N * N))
  : outcome (dumper * stat_info) :=
  apply_peer_dup_cnt (header :: srt)
    (chunks bs (map (fun e => (ke_start e, ke_dup e)) es)) idx (make_dumper t self left).

(** DealResultIndex followed by the exchange of table sizes and GenerateResult,
    result broadcast on (interface.cc 162-177).  [peer_lines] is the peer's
    stat.original_count. *)
Definition party_finalize (t : join_type) (self left : role) (bs : nat)
           (srt : list Line) (es : list kentry) (index_file : list (N * N)) (peer_lines : N)
  : outcome (list oline * stat_info) :=
  do (d, s) <- deal_result_index t self left bs srt es (sort_index_file index_file);
  Ok (generate_result t self left (d_int d) (d_exc d)
        (u32 (u64 (peer_lines + max64 - s_peer s))), s).

(** keys_unique tables (join_processor.cc 263-281): entries in file order, and the
    intersect file is sorted afterwards by all columns of the input table
    ([full_leb]). *)
Variable full_leb : Line -> Line -> bool.

Definition deal_result_index_unique (t : join_type) (self left : role) (bs : nat)
           (align : bool) (rows : list Line) (idx : list (N * N))
  : outcome (dumper * stat_info) :=
  let es := unique_key_info (map line_key rows) in
  do (d, s) <- apply_peer_dup_cnt (header :: rows)
       (chunks bs (map (fun e => (ke_start e, ke_dup e)) es)) idx (make_dumper t self left);
  if align && negb (s_join s =? 0) then
    let fi := option_map (fun f => match f with
                                   | [] => []
                                   | h :: b => h :: sort_by Line full_leb b
                                   end) (d_int d) in
    Ok (mk_dumper fi (d_exc d) (d_icnt d) (d_ecnt d), s)
  else Ok (d, s).

(** Finalize of a keys_unique party, broadcast on (interface.cc 145-180). *)
Definition unique_finalize (t : join_type) (self left : role) (bs : nat) (align : bool)
           (rows : list Line) (index_file : list (N * N)) (peer_lines : N)
  : outcome (list oline * stat_info) :=
  do (d, s) <- deal_result_index_unique t self left bs align rows (sort_index_file index_file);
  Ok (generate_result t self left (d_int d) (d_exc d)
        (u32 (u64 (peer_lines + max64 - s_peer s))), s).

End Join.

Arguments mk_kentry {Key} _ _ _.
Arguments ke_key {Key} _.
Arguments ke_start {Key} _.
Arguments ke_dup {Key} _.
Arguments mk_kst {Key} _ _ _ _ _.
Arguments ks_index {Key} _.
Arguments ks_cur {Key} _.
Arguments ks_start {Key} _.
Arguments ks_dup {Key} _.
Arguments ks_out {Key} _.
Arguments mk_dumper {Line} _ _ _ _.
Arguments d_int {Line} _.
Arguments d_exc {Line} _.
Arguments d_icnt {Line} _.
Arguments d_ecnt {Line} _.
Arguments mk_ast {Line} _ _ _ _ _ _.
Arguments a_file {Line} _.
Arguments a_idx {Line} _.
Arguments a_d {Line} _.
Arguments a_self {Line} _.
Arguments a_peer {Line} _.
Arguments a_uniq {Line} _.
Arguments OHead {Line}.
Arguments OLine {Line} _.
Arguments ONull {Line}.
Arguments key_info_make {Key} _ _ _.
Arguments kloop {Key} _ _ _.
Arguments kstep {Key} _ _ _.
Arguments kinit {Key} _.
Arguments kcount {Key} _ _.
Arguments unique_key_info {Key} _.
Arguments apply_peer_dup_cnt {Line} _ _ _ _ _.
Arguments apply_loop {Line} _ _ _ _.
Arguments apply_info {Line} _ _ _.
Arguments skip_except {Line} _ _ _.
Arguments take_intersect {Line} _ _ _ _ _.
Arguments drain {Line} _ _.
Arguments getline {Line} _ _.
Arguments dump {Line} _ _ _.
Arguments to_intersect {Line} _ _ _.
Arguments to_except {Line} _ _ _.
Arguments make_dumper {Line} _ _ _.
Arguments write_output {Line} _.
Arguments generate_result {Line} _ _ _ _ _ _.
Arguments insert_by {A} _ _ _.
Arguments sort_by {A} _ _.
Arguments sorted_rows {Key} {Line} _ _ _.
Arguments party_init {Key} _ _ {Line} _ _ _ _.
Arguments deal_result_index {Key} {Line} _ _ _ _ _ _ _ _ _.
Arguments party_finalize {Key} {Line} _ _ _ _ _ _ _ _ _ _.
Arguments deal_result_index_unique {Key} {Line} _ _ _ _ _ _ _ _ _ _ _.
Arguments unique_finalize {Key} {Line} _ _ _ _ _ _ _ _ _ _ _ _.

(** Finalize of both parties with result broadcast on (interface.cc 84-95,
    145-180): each sorts its table, deals with its index file, tells the other its
    number of rows (AllGatherItemsSize, line 170) and writes its output.  [rl] is
    the role of the party on the left side; the first table belongs to it. *)
Definition both_finalize {Key L R : Type} (keqb : Key -> Key -> bool) (empty_key : Key)
           (kleb : Key -> Key -> bool)
           (lempty lheader : L) (lkey : L -> Key) (rempty rheader : R) (rkey : R -> Key)
           (t : join_type) (rl rr : role) (bl br : nat) (ls : list L) (rs : list R)
           (fl fr : list (N * N))
  : outcome (list (oline L) * stat_info * list (oline R) * stat_info) :=
  do (srtl, esl, _) <- party_init keqb empty_key lkey kleb bl ls;
  do (srtr, esr, _) <- party_init keqb empty_key rkey kleb br rs;
  do (_, sl) <- deal_result_index lempty lheader t rl rl bl srtl esl (sort_index_file fl);
  do (_, sr) <- deal_result_index rempty rheader t rr rl br srtr esr (sort_index_file fr);
  do (ol, sl) <- party_finalize lempty lheader t rl rl bl srtl esl fl (s_original sr);
  do (or, sr) <- party_finalize rempty rheader t rr rl br srtr esr fr (s_original sl);
  Ok (ol, sl, or, sr).
