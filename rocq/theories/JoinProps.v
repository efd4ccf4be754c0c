(** Properties C01-C07: table and join stage. *)
From Coq Require Import List NArith Lia Bool Permutation Sorted Arith.
From Verif Require Import Base JoinModel JoinSpec JoinProofs7 JoinProofs8.
Import ListNotations.

(** C01.  [R] is the order the table was sorted by; [bs] the batches the reader
    hands out. *)
Theorem C01_key_summary_exact :
  forall (Key : Type) (keqb : Key -> Key -> bool)
         (keqb_spec : forall a b, keqb a b = true <-> a = b) (empty_key : Key)
         (R : Key -> Key -> Prop) (R_anti : forall x y, R x y -> R y x -> x = y)
         (keys : list Key) (bs : list (list Key)) es m,
  concat bs = keys -> Forall (fun b => b <> []) bs -> keys <> [] ->
  (N.of_nat (length keys) < max32)%N -> StronglySorted R keys ->
  key_info_make keqb empty_key bs = (es, m) ->
  (forall k, In k keys <-> In k (map ke_key es)) /\
  NoDup (map ke_key es) /\
  (forall e j, In e es ->
     ((ke_start e <= N.of_nat j <= ke_start e + ke_dup e)%N <-> nth_error keys j = Some (ke_key e))) /\
  StronglySorted N.lt (map ke_start es) /\
  km_origin m = N.of_nat (length keys) /\
  km_unique m = N.of_nat (length (distinct keqb keys)) /\
  km_dup m = N.of_nat (length (filter (fun k => 1 <? key_count keqb (fun x => x) k keys) (distinct keqb keys))).
Proof. exact key_info_full. Qed.
Print Assumptions C01_key_summary_exact.

Example C01_example :
  let bs := [[1; 1]; [1; 2; 3]; [3]]%N in
  concat bs = [1; 1; 1; 2; 3; 3]%N /\ Forall (fun b => b <> []) bs /\
  StronglySorted N.le (concat bs) /\
  key_info_make N.eqb 0%N bs =
    ([mk_kentry 1 0 2; mk_kentry 2 3 0; mk_kentry 3 4 1]%N, mk_kmeta 2 3 6).
Proof.
  split; [reflexivity|]. split; [repeat constructor; discriminate|]. split; [|reflexivity].
  simpl. repeat constructor; lia.
Qed.

(** C02.  The result stage on a valid index list. *)
Theorem C02_result_split_exact :
  forall (Key : Type) (keqb : Key -> Key -> bool)
         (keqb_spec : forall a b, keqb a b = true <-> a = b) (empty_key : Key)
         (Line : Type) (empty_line header : Line) (line_key : Line -> Key)
         (R : Key -> Key -> Prop) (R_anti : forall x y, R x y -> R y x -> x = y)
         (rows : list Line) (kb : list (list Key)) es m (pb : list (list (N * N)))
         (idx : list (N * N)) t self left,
  concat kb = map line_key rows -> Forall (fun b => b <> []) kb -> rows <> [] ->
  (N.of_nat (length rows) < max32)%N -> StronglySorted R (map line_key rows) ->
  key_info_make keqb empty_key kb = (es, m) ->
  concat pb = map (fun e => (ke_start e, ke_dup e)) es -> Forall (fun b => b <> []) pb ->
  Forall (fun ip => (snd ip < max32)%N) idx ->
  valid_index (length (distinct keqb (map line_key rows))) idx ->
  let mult := listed_mult keqb (distinct keqb (map line_key rows)) idx in
  exists d s,
    apply_peer_dup_cnt empty_line (header :: rows) pb idx (make_dumper t self left) = Ok (d, s) /\
    d_int d = (if has_intersect t then Some (header :: intersect_rows line_key mult rows) else None) /\
    d_exc d = (if has_except t self left then Some (header :: except_rows line_key mult rows) else None) /\
    s_original s = N.of_nat (length rows) /\
    s_self s = N.of_nat (length (filter (fun r => negb (Nat.eqb (mult (line_key r)) 0)) rows)) /\
    s_peer s = u32 (fold_right (fun ip a => snd ip + 1 + a)%N 0%N idx) /\
    s_uniq s = N.of_nat (length idx) /\
    s_join s = u32 (N.of_nat (length (intersect_rows line_key mult rows))).
Proof. exact result_split. Qed.
Print Assumptions C02_result_split_exact.

(** Rows are (key, value); keys 1,1,2,3; the index list names key positions 0
    (peer multiplicity 2) and 2 (peer multiplicity 1). *)
Example C02_example :
  let rows := [(1, 10); (1, 11); (2, 20); (3, 30)]%N in
  valid_index (length (distinct N.eqb (map fst rows))) [(0, 1); (2, 0)]%N /\
  apply_peer_dup_cnt (0, 0)%N ((0, 0)%N :: rows) [[(0, 1); (2, 0)]; [(3, 0)]]%N [(0, 1); (2, 0)]%N
      (make_dumper JFull RoleSender RoleSender) =
  Ok (mk_dumper (Some [(0, 0); (1, 10); (1, 10); (1, 11); (1, 11); (3, 30)]%N)
                (Some [(0, 0); (2, 20)]%N) 6 2, mk_stat 3 3 4 5 2).
Proof.
  split; [|vm_compute; reflexivity].
  vm_compute. repeat constructor.
Qed.

(** C03.  Everything else is rejected with an exception (and by C02 a valid list
    is accepted). *)
Theorem C03_corrupt_index_rejected :
  forall (Key : Type) (keqb : Key -> Key -> bool)
         (keqb_spec : forall a b, keqb a b = true <-> a = b) (empty_key : Key)
         (Line : Type) (empty_line header : Line) (line_key : Line -> Key)
         (R : Key -> Key -> Prop) (R_anti : forall x y, R x y -> R y x -> x = y)
         (rows : list Line) (kb : list (list Key)) es m (pb : list (list (N * N)))
         (idx : list (N * N)) d0,
  concat kb = map line_key rows -> Forall (fun b => b <> []) kb -> rows <> [] ->
  (N.of_nat (length rows) < max32)%N -> StronglySorted R (map line_key rows) ->
  key_info_make keqb empty_key kb = (es, m) ->
  concat pb = map (fun e => (ke_start e, ke_dup e)) es -> Forall (fun b => b <> []) pb ->
  ~ valid_index (length (distinct keqb (map line_key rows))) idx ->
  apply_peer_dup_cnt empty_line (header :: rows) pb idx d0 = Throw.
Proof. exact result_rejects. Qed.
Print Assumptions C03_corrupt_index_rejected.

Example C03_example :
  let rows := [(1, 10); (1, 11); (2, 20); (3, 30)]%N in
  ~ valid_index (length (distinct N.eqb (map fst rows))) [(0, 1); (1, 0); (1, 0)]%N /\
  apply_peer_dup_cnt (0, 0)%N ((0, 0)%N :: rows) [[(0, 1); (2, 0)]; [(3, 0)]]%N
      [(0, 1); (1, 0); (1, 0)]%N (make_dumper JFull RoleSender RoleSender) = Throw /\
  apply_peer_dup_cnt (0, 0)%N ((0, 0)%N :: rows) [[(0, 1); (2, 0)]; [(3, 0)]]%N
      [(0, 1); (3, 0)]%N (make_dumper JFull RoleSender RoleSender) = Throw.
Proof.
  split; [|split; vm_compute; reflexivity].
  intros [H _]. simpl in H. inversion H as [|? ? H1 _]; subst. inversion H1 as [|? ? _ H2]; subst.
  inversion H2 as [|? ? H3 _]; subst. lia.
Qed.

(** C04.  Both outputs, with the index files of an exact PSI in any order. *)
Theorem C04_outputs_aligned :
  forall (Key : Type) (keqb : Key -> Key -> bool)
         (keqb_spec : forall a b, keqb a b = true <-> a = b) (empty_key : Key)
         (kleb : Key -> Key -> bool)
         (kleb_total : forall x y, kleb x y = true \/ kleb y x = true)
         (kleb_trans : forall x y z, kleb x y = true -> kleb y z = true -> kleb x z = true)
         (kleb_anti : forall x y, kleb x y = true -> kleb y x = true -> x = y)
         (L R : Type) (lempty lheader : L) (rempty rheader : R) (lkey : L -> Key) (rkey : R -> Key)
         t rl rr bl br (ls : list L) (rs : list R) fl fr,
  rl <> rr -> 0 < bl -> 0 < br -> ls <> [] -> rs <> [] ->
  (N.of_nat (length ls) < max32)%N -> (N.of_nat (length rs) < max32)%N ->
  Permutation fl (exact_index keqb rkey (distinct keqb (map lkey (sorted_rows lkey kleb ls))) rs) ->
  Permutation fr (exact_index keqb lkey (distinct keqb (map rkey (sorted_rows rkey kleb rs))) ls) ->
  exists ol sl or sr,
    both_finalize keqb empty_key kleb lempty lheader lkey rempty rheader rkey t rl rr bl br ls rs fl fr
      = Ok (ol, sl, or, sr) /\
    hd_error ol = Some OHead /\ hd_error or = Some OHead /\
    Forall2 (lines_match lkey rkey) (body ol) (body or).
Proof. exact both_join. Qed.
Print Assumptions C04_outputs_aligned.

(** C05.  Each output is the projection of the SQL join. *)
Theorem C05_outputs_project_sql_join :
  forall (Key : Type) (keqb : Key -> Key -> bool)
         (keqb_spec : forall a b, keqb a b = true <-> a = b) (empty_key : Key)
         (kleb : Key -> Key -> bool)
         (kleb_total : forall x y, kleb x y = true \/ kleb y x = true)
         (kleb_trans : forall x y z, kleb x y = true -> kleb y z = true -> kleb x z = true)
         (kleb_anti : forall x y, kleb x y = true -> kleb y x = true -> x = y)
         (L R : Type) (lempty lheader : L) (rempty rheader : R) (lkey : L -> Key) (rkey : R -> Key)
         t rl rr bl br (ls : list L) (rs : list R) fl fr,
  rl <> rr -> 0 < bl -> 0 < br -> ls <> [] -> rs <> [] ->
  (N.of_nat (length ls) < max32)%N -> (N.of_nat (length rs) < max32)%N ->
  Permutation fl (exact_index keqb rkey (distinct keqb (map lkey (sorted_rows lkey kleb ls))) rs) ->
  Permutation fr (exact_index keqb lkey (distinct keqb (map rkey (sorted_rows rkey kleb rs))) ls) ->
  exists ol sl or sr,
    both_finalize keqb empty_key kleb lempty lheader lkey rempty rheader rkey t rl rr bl br ls rs fl fr
      = Ok (ol, sl, or, sr) /\
    Permutation (body ol) (map fst (sql_join keqb lkey rkey t ls rs)) /\
    Permutation (body or) (map snd (sql_join keqb lkey rkey t ls rs)).
Proof. exact both_sql. Qed.
Print Assumptions C05_outputs_project_sql_join.

(** Full join: left keys 2,1,2,5 and right keys 2,3,1; the index files are
    given out of order. *)
Example C04_C05_example :
  let ls := [(2, 10); (1, 11); (2, 12); (5, 13)]%N in
  let rs := [(2, 20); (3, 21); (1, 22)]%N in
  Permutation [(1, 0); (0, 0)]%N
    (exact_index N.eqb fst (distinct N.eqb (map fst (sorted_rows (@fst N N) N.leb ls))) rs) /\
  Permutation [(1, 1); (0, 0)]%N
    (exact_index N.eqb fst (distinct N.eqb (map fst (sorted_rows (@fst N N) N.leb rs))) ls) /\
  both_finalize N.eqb 0%N N.leb (0, 0)%N (0, 0)%N fst (0, 0)%N (0, 0)%N fst JFull
    RoleReceiver RoleSender 2 3 ls rs [(1, 0); (0, 0)]%N [(1, 1); (0, 0)]%N =
  Ok ([OHead; OLine (1, 11); OLine (2, 10); OLine (2, 12); OLine (5, 13); ONull]%N, mk_stat 3 2 4 3 2,
      [OHead; OLine (1, 22); OLine (2, 20); OLine (2, 20); ONull; OLine (3, 21)]%N, mk_stat 2 3 3 3 2).
Proof.
  split; [vm_compute; apply perm_swap|]. split; [vm_compute; apply perm_swap|].
  vm_compute. reflexivity.
Qed.

(** C06.  Pasting line by line is not the SQL join when a key repeats on both
    sides ... *)
Theorem C06_paste_is_sql_join_refuted :
  exists ol sl or sr,
    both_finalize N.eqb 0%N N.leb (0, 0)%N (0, 0)%N fst (0, 0)%N (0, 0)%N fst JInner RoleReceiver RoleSender 2 2
      [(7, 1); (7, 2)]%N [(7, 11); (7, 12)]%N [(0, 1)]%N [(0, 1)]%N = Ok (ol, sl, or, sr) /\
    ~ Permutation (combine (body ol) (body or))
        (sql_join N.eqb fst fst JInner [(7, 1); (7, 2)]%N [(7, 11); (7, 12)]%N).
Proof. exact paste_witness. Qed.
Print Assumptions C06_paste_is_sql_join_refuted.

(** ... but it is when the keys of one of the two tables are unique. *)
Theorem C06_paste_is_sql_join_partial :
  forall (Key : Type) (keqb : Key -> Key -> bool)
         (keqb_spec : forall a b, keqb a b = true <-> a = b) (empty_key : Key)
         (kleb : Key -> Key -> bool)
         (kleb_total : forall x y, kleb x y = true \/ kleb y x = true)
         (kleb_trans : forall x y z, kleb x y = true -> kleb y z = true -> kleb x z = true)
         (kleb_anti : forall x y, kleb x y = true -> kleb y x = true -> x = y)
         (L R : Type) (lempty lheader : L) (rempty rheader : R) (lkey : L -> Key) (rkey : R -> Key)
         t rl rr bl br (ls : list L) (rs : list R) fl fr,
  rl <> rr -> 0 < bl -> 0 < br -> ls <> [] -> rs <> [] ->
  (N.of_nat (length ls) < max32)%N -> (N.of_nat (length rs) < max32)%N ->
  Permutation fl (exact_index keqb rkey (distinct keqb (map lkey (sorted_rows lkey kleb ls))) rs) ->
  Permutation fr (exact_index keqb lkey (distinct keqb (map rkey (sorted_rows rkey kleb rs))) ls) ->
  NoDup (map lkey ls) \/ NoDup (map rkey rs) ->
  exists ol sl or sr,
    both_finalize keqb empty_key kleb lempty lheader lkey rempty rheader rkey t rl rr bl br ls rs fl fr
      = Ok (ol, sl, or, sr) /\
    Permutation (combine (body ol) (body or)) (sql_join keqb lkey rkey t ls rs).
Proof. exact both_paste. Qed.
Print Assumptions C06_paste_is_sql_join_partial.

(** The tables of [C04_C05_example] meet the hypotheses: the right keys are
    unique. *)
Example C06_example : NoDup (map fst [(2, 20); (3, 21); (1, 22)]%N).
Proof. repeat constructor; simpl; intuition congruence. Qed.

(** C07.  With keys_unique the outputs need not be aligned: the left party has the
    value column before the key column. *)
Theorem C07_unique_outputs_aligned_refuted :
  exists ol sl or sr,
    unique_finalize (0, 0)%N snd (0, 0)%N nleb JInner RoleReceiver RoleReceiver 2 true
      [(9, 1); (8, 2)]%N [(0, 0); (1, 0)]%N 2 = Ok (ol, sl) /\
    unique_finalize (0, 0)%N fst (0, 0)%N nleb JInner RoleSender RoleReceiver 2 true
      [(1, 5); (2, 6)]%N [(0, 0); (1, 0)]%N 2 = Ok (or, sr) /\
    map (option_map snd) (body ol) <> map (option_map fst) (body or).
Proof. exact unique_witness. Qed.
Print Assumptions C07_unique_outputs_aligned_refuted.

(** They are if the order of the complete lines refines the order of the keys
    (key columns first on both sides). *)
Theorem C07_unique_outputs_aligned_partial :
  forall (Key : Type) (keqb : Key -> Key -> bool)
         (keqb_spec : forall a b, keqb a b = true <-> a = b)
         (kleb : Key -> Key -> bool)
         (kleb_anti : forall x y, kleb x y = true -> kleb y x = true -> x = y)
         (L R : Type) (lempty lheader : L) (rempty rheader : R) (lkey : L -> Key) (rkey : R -> Key)
         (lleb : L -> L -> bool) (rleb : R -> R -> bool)
         rl rr bl br (ls : list L) (rs : list R) fl fr nl nr,
  0 < bl -> 0 < br -> NoDup (map lkey ls) -> NoDup (map rkey rs) ->
  (N.of_nat (length ls) < max32)%N -> (N.of_nat (length rs) < max32)%N ->
  Permutation fl (exact_index keqb rkey (map lkey ls) rs) ->
  Permutation fr (exact_index keqb lkey (map rkey rs) ls) ->
  (forall x y, lleb x y = true \/ lleb y x = true) ->
  (forall x y z, lleb x y = true -> lleb y z = true -> lleb x z = true) ->
  (forall x y, lleb x y = true -> kleb (lkey x) (lkey y) = true) ->
  (forall x y, rleb x y = true \/ rleb y x = true) ->
  (forall x y z, rleb x y = true -> rleb y z = true -> rleb x z = true) ->
  (forall x y, rleb x y = true -> kleb (rkey x) (rkey y) = true) ->
  exists ol sl or sr,
    unique_finalize lempty lkey lheader lleb JInner rl rl bl true ls fl nl = Ok (ol, sl) /\
    unique_finalize rempty rkey rheader rleb JInner rr rl br true rs fr nr = Ok (or, sr) /\
    map (option_map lkey) (body ol) = map (option_map rkey) (body or).
Proof. exact unique_both. Qed.
Print Assumptions C07_unique_outputs_aligned_partial.

Example C07_example :
  let ls := [(4, 1); (2, 7)]%N in let rs := [(2, 3); (5, 5); (4, 4)]%N in
  exact_index N.eqb fst (map fst ls) rs = [(0, 0); (1, 0)]%N /\
  exact_index N.eqb fst (map fst rs) ls = [(0, 0); (2, 0)]%N /\
  omap (fun r => body (fst r))
    (unique_finalize (0, 0)%N fst (0, 0)%N nleb JInner RoleReceiver RoleReceiver 2 true ls [(1, 0); (0, 0)]%N 3)
    = Ok [Some (2, 7); Some (4, 1)]%N /\
  omap (fun r => body (fst r))
    (unique_finalize (0, 0)%N fst (0, 0)%N nleb JInner RoleSender RoleReceiver 2 true rs [(0, 0); (2, 0)]%N 2)
    = Ok [Some (2, 3); Some (4, 4)]%N.
Proof. vm_compute. repeat split. Qed.
