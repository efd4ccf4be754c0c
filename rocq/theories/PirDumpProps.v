(** C109: the life of a Spiral PIR server: what a dump holds, when it can be loaded, and what a server answers. *)
From Coq Require Import List NArith Bool Arith Lia.
From Verif Require Import Base StoreModel Text PirPackModel PirPackSpec PirPackProofs PirPackProofs2 PirPackProofs3
  PirPackProps PirDumpModel.
Import ListNotations.

(** A table of [rows] rows of [len] bytes. *)
Definition table_of (rows len : nat) (db : list bytes) : Prop :=
  length db = rows /\ forall r, In r db -> length r = len /\ Forall is_byte r.

(** The shape is one a server can be made for: its parameters exist, with [v] the sum of the dimensions. *)
Definition shape_ok (pt_coeffs : nat) (v0 : nat -> nat -> nat) (rows len v : nat) : Prop :=
  1 <= pt_coeffs /\ 1 <= rows /\ 1 <= len /\ v0 rows len <= 30
  /\ exists pts, update_dims pt_coeffs 8 (v0 rows len) rows len = Ok (v, pts) /\ (N.of_nat pts <= 2 ^ 30)%N.

Lemma dp_map_out_len : forall (A B : Type) (f : A -> outcome B) l r, map_out f l = Ok r -> length r = length l.
Proof.
  induction l as [|x l IH]; intros r E; cbn [map_out] in E; [injection E as <-; reflexivity|].
  destruct (f x); cbn [bind] in E; try discriminate. destruct (map_out f l) as [r'| | |]; cbn [bind] in E; try discriminate.
  injection E as <-. cbn [length]. f_equal. apply IH. reflexivity.
Qed.

Lemma dp_load_num : forall pc v flat single num parts, load_pts pc v flat single num = Ok parts ->
  length parts = num /\ length flat = num * single /\ single = pc * 2 ^ v.
Proof.
  intros pc v flat single num parts E. unfold load_pts in E.
  destruct (length flat =? num * single) eqn:E1; cbn [enforce] in E; [|discriminate].
  destruct (length flat =? num * 2 ^ v * pc) eqn:E2; cbn [enforce] in E; [|discriminate].
  destruct (single =? pc * 2 ^ v) eqn:E3; cbn [enforce] in E; [|discriminate].
  apply dp_map_out_len in E. rewrite seq_length in E.
  apply Nat.eqb_eq in E1. apply Nat.eqb_eq in E3. auto.
Qed.

Lemma dp_retrieve_num : forall pc rows len i parts r, 1 <= pc -> 1 <= len ->
  retrieve pc 8 rows len i parts = Ok r -> 1 <= length parts.
Proof.
  intros pc rows len i parts r Hpc Hl E. unfold retrieve in E.
  destruct (client_pt_index pc 8 rows len i) as [k| | |]; cbn [bind] in E; try discriminate.
  destruct (select_pts k parts) as [resp| | |] eqn:Es; cbn [bind] in E; try discriminate.
  apply dp_map_out_len in Es. unfold client_decode in E.
  destruct (max_byte_len pc 8 =? 0) eqn:E0; [discriminate|]. apply Nat.eqb_neq in E0.
  destruct (element_size pc 8 (Nat.min len (max_byte_len pc 8))); cbn [bind] in E; try discriminate.
  destruct (length resp =? (len + max_byte_len pc 8 - 1) / max_byte_len pc 8) eqn:E1; cbn [enforce] in E; [|discriminate].
  apply Nat.eqb_eq in E1. rewrite <- Es, E1. apply Nat.div_le_lower_bound; lia.
Qed.

Lemma dp_pts : forall pc v0 rows len v, shape_ok pc v0 rows len v ->
  exists es, element_size pc 8 (Nat.min len (max_byte_len pc 8)) = Ok es
    /\ update_dims pc 8 (v0 rows len) rows len = Ok (v, uint_num rows es) /\ (N.of_nat (uint_num rows es) <= 2 ^ 30)%N.
Proof.
  intros pc v0 rows len v (Hpc & Hr & Hl & Hv0 & pts & Hu & Hp).
  assert (Hmb : 1 <= max_byte_len pc 8) by (apply Nat.div_le_lower_bound; lia).
  destruct (update_dims_ok pc 8 ltac:(lia) (v0 rows len) rows len Hmb Hl Hv0) as (es & Ees & _).
  exists es. split; [exact Ees|].
  assert (Epts : pts = uint_num rows es).
  { unfold update_dims in Hu. rewrite Ees in Hu. cbn [bind] in Hu. destruct (uint_num rows es <=? 4); [congruence|].
    destruct (grow_dims 32 (v0 rows len) (uint_num rows es)); cbn [bind] in Hu; congruence. }
  subst pts. auto.
Qed.

(** What filling does to any server of the right shape. *)
Lemma dp_generate : forall pc v0 rows len v db s, shape_ok pc v0 rows len v -> table_of rows len db ->
  sv_rows s = rows -> sv_len s = len -> sv_v s = v ->
  exists flat single num parts pts,
    sv_generate pc s (RawDb rows len db)
      = Ok (SpServer rows len v pts single num (if len <=? max_byte_len pc 8 then flat else sv_flat s ++ flat) (sv_parts s) true)
    /\ update_dims pc 8 (v0 rows len) rows len = Ok (v, pts)
    /\ load_pts pc v flat single num = Ok parts /\ 1 <= num
    /\ forall i, i < rows -> retrieve pc 8 rows len i parts = Ok (nth i db []).
Proof.
  intros pc v0 rows len v db s Hs (Hn & Hdb) E1 E2 E3. destruct (dp_pts _ _ _ _ _ Hs) as (es & Ees & Hu & Hp).
  destruct Hs as (Hpc & Hr & Hl & Hv0 & _).
  destruct (C40_row_retrieval_dump pc rows len db (v0 rows len) v (uint_num rows es) Hpc Hl Hr Hn Hdb Hv0 Hu Hp)
    as (flat & single & num & parts & Eg & El & _ & R).
  exists flat, single, num, parts, (uint_num rows es).
  split.
  { unfold sv_generate, sv_pt_nums. rewrite E1, E2, E3, Eg. cbn [bind]. rewrite Ees. cbn [bind rd_db rd_len]. rewrite Hn. reflexivity. }
  split; [exact Hu|]. split; [exact El|]. split; [|exact R].
  destruct (dp_load_num _ _ _ _ _ _ El) as (<- & _). apply (dp_retrieve_num pc rows len 0 parts (nth 0 db []) Hpc Hl). apply R. lia.
Qed.

Lemma dp_reorient : forall pc v0 rows len v db s, shape_ok pc v0 rows len v -> table_of rows len db ->
  sv_rows s = rows -> sv_len s = len -> sv_v s = v ->
  exists parts pts,
    sv_reorient pc s (RawDb rows len db)
      = Ok (SpServer rows len v pts (sv_single s) (length parts) (sv_flat s)
             (if len <=? max_byte_len pc 8 then parts else sv_parts s ++ parts) true)
    /\ update_dims pc 8 (v0 rows len) rows len = Ok (v, pts) /\ length parts = (len + max_byte_len pc 8 - 1) / max_byte_len pc 8
    /\ 1 <= length parts
    /\ forall i, i < rows -> retrieve pc 8 rows len i parts = Ok (nth i db []).
Proof.
  intros pc v0 rows len v db s Hs (Hn & Hdb) E1 E2 E3. destruct (dp_pts _ _ _ _ _ Hs) as (es & Ees & Hu & Hp).
  destruct Hs as (Hpc & Hr & Hl & Hv0 & _).
  destruct (C40_row_retrieval pc 8 rows len db (v0 rows len) v (uint_num rows es) ltac:(lia) ltac:(lia) Hl Hr Hn Hdb Hv0 Hu Hp)
    as (parts & Eg & _ & R).
  exists parts, (uint_num rows es). split.
  { unfold sv_reorient, sv_pt_nums. rewrite E1, E2, E3, Eg. cbn [bind]. rewrite Ees. cbn [bind rd_db rd_len]. rewrite Hn. reflexivity. }
  split; [exact Hu|]. split; [|split; [|exact R]].
  - pose proof (R 0 ltac:(lia)) as E. unfold retrieve in E.
    destruct (client_pt_index pc 8 rows len 0) as [k| | |]; cbn [bind] in E; try discriminate.
    destruct (select_pts k parts) as [resp| | |] eqn:Es; cbn [bind] in E; try discriminate.
    apply dp_map_out_len in Es. unfold client_decode in E.
    destruct (max_byte_len pc 8 =? 0) eqn:E0; [discriminate|].
    destruct (element_size pc 8 (Nat.min len (max_byte_len pc 8))); cbn [bind] in E; try discriminate.
    destruct (length resp =? (len + max_byte_len pc 8 - 1) / max_byte_len pc 8) eqn:E4; cbn [enforce] in E; [|discriminate].
    apply Nat.eqb_eq in E4. congruence.
  - apply (dp_retrieve_num pc rows len 0 parts (nth 0 db []) Hpc Hl). apply R. lia.
Qed.

(** Fill, dump, load, ask: every row of the table comes back. *)
Theorem C109_dump_load : forall pc v0 rows len v db, shape_ok pc v0 rows len v -> table_of rows len db ->
  exists s p s', sv_generate pc (sv_new rows len v) (RawDb rows len db) = Ok s
    /\ sv_dump s = Ok p /\ sv_load pc v0 p = Ok s'
    /\ forall i, i < rows -> sv_ask pc s' i = Ok (nth i db []).
Proof.
  intros pc v0 rows len v db Hs Ht.
  destruct (dp_generate pc v0 rows len v db (sv_new rows len v) Hs Ht eq_refl eq_refl eq_refl)
    as (flat & single & num & parts & pts & Eg & Hu & El & Hnum & R).
  assert (Ef : (if len <=? max_byte_len pc 8 then flat else sv_flat (sv_new rows len v) ++ flat) = flat)
    by (destruct (len <=? max_byte_len pc 8); reflexivity).
  rewrite Ef in Eg. eexists _, _, _. split; [exact Eg|]. split; [reflexivity|].
  destruct (dp_load_num _ _ _ _ _ _ El) as (Hl & Hfl & _).
  split.
  - unfold sv_load. cbn [pr_rows pr_len pr_pts pr_v pr_single pr_num pr_flat sv_rows sv_len sv_pts sv_v sv_single sv_num sv_flat].
    rewrite Hu. cbn [bind]. rewrite !Nat.eqb_refl. cbn [enforce].
    replace (single * num =? length flat) with true by (symmetry; apply Nat.eqb_eq; lia). cbn [enforce].
    rewrite El. cbn [bind]. reflexivity.
  - intros i Hi. unfold sv_ask. cbn [sv_set sv_parts sv_num sv_rows sv_len enforce].
    rewrite Hl, Nat.ltb_irrefl, <- Hl, firstn_all. auto.
Qed.

(** A server that was not filled refuses to be dumped and to answer, whatever its shape. *)
Theorem C109_unfilled : forall pc rows len v i,
  sv_dump (sv_new rows len v) = Throw /\ sv_ask pc (sv_new rows len v) i = Throw.
Proof. intros. split; reflexivity. Qed.

(** A message with the sizes of a partition but without plaintexts is never loaded. *)
Lemma dp_no_data : forall pc v0 p, 1 <= pc -> 1 <= pr_num p -> pr_flat p = [] ->
  forall v pts, update_dims pc 8 (v0 (pr_rows p) (pr_len p)) (pr_rows p) (pr_len p) = Ok (v, pts) ->
  sv_load pc v0 p = Throw.
Proof.
  intros pc v0 p Hpc Hn Hf v pts Hu. unfold sv_load. rewrite Hu. cbn [bind].
  destruct (pts =? pr_pts p); cbn [enforce]; [|reflexivity].
  destruct (v =? pr_v p); cbn [enforce]; [|reflexivity].
  destruct (pr_single p * pr_num p =? length (pr_flat p)); cbn [enforce]; [|reflexivity].
  unfold load_pts. rewrite Hf. cbn [length].
  destruct (0 =? pr_num p * pr_single p); cbn [enforce]; [|reflexivity].
  replace (0 =? pr_num p * 2 ^ v * pc) with false; [reflexivity|].
  symmetry. apply Nat.eqb_neq. pose proof (Nat.pow_nonzero 2 v ltac:(lia)). intros E. symmetry in E.
  apply Nat.mul_eq_0 in E. destruct E as [E|E]; [|lia]. apply Nat.mul_eq_0 in E. lia.
Qed.

(** Whatever was loaded: dumping the loaded server succeeds, and that second dump is refused on loading. *)
Theorem C109_second_dump : forall pc v0 p s, 1 <= pc -> 1 <= pr_num p -> sv_load pc v0 p = Ok s ->
  exists p', sv_dump s = Ok p' /\ sv_load pc v0 p' = Throw.
Proof.
  intros pc v0 p s Hpc Hn E. unfold sv_load in E.
  destruct (update_dims pc 8 (v0 (pr_rows p) (pr_len p)) (pr_rows p) (pr_len p)) as [[v pts]| | |] eqn:Hu;
    cbn [bind] in E; try discriminate.
  destruct (pts =? pr_pts p); cbn [enforce] in E; [|discriminate].
  destruct (v =? pr_v p); cbn [enforce] in E; [|discriminate].
  destruct (pr_single p * pr_num p =? length (pr_flat p)); cbn [enforce] in E; [|discriminate].
  destruct (load_pts pc v (pr_flat p) (pr_single p) (pr_num p)); cbn [bind] in E; try discriminate.
  injection E as <-. eexists. split; [reflexivity|].
  apply dp_no_data with (v := v) (pts := pts); [exact Hpc|exact Hn|reflexivity|exact Hu].
Qed.

(** A server filled for dumping says that its database is set, and answering any query with it is undefined. *)
Theorem C109_ask_before_load : forall pc v0 rows len v db, shape_ok pc v0 rows len v -> table_of rows len db ->
  exists s, sv_generate pc (sv_new rows len v) (RawDb rows len db) = Ok s
    /\ sv_set s = true /\ forall i, sv_ask pc s i = UB.
Proof.
  intros pc v0 rows len v db Hs Ht.
  destruct (dp_generate pc v0 rows len v db (sv_new rows len v) Hs Ht eq_refl eq_refl eq_refl)
    as (flat & single & num & parts & pts & Eg & Hu & El & Hnum & R).
  eexists. split; [exact Eg|]. split; [reflexivity|]. intros i. unfold sv_ask.
  cbn [sv_set sv_parts sv_num enforce sv_new length]. replace (0 <? num) with true; [reflexivity|]. symmetry. apply Nat.ltb_lt. lia.
Qed.

(** A server filled for answering answers every row; it can be dumped, and the dump is refused on loading. *)
Theorem C109_reoriented : forall pc v0 rows len v db, shape_ok pc v0 rows len v -> table_of rows len db ->
  exists s p, sv_reorient pc (sv_new rows len v) (RawDb rows len db) = Ok s
    /\ (forall i, i < rows -> sv_ask pc s i = Ok (nth i db []))
    /\ sv_dump s = Ok p /\ sv_load pc v0 p = Throw.
Proof.
  intros pc v0 rows len v db Hs Ht.
  destruct (dp_reorient pc v0 rows len v db (sv_new rows len v) Hs Ht eq_refl eq_refl eq_refl)
    as (parts & pts & Eg & Hu & _ & Hnum & R).
  assert (Ef : (if len <=? max_byte_len pc 8 then parts else sv_parts (sv_new rows len v) ++ parts) = parts)
    by (destruct (len <=? max_byte_len pc 8); reflexivity).
  rewrite Ef in Eg. eexists _, _. split; [exact Eg|]. split; [|split; [reflexivity|]].
  - intros i Hi. unfold sv_ask. cbn [sv_set sv_parts sv_num sv_rows sv_len enforce].
    rewrite Nat.ltb_irrefl, firstn_all. auto.
  - destruct Hs as (Hpc & _). apply dp_no_data with (v := v) (pts := pts); [exact Hpc|exact Hnum|reflexivity|exact Hu].
Qed.

(** Both ways of filling one server, in this order: it answers, and its dump answers the same after loading. *)
Theorem C109_both : forall pc v0 rows len v db, shape_ok pc v0 rows len v -> table_of rows len db ->
  exists s1 s p s', sv_generate pc (sv_new rows len v) (RawDb rows len db) = Ok s1
    /\ sv_reorient pc s1 (RawDb rows len db) = Ok s
    /\ (forall i, i < rows -> sv_ask pc s i = Ok (nth i db []))
    /\ sv_dump s = Ok p /\ sv_load pc v0 p = Ok s'
    /\ forall i, i < rows -> sv_ask pc s' i = Ok (nth i db []).
Proof.
  intros pc v0 rows len v db Hs Ht.
  destruct (dp_generate pc v0 rows len v db (sv_new rows len v) Hs Ht eq_refl eq_refl eq_refl)
    as (flat & single & num & parts & pts & Eg & Hu & El & Hnum & R).
  assert (Ef : (if len <=? max_byte_len pc 8 then flat else sv_flat (sv_new rows len v) ++ flat) = flat)
    by (destruct (len <=? max_byte_len pc 8); reflexivity).
  rewrite Ef in Eg. eexists. 
  destruct (dp_reorient pc v0 rows len v db (SpServer rows len v pts single num flat [] true) Hs Ht eq_refl eq_refl eq_refl)
    as (parts' & pts' & Er & Hu' & Hlen & Hnum' & R').
  cbn [sv_parts sv_flat sv_single] in Er.
  assert (Ef' : (if len <=? max_byte_len pc 8 then parts' else [] ++ parts') = parts')
    by (destruct (len <=? max_byte_len pc 8); reflexivity).
  rewrite Ef' in Er. eexists _, _, _. split; [exact Eg|]. split; [exact Er|].
  destruct (dp_load_num _ _ _ _ _ _ El) as (Hl & Hfl & _).
  assert (En : num = length parts').
  { destruct Hs as (Hpc & Hr & Hlen1 & _). rewrite Hlen, <- Hl.
    pose proof (R 0 ltac:(lia)) as E. unfold retrieve in E.
    destruct (client_pt_index pc 8 rows len 0) as [k| | |]; cbn [bind] in E; try discriminate.
    destruct (select_pts k parts) as [resp| | |] eqn:Es; cbn [bind] in E; try discriminate.
    apply dp_map_out_len in Es. unfold client_decode in E.
    destruct (max_byte_len pc 8 =? 0) eqn:E0; [discriminate|].
    destruct (element_size pc 8 (Nat.min len (max_byte_len pc 8))); cbn [bind] in E; try discriminate.
    destruct (length resp =? (len + max_byte_len pc 8 - 1) / max_byte_len pc 8) eqn:E4; cbn [enforce] in E; [|discriminate].
    apply Nat.eqb_eq in E4. congruence. }
  split; [|split; [reflexivity|split]].
  - intros i Hi. unfold sv_ask. cbn [sv_set sv_parts sv_num sv_rows sv_len enforce].
    rewrite Nat.ltb_irrefl, firstn_all. auto.
  - unfold sv_load. cbn [pr_rows pr_len pr_pts pr_v pr_single pr_num pr_flat sv_rows sv_len sv_pts sv_v sv_single sv_num sv_flat].
    rewrite Hu'. cbn [bind]. rewrite !Nat.eqb_refl. cbn [enforce]. rewrite <- En.
    replace (single * num =? length flat) with true by (symmetry; apply Nat.eqb_eq; lia). cbn [enforce].
    rewrite El. cbn [bind]. reflexivity.
  - intros i Hi. unfold sv_ask. cbn [sv_set sv_parts sv_num sv_rows sv_len enforce].
    rewrite Hl, Nat.ltb_irrefl, <- Hl, firstn_all. auto.
Qed.

(** Filling a server a second time: rows that fit a plaintext are replaced, longer ones are not; every answer
    then comes from the first table. *)
Theorem C109_refill : forall pc v0 rows len v db1 db2, shape_ok pc v0 rows len v ->
  table_of rows len db1 -> table_of rows len db2 ->
  exists s1 s2, sv_reorient pc (sv_new rows len v) (RawDb rows len db1) = Ok s1
    /\ sv_reorient pc s1 (RawDb rows len db2) = Ok s2
    /\ forall i, i < rows -> sv_ask pc s2 i = Ok (nth i (if len <=? pc then db2 else db1) []).
Proof.
  intros pc v0 rows len v db1 db2 Hs H1 H2.
  destruct (dp_reorient pc v0 rows len v db1 (sv_new rows len v) Hs H1 eq_refl eq_refl eq_refl)
    as (q1 & pts1 & E1 & _ & L1 & _ & R1).
  cbn [sv_parts sv_new app sv_flat sv_single] in E1. eexists.
  destruct (dp_reorient pc v0 rows len v db2
     (SpServer rows len v pts1 0 (length q1) [] (if len <=? max_byte_len pc 8 then q1 else q1) true) Hs H2 eq_refl eq_refl eq_refl)
    as (q2 & pts2 & E2 & _ & L2 & _ & R2).
  cbn [sv_parts sv_flat sv_single] in E2. eexists. split; [exact E1|]. split; [exact E2|].
  intros i Hi. unfold sv_ask. cbn [sv_set sv_parts sv_num sv_rows sv_len enforce].
  replace (max_byte_len pc 8) with pc by (unfold max_byte_len; rewrite Nat.div_mul; lia).
  destruct (len <=? pc).
  - rewrite Nat.ltb_irrefl, firstn_all. auto.
  - replace (length (q1 ++ q2) <? length q2) with false by (symmetry; apply Nat.ltb_ge; rewrite app_length; lia).
    replace (length q2) with (length q1) by congruence.
    rewrite firstn_app, Nat.sub_diag, firstn_all. cbn [firstn]. rewrite app_nil_r. auto.
Qed.

(** Filling for dumping a second time: with rows longer than a plaintext the dump is refused on loading. *)
Theorem C109_refill_dump : forall pc v0 rows len v db1 db2, shape_ok pc v0 rows len v ->
  table_of rows len db1 -> table_of rows len db2 ->
  exists s1 s2 p, sv_generate pc (sv_new rows len v) (RawDb rows len db1) = Ok s1
    /\ sv_generate pc s1 (RawDb rows len db2) = Ok s2 /\ sv_dump s2 = Ok p
    /\ if len <=? pc
       then exists s, sv_load pc v0 p = Ok s /\ forall i, i < rows -> sv_ask pc s i = Ok (nth i db2 [])
       else sv_load pc v0 p = Throw.
Proof.
  intros pc v0 rows len v db1 db2 Hs H1 H2.
  destruct (dp_generate pc v0 rows len v db1 (sv_new rows len v) Hs H1 eq_refl eq_refl eq_refl)
    as (f1 & g1 & n1 & q1 & pts1 & E1 & _ & L1 & N1 & _).
  cbn [sv_parts sv_new app sv_flat sv_single] in E1. eexists.
  destruct (dp_generate pc v0 rows len v db2 (SpServer rows len v pts1 g1 n1 (if len <=? max_byte_len pc 8 then f1 else f1) [] true)
     Hs H2 eq_refl eq_refl eq_refl) as (f2 & g2 & n2 & q2 & pts2 & E2 & Hu & L2 & N2 & R2).
  cbn [sv_parts sv_flat sv_single] in E2. eexists _, _. split; [exact E1|]. split; [exact E2|]. split; [reflexivity|].
  destruct (dp_load_num _ _ _ _ _ _ L1) as (A1 & B1 & C1). destruct (dp_load_num _ _ _ _ _ _ L2) as (A2 & B2 & C2).
  unfold sv_load. cbn [pr_rows pr_len pr_pts pr_v pr_single pr_num pr_flat sv_rows sv_len sv_pts sv_v sv_single sv_num sv_flat].
  rewrite Hu. cbn [bind]. rewrite !Nat.eqb_refl. cbn [enforce].
  replace (max_byte_len pc 8) with pc by (unfold max_byte_len; rewrite Nat.div_mul; lia).
  destruct (len <=? pc).
  - replace (g2 * n2 =? length f2) with true by (symmetry; apply Nat.eqb_eq; lia). cbn [enforce].
    rewrite L2. cbn [bind]. eexists. split; [reflexivity|].
    intros i Hi. unfold sv_ask. cbn [sv_set sv_parts sv_num sv_rows sv_len enforce].
    rewrite A2, Nat.ltb_irrefl, <- A2, firstn_all. auto.
  - replace (g2 * n2 =? length (f1 ++ f2)) with false; [reflexivity|]. symmetry. apply Nat.eqb_neq. rewrite app_length, B1, B2.
    assert (1 <= g1) by (rewrite C1; destruct Hs as (Hpc & _); pose proof (Nat.pow_nonzero 2 v ltac:(lia)); nia). nia.
Qed.

(** What is loaded from any message: its sizes are those of the default parameters for its table, and the plaintexts
    fill every partition, so no query reads past them. *)
Theorem C109_loaded_asks_inside : forall pc v0 p s, sv_load pc v0 p = Ok s ->
  sv_set s = true /\ length (sv_parts s) = sv_num s
  /\ sv_rows s = pr_rows p /\ sv_len s = pr_len p
  /\ update_dims pc 8 (v0 (pr_rows p) (pr_len p)) (pr_rows p) (pr_len p) = Ok (pr_v p, pr_pts p)
  /\ length (pr_flat p) = pr_num p * (pc * 2 ^ pr_v p).
Proof.
  intros pc v0 p s E. unfold sv_load in E.
  destruct (update_dims pc 8 (v0 (pr_rows p) (pr_len p)) (pr_rows p) (pr_len p)) as [[v pts]| | |] eqn:Hu;
    cbn [bind] in E; try discriminate.
  destruct (pts =? pr_pts p) eqn:Ep; cbn [enforce] in E; [|discriminate]. apply Nat.eqb_eq in Ep.
  destruct (v =? pr_v p) eqn:Ev; cbn [enforce] in E; [|discriminate]. apply Nat.eqb_eq in Ev.
  destruct (pr_single p * pr_num p =? length (pr_flat p)); cbn [enforce] in E; [|discriminate].
  destruct (load_pts pc v (pr_flat p) (pr_single p) (pr_num p)) as [parts| | |] eqn:El; cbn [bind] in E; try discriminate.
  injection E as <-. destruct (dp_load_num _ _ _ _ _ _ El) as (A & B & C).
  cbn [sv_set sv_parts sv_num sv_rows sv_len]. subst pts v. repeat split; auto. rewrite B, C. reflexivity.
Qed.

(** Dumping a server and loading it keeps its answers: false for every server that was loaded itself. *)
Theorem C109_dump_keeps_answers_refuted : exists pc v0 p s r,
  sv_load pc v0 p = Ok s /\ sv_ask pc s 1 = Ok r
  /\ exists p', sv_dump s = Ok p' /\ sv_load pc v0 p' = Throw.
Proof.
  exists 4, (fun _ _ => 0).
  exists (SpProto 2 2 1 3 32 1 ([7; 8; 9; 10] ++ repeat 1 28)%N).
  eexists _, _. split; [vm_compute; reflexivity|]. split; [vm_compute; reflexivity|].
  eexists. split; [reflexivity|]. vm_compute. reflexivity.
Qed.

(** Five rows of three bytes in plaintexts of two: two partitions, five plaintexts, three dimensions. *)
Example C109_example :
  let db := [[1; 2; 3]; [4; 5; 6]; [7; 8; 9]; [10; 11; 12]; [13; 14; 255]]%N in
  let v0 := fun _ _ : nat => 1 in
  shape_ok 2 v0 5 3 3 /\ table_of 5 3 db
  /\ (do s <- sv_generate 2 (sv_new 5 3 3) (RawDb 5 3 db); do p <- sv_dump s; do s' <- sv_load 2 v0 p; sv_ask 2 s' 4)
     = Ok [13; 14; 255]%N
  /\ (do s <- sv_generate 2 (sv_new 5 3 3) (RawDb 5 3 db); sv_ask 2 s 4) = UB
  /\ (do s <- sv_reorient 2 (sv_new 5 3 3) (RawDb 5 3 db); do s2 <- sv_reorient 2 s (RawDb 5 3 (rev db)); sv_ask 2 s2 4)
     = Ok [13; 14; 255]%N
  /\ sv_dump (sv_new 5 3 3) = Throw.
Proof.
  cbv zeta. split; [|split; [|repeat split; vm_compute; reflexivity]].
  - unfold shape_ok. repeat split; try lia. exists 5. split; [vm_compute; reflexivity|vm_compute; discriminate].
  - split; [reflexivity|]. intros r Hr. cbn [In] in Hr.
    repeat match goal with H : _ \/ _ |- _ => destruct H as [<- | H] | H : False |- _ => destruct H end;
    (split; [reflexivity|repeat constructor]).
Qed.

Print Assumptions C109_dump_load.
Print Assumptions C109_unfilled.
Print Assumptions C109_second_dump.
Print Assumptions C109_ask_before_load.
Print Assumptions C109_reoriented.
Print Assumptions C109_both.
Print Assumptions C109_refill.
Print Assumptions C109_refill_dump.
Print Assumptions C109_loaded_asks_inside.
Print Assumptions C109_dump_keeps_answers_refuted.
