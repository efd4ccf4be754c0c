(** C94: a grouped APSI database opened again: after a crash, with other settings, with another source. *)
From Coq Require Import List NArith Lia Bool Arith Permutation.
From Verif Require Import Base Text TextProofs StoreModel GroupDbModel GroupDbSpec GroupDbProofs GroupDbProps GdfModel GdfSpec GdfProofs.
Import ListNotations.

(** Generate stopped after [n] steps, with [tail] bytes of the database file still in memory while
    the meta file is written: if the meta file had not been created yet, or if everything but the
    last line end was on disk, every bucket of the group is found with exactly its rows. *)
Theorem C94_interrupted :
  forall (hash : bytes -> N) (DB : Type) build ser deser map_order meta_order,
  (forall d rest, deser (ser d ++ rest) = Some d) ->
  (forall m, Permutation m (map_order m)) -> (forall m, Permutation m (meta_order m)) ->
  forall nb ng table disk g src, wide nb ng -> table <> [] -> NoDup (map fst table) ->
  divide_group hash nb ng table (fresh_disk ng) = Ok disk -> nth_error (gd_files disk) g = Some src ->
  exists d, generate DB build ser map_order (per_group nb ng) src = Ok d /\
  ((N.of_nat (length (snd d)) < 18446744073709551616)%N ->
   let db := fst (gen_files meta_order d) in let meta := snd (gen_files meta_order d) in
   forall tail n b, n <= 1 + (length db - tail) \/ length db + length meta + 2 <= n \/ tail = 0 /\ length db + length meta + 1 <= n ->
   (b < nb)%N -> group_of nb ng b = Ok (N.of_nat g) ->
   reopen DB build ser deser map_order (per_group nb ng) src (gen_crash db meta tail n) b =
     Ok (bucket_db build (bucket_rows hash nb table b))).
Proof.
  intros hash DB build ser deser mo meo DS P1 P2 nb ng table disk g src W NE ND HD HS.
  destruct (divided_files hash nb ng table W NE) as (disk' & E & _ & HL & HF). rewrite E in HD. injection HD as ->.
  assert (G : g < N.to_nat ng) by (rewrite <- HL; apply nth_error_Some; congruence).
  rewrite (HF g G) in HS. injection HS as <-.
  destruct (generate_ok hash DB build ser deser DS mo P1 nb ng g table W ND) as (d & EG & LG & LB).
  exists d. split; [exact EG|]. intros LD db meta tail n b HN HB HG.
  assert (PG : (b / per_group nb ng)%N = N.of_nat g).
  { unfold group_of, enforce in HG. destruct (b <? nb)%N; [now injection HG|discriminate]. }
  assert (PB : (per_group nb ng < 18446744073709551616)%N).
  { destruct W as [_ [W3 W4]]. unfold per_group. eapply N.le_lt_trans with (u64 (nb + ng - 1)).
    - apply N.div_le_upper_bound; [lia|]. rewrite <- (N.mul_1_l (u64 (nb + ng - 1))) at 1. apply N.mul_le_mono_r. lia.
    - unfold u64. apply N.mod_lt. discriminate. }
  specialize (LB b (mk_gitem [] (Some d)) PG eq_refl). unfold load_bucket in LB. cbn [gi_db] in LB.
  assert (OB : open_bucket DB deser (snd d) (wide_entries d) b = bucket_db build (bucket_rows hash nb table b)).
  { unfold open_bucket, wide_entries. rewrite assoc_wide. destruct d as [os f]. cbn [fst snd] in *.
    unfold bucket_rows. rewrite <- (at_key_tagged hash nb table b).
    destruct (assoc b os) as [o|]; cbn [option_map].
    - rewrite Nnat.Nat2N.id. destruct (deser (skipn o f)); [injection LB as ->; reflexivity|].
      try discriminate; try (injection LB as ->; reflexivity).
    - injection LB as ->. reflexivity. }
  rewrite <- OB. apply reopen_files with (meta_order := meo); try assumption.
  - intros c r [I|I]; [discriminate|]. apply in_map_iff in I. destruct I as ([c' r'] & I & J). cbn [fst snd] in I. injection I as -> ->.
    unfold group_rows in J. apply filter_In in J. destruct J as [J _]. unfold tagged in J. apply in_map_iff in J.
    destruct J as (x & J & _). injection J as J _. subst c. destruct W as [[W1 W2] _].
    pose proof (N.mod_lt (hash (fst x)) nb ltac:(lia)). lia.
  - assert (DBE : snd d = db) by reflexivity. rewrite DBE. fold meta.
    assert (ML : exists m0, meta = m0 ++ [newline]).
    { unfold meta, gen_files. cbn [snd]. set (os := meo _). unfold meta_text. rewrite ent_text, ent_app.
      exists (dec (N.of_nat (length os)) ++ ent os []). now rewrite app_assoc. }
    destruct ML as (m0 & EM). assert (LM : length meta = S (length m0)) by (rewrite EM, app_length; cbn; lia).
    clearbody db meta. unfold gen_crash.
    destruct (Nat.eqb_spec n 0) as [|N0]; [left; reflexivity|].
    destruct (Nat.leb_spec (n - 1) (length db - tail)) as [|N1]; [left; reflexivity|].
    destruct (Nat.leb_spec (n - 2 - (length db - tail)) (length meta)) as [N2|N2]; right.
    + assert (T : tail = 0 \/ length db - tail = length db) by lia.
      assert (T' : length db - tail = length db) by lia. rewrite T' in *. cbn [fst snd]. rewrite firstn_all.
      split; [reflexivity|]. destruct (Nat.eq_dec (n - 2 - length db) (length meta)) as [X|X].
      * left. now rewrite X, firstn_all.
      * right. exists m0. split; [|exact EM]. assert (Y : n - 2 - length db = length m0) by lia.
        rewrite Y, EM. now rewrite firstn_app, firstn_all, Nat.sub_diag, app_nil_r.
    + cbn [fst snd]. split; [|left; reflexivity]. rewrite firstn_all2 by lia. reflexivity.
Qed.
Print Assumptions C94_interrupted.

(** A directory once opened with settings [s] is opened again with [s'] exactly if the numbers of
    groups and buckets, the nonce size and the parameters are the same; [compress] may differ. *)
Theorem C94_open : forall s s' st done, (gs_groups s < 4294967296)%N -> (gs_buckets s < 4294967296)%N ->
  gdb_open s None = Ok st ->
  (exists st', gdb_open s' (Some (mk_gstat (gt_groups st) (gt_buckets st) (gt_nonce st) (gt_params st) (gt_compress st) done)) = Ok st') <->
  gs_groups s' = gs_groups s /\ gs_buckets s' = gs_buckets s /\ gs_nonce s' = gs_nonce s /\ gs_params s' = gs_params s.
Proof.
  intros s s' st done G B E. unfold gdb_open in *. injection E as <-. cbn [gt_groups gt_buckets gt_nonce gt_params].
  unfold u32. change (2 ^ 32)%N with 4294967296%N. rewrite !N.mod_small by assumption. unfold enforce. split.
  - intros (st' & H).
    destruct (N.eqb_spec (gs_groups s) (gs_groups s')); [|discriminate]. destruct (N.eqb_spec (gs_buckets s) (gs_buckets s')); [|discriminate].
    destruct (N.eqb_spec (gs_nonce s) (gs_nonce s')); [|discriminate]. destruct (N.eqb_spec (gs_params s) (gs_params s')); [|discriminate].
    auto.
  - intros (-> & -> & -> & ->). rewrite !N.eqb_refl. eexists. reflexivity.
Qed.
Print Assumptions C94_open.

(** A second build in the same directory, whatever its source: every query is answered from the
    source of the first. *)
Theorem C94_rebuild :
  forall (hash : bytes -> N) (DB : Type) build ser deser lookup map_order query_order,
  sound_library DB build ser deser lookup ->
  (forall m, Permutation m (map_order m)) -> (forall m, Permutation m (query_order m)) ->
  forall s s' table table' d d' qs, wide (gs_buckets s) (gs_groups s) -> (gs_groups s < 4294967296)%N ->
  table <> [] -> NoDup (map fst table) ->
  gdb_build DB build ser map_order hash s table (empty_dir s) = Ok d ->
  gdb_build DB build ser map_order hash s' table' d = Ok d' ->
  exists res, run_queries hash DB build ser deser map_order lookup query_order false (gs_buckets s') (gs_groups s') (dr_items d') qs = Ok res /\
    Permutation res (expected table qs).
Proof.
  intros hash DB build ser deser lookup mo qo [L1 L2] P1 P2 s s' table table' d d' qs W G NE ND B1 B2.
  unfold gdb_build in B1. destruct (gdb_open s (dr_stat (empty_dir s))) as [st| | |] eqn:O1; try discriminate. cbn [bind] in B1.
  destruct (divided_files hash _ _ table W NE) as (disk & ED & DV & HL & HF). cbn [empty_dir dr_disk] in B1. rewrite ED in B1.
  cbn [bind fresh_disk gd_divided] in B1. injection B1 as <-.
  unfold gdb_build in B2. cbn [dr_stat dr_disk dr_items] in B2.
  match type of B2 with (do _ <- ?o; _) = _ => destruct o as [st'| | |] eqn:O2 end; try discriminate. cbn [bind] in B2.
  assert (EQ : gs_groups s' = gs_groups s /\ gs_buckets s' = gs_buckets s).
  { destruct (proj1 (C94_open s s' st true G ltac:(destruct W; lia) O1)) as (A & B & _); [eauto|]. auto. }
  destruct EQ as [Q1 Q2]. rewrite Q1, Q2 in *. unfold divide_group in B2. rewrite DV in B2. cbn [bind] in B2. injection B2 as <-. cbn [dr_items].
  eapply run_ok; try eassumption; [|discriminate].
  assert (F : Forall2 (item_of DB build ser mo (per_group (gs_buckets s) (gs_groups s))) (gd_files disk)
            (gen_all DB build ser mo (per_group (gs_buckets s) (gs_groups s)) (items_of disk))).
  { destruct disk as [dv files]. apply gen_all_items. }
  clear - F. induction F as [|f it fs its [H1 H2] F IH]; cbn [gen_all map]; constructor; [|exact IH].
  unfold gen_item. destruct H2 as [H2|(x & H2 & H3)].
  - rewrite H2, H1. destruct (generate DB build ser mo _ f) as [x| | |] eqn:E; cbn [bind]; (split; [exact H1 || reflexivity|]); cbn [gi_src gi_db]; try (left; exact H2). right. exists x. split; [exact E|reflexivity].
  - rewrite H3. destruct x as [os fl]. unfold enforce. destruct (N.of_nat (length os) <=? _)%N; split; auto; right; eauto.
Qed.
Print Assumptions C94_rebuild.

(** ** Cases *)
Definition g_hash (k : bytes) : N := hd 0%N k.
Definition g_table : list row := [([1], [7]); ([6], [8]); ([11], [9]); ([16], [3]); ([21], [4]); ([2], [5]); ([4], [6])]%N.
Definition g_disk : gdisk := match divide_group g_hash 5 2 g_table (fresh_disk 2) with Ok d => d | _ => fresh_disk 2 end.
Definition g_src : list gline := nth 0 (gd_files g_disk) [].
Definition g_gen := generate (list row) (fun rs => rs) ex_ser (fun m => m) 3 g_src.
Definition g_reopen (tail n : nat) (b : N) : outcome (option (list row)) :=
  do d <- g_gen;
  reopen (list row) (fun rs => rs) ex_ser ex_deser (fun m => m) 3 g_src
    (gen_crash (fst (gen_files (fun m => m) d)) (snd (gen_files (fun m => m) d)) tail n) b.
Definition g_rows1 : list row := [([1], [7]); ([6], [8]); ([11], [9]); ([16], [3]); ([21], [4])]%N.
Example C94_example :
  omap (gen_files (fun m => m)) g_gen = Ok ([5; 1; 7; 6; 8; 11; 9; 16; 3; 21; 4; 1; 2; 5], [50; 10; 49; 32; 48; 10; 50; 32; 49; 49; 10])%N /\
  map (fun n => g_reopen 4 n 1) [0; 5; 11; 27; 30] = repeat (Ok (Some g_rows1)) 5 /\
  map (fun n => g_reopen 4 n 2) [0; 5; 11; 27; 30] = repeat (Ok (Some [([2], [5])]%N)) 5 /\
  g_reopen 0 26 2 = Ok (Some [([2], [5])]%N) /\ g_reopen 4 27 0 = Ok None.
Proof. repeat split; vm_compute; reflexivity. Qed.

Definition g_set : gset := mk_gset 2 5 16 77 false.
Definition g_build (s : gset) (t : list row) (d : gdir) : outcome gdir := gdb_build (list row) (fun rs => rs) ex_ser (fun m => m) g_hash s t d.
Definition g_ask (d : outcome gdir) (qs : list bytes) : outcome (list row) := do d <- d; ex_run false (dr_items d) qs.
Example C94_rebuild_example :
  let d := g_build g_set g_table (empty_dir g_set) in
  g_ask d [[6]; [2]; [9]]%N = Ok [([2], [5]); ([6], [8])]%N /\
  g_ask (do d <- d; g_build (mk_gset 2 5 16 77 true) [([6], [1])]%N d) [[6]; [2]]%N = Ok [([2], [5]); ([6], [8])]%N /\
  (do d <- d; g_build (mk_gset 2 6 16 77 true) g_table d) = Throw.
Proof. cbn zeta. repeat split; vm_compute; reflexivity. Qed.

(** The full claim: a crash at any step loses nothing.  With a meta file that was cut short, reading
    it is undefined, or a bucket is answered from other bytes of the database file; with a database
    file that was cut short, a bucket is answered as if it had no rows. *)
Theorem C94_interrupted_refuted :
  (exists tail n, g_reopen tail n 1 = UB) /\
  (exists tail n rs, g_reopen tail n 2 = Ok (Some rs) /\ rs <> bucket_rows g_hash 5 g_table 2) /\
  (exists tail n, g_reopen tail n 2 = Ok None /\ bucket_rows g_hash 5 g_table 2 <> []).
Proof.
  split; [|split].
  - exists 0, 18. vm_compute. reflexivity.
  - exists 0, 25, [([7], [6])]%N. split; [vm_compute; reflexivity|discriminate].
  - exists 2, 25. split; [vm_compute; reflexivity|discriminate].
Qed.
Print Assumptions C94_interrupted_refuted.

(** The claim that a build takes its rows from its source: it does not if the directory was used
    before. *)
Theorem C94_rebuild_refuted : exists s table table' d d' q, NoDup (map fst table') /\
  g_build s table (empty_dir s) = Ok d /\ g_build s table' d = Ok d' /\
  expected table' [q] <> [] /\ ex_run false (dr_items d') [q] = Ok [].
Proof.
  exists g_set, g_table, [([9], [1])]%N.
  destruct (g_build g_set g_table (empty_dir g_set)) as [d| | |] eqn:E; try (vm_compute in E; discriminate E).
  exists d. vm_compute in E. injection E as <-. eexists. exists [9]%N.
  split; [repeat constructor; intros []|]. split; [reflexivity|]. split; [vm_compute; reflexivity|]. split; [discriminate|].
  vm_compute. reflexivity.
Qed.
Print Assumptions C94_rebuild_refuted.

(** The claim that a database is marked as generated only if all groups were: a group that failed
    in its process is not noticed, and every query to it fails later. *)
Theorem C94_done_refuted : exists s table d st q, g_build s table (empty_dir s) = Ok d /\
  dr_stat d = Some st /\ gt_done st = true /\ In q (map fst table) /\ ex_run false (dr_items d) [q] = Throw.
Proof.
  exists g_set, [([1], [7]); ([2], [3]); ([1], [7])]%N.
  destruct (g_build g_set [([1], [7]); ([2], [3]); ([1], [7])]%N (empty_dir g_set)) as [d| | |] eqn:E; try (vm_compute in E; discriminate E).
  exists d. vm_compute in E. injection E as <-. eexists. exists [2]%N.
  split; [reflexivity|]. split; [reflexivity|]. split; [reflexivity|]. split; [right; left; reflexivity|]. vm_compute. reflexivity.
Qed.
Print Assumptions C94_done_refuted.
