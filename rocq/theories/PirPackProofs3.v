(** A row retrieved is the row stored. *)
From Coq Require Import List NArith Bool Arith Lia.
From Verif Require Import Base StoreModel StoreProofs Text PirPackModel PirPackSpec PirPackProofs PirPackProofs2.
Import ListNotations.

Lemma map_out_ok_inv : forall (A B : Type) (f : A -> outcome B) l ys, map_out f l = Ok ys ->
  Forall2 (fun x y => f x = Ok y) l ys.
Proof.
  induction l as [|x l IH]; intros ys H; cbn [map_out] in H; [injection H as <-; constructor|].
  destruct (f x) as [y| | |] eqn:E; try discriminate. cbn [bind] in H.
  destruct (map_out f l) as [r| | |] eqn:E2; try discriminate. cbn [bind] in H. injection H as <-.
  constructor; auto.
Qed.

(** ** The dumped form *)
Lemma concat_fixed_nth : forall (A : Type) (ls : list (list A)) n a b, (forall x, In x ls -> length x = n) ->
  b < n -> nth_error (concat ls) (a * n + b) = match nth_error ls a with Some l => nth_error l b | None => None end.
Proof.
  induction ls as [|l ls IH]; intros n a b Hn Hb; cbn [concat].
  - destruct (a * n + b), a; reflexivity.
  - assert (Hl : length l = n) by (apply Hn; left; auto). destruct a as [|a]; cbn [Nat.mul nth_error].
    + cbn [Nat.add]. apply nth_error_app1. lia.
    + rewrite nth_error_app2 by lia. replace (n + a * n + b - length l) with (a * n + b) by lia.
      apply IH; auto. intros; apply Hn; right; auto.
Qed.

Lemma concat_fixed_len : forall (A : Type) (ls : list (list A)) n, (forall x, In x ls -> length x = n) ->
  length (concat ls) = length ls * n.
Proof.
  induction ls as [|l ls IH]; intros n Hn; [reflexivity|]. cbn [concat length Nat.mul].
  rewrite app_length, (Hn l), (IH n); auto; [|left; auto]. intros; apply Hn; right; auto.
Qed.

Lemma map_out_seq : forall (A : Type) (f : nat -> outcome A) (l : list A) i,
  (forall k x, nth_error l k = Some x -> f (i + k) = Ok x) -> map_out f (seq i (length l)) = Ok l.
Proof.
  intros A f l. induction l as [|x l IH]; intros i H; [reflexivity|]. cbn [length seq map_out].
  rewrite <- (Nat.add_0_r i) at 1. rewrite (H 0 x) by reflexivity. cbn [bind].
  rewrite (IH (S i)); [reflexivity|]. intros k y Hk. rewrite Nat.add_succ_l, <- Nat.add_succ_r. apply H. exact Hk.
Qed.

(** UpdateByDatabaseInfo makes room for all plaintexts. *)
Lemma grow_ok : forall fuel v pts, v <= 30 -> (N.of_nat pts <= 2 ^ 30)%N -> 31 <= fuel + v ->
  exists v', grow_dims fuel v pts = Ok v' /\ v' <= 30 /\ (N.of_nat pts <= 2 ^ N.of_nat v')%N.
Proof.
  induction fuel as [|fuel IH]; intros v pts Hv Hp Hf; [lia|]. cbn [grow_dims].
  destruct (31 <=? v) eqn:E; [apply Nat.leb_le in E; lia|].
  destruct (2 ^ N.of_nat v <? N.of_nat pts)%N eqn:El.
  - apply N.ltb_lt in El. destruct (Nat.eq_dec v 30) as [->|].
    { exfalso. change (2 ^ N.of_nat 30)%N with (2 ^ 30)%N in El. lia. }
    apply IH; lia.
  - apply N.ltb_ge in El. exists v. auto.
Qed.

Section E2E.
Variables (pt_coeffs logt : nat).
Hypothesis (H1 : 1 <= logt <= 64).

(** What the server must hold for the rows [raw] of one partition. *)
Definition holds_rows (es el rows : nat) (raw : list bytes) (vec : list (list N)) : Prop :=
  forall i, i < rows -> exists c out, nth_error vec (i / es) = Some c /\ length c = pt_coeffs
    /\ coeffs_to_bytes logt c = Ok out
    /\ slice_row out (i mod es * el) (i mod es * el + el) = Ok (nth i raw []).

Lemma retrieve_ok : forall rows len es raws parts i,
  let el := Nat.min len (max_byte_len pt_coeffs logt) in
  1 <= max_byte_len pt_coeffs logt -> 1 <= es -> element_size pt_coeffs logt el = Ok es ->
  i < rows -> Forall2 (holds_rows es el rows) raws parts ->
  length raws = uint_num len (max_byte_len pt_coeffs logt) ->
  retrieve pt_coeffs logt rows len i parts = combine (map (fun raw => nth i raw []) raws) len.
Proof using.
  clear. intros rows len es raws parts i el Hm Hes Ees Hi HF Hlen.
  unfold retrieve, client_pt_index. fold el. rewrite Ees. cbn [bind]. unfold enforce.
  destruct (0 <? rows) eqn:E0; [|apply Nat.ltb_ge in E0; lia].
  destruct (i <? rows) eqn:Ei; [|apply Nat.ltb_ge in Ei; lia]. cbn [bind].
  assert (Hsel : exists resp, select_pts (i / es) parts = Ok resp /\
    Forall2 (fun raw c => length c = pt_coeffs /\ exists out, coeffs_to_bytes logt c = Ok out /\
               slice_row out (i mod es * el) (i mod es * el + el) = Ok (nth i raw [])) raws resp).
  { clear Hlen. induction HF as [|raw vec raws parts Hh HF IH].
    - exists []. split; [reflexivity|constructor].
    - destruct (Hh i Hi) as (c & out & En & Lc & Eo & Es). destruct IH as (resp & Er & Fr).
      exists (c :: resp). split.
      + unfold select_pts in *. cbn [map_out]. rewrite En. cbn [bind]. rewrite Er. reflexivity.
      + constructor; auto. split; auto. exists out. auto. }
  destruct Hsel as (resp & Er & Fr). rewrite Er. cbn [bind].
  unfold client_decode.
  destruct (max_byte_len pt_coeffs logt =? 0) eqn:Em; [apply Nat.eqb_eq in Em; lia|].
  fold el. rewrite Ees. cbn [bind].
  fold (uint_num len (max_byte_len pt_coeffs logt)).
  assert (Hl : length resp = length raws) by (clear - Fr; induction Fr; simpl; auto).
  rewrite Hl, Hlen, Nat.eqb_refl.
  assert (Hres : map_out (fun cs => if length cs =? pt_coeffs
      then do bs <- coeffs_to_bytes logt cs; slice_row bs (i mod es * el) (i mod es * el + el) else Throw) resp
      = Ok (map (fun raw => nth i raw []) raws)).
  { clear - Fr. induction Fr as [|raw c raws resp [Lc (out & Eo & Es)] Fr IH]; [reflexivity|].
    cbn [map_out map]. rewrite Lc, Nat.eqb_refl, Eo. cbn [bind]. rewrite Es. cbn [bind]. rewrite IH. reflexivity. }
  unfold enforce. rewrite Hres. reflexivity.
Qed.

(** The rows each partition holds. *)
Definition part_rows (len : nat) (db : list bytes) : list (list bytes) :=
  if len <=? max_byte_len pt_coeffs logt then [db]
  else map (fun k => map (pchunk (max_byte_len pt_coeffs logt) k) db)
           (seq 0 (uint_num len (max_byte_len pt_coeffs logt))).

Lemma part_rows_combine : forall len (db : list bytes) i, 1 <= max_byte_len pt_coeffs logt -> 1 <= len ->
  (forall r, In r db -> length r = len) -> i < length db ->
  length (part_rows len db) = uint_num len (max_byte_len pt_coeffs logt)
  /\ combine (map (fun raw => nth i raw []) (part_rows len db)) len = Ok (nth i db []).
Proof using.
  clear. intros len db i Hm Hlen Hl Hi. set (m := max_byte_len pt_coeffs logt) in *.
  unfold part_rows. fold m.
  assert (Hrow : length (nth i db []) = len) by (apply Hl, nth_In; auto).
  destruct (len <=? m) eqn:E.
  - apply Nat.leb_le in E. split.
    + apply uint_num_unique; cbn [length Nat.mul]; lia.
    + cbn [map combine]. unfold enforce. unfold bytes in *; rewrite Hrow, Nat.eqb_refl. reflexivity.
  - apply Nat.leb_gt in E. rewrite map_length, seq_length. split; [reflexivity|].
    rewrite map_map.
    rewrite (map_ext_in _ (fun k => pchunk m k (nth i db []))).
    + apply combine_ok; auto.
    + intros k _. rewrite (nth_indep _ [] (pchunk m k [])) by (rewrite map_length; auto). apply map_nth.
Qed.

Lemma part_rows_ok : forall len (db : list bytes), 1 <= max_byte_len pt_coeffs logt -> 1 <= len ->
  (forall r, In r db -> length r = len /\ Forall is_byte r) ->
  let el := Nat.min len (max_byte_len pt_coeffs logt) in
  forall raw, In raw (part_rows len db) ->
    length raw = length db /\ (forall r, In r raw -> length r = el /\ Forall is_byte r).
Proof using.
  clear. intros len db Hm Hlen Hdb el raw Hin. unfold part_rows in Hin.
  destruct (len <=? max_byte_len pt_coeffs logt) eqn:E.
  - apply Nat.leb_le in E. destruct Hin as [<-|[]]. split; auto. intros r Hr. apply Hdb in Hr. unfold el.
    rewrite Nat.min_l by lia. auto.
  - apply Nat.leb_gt in E. apply in_map_iff in Hin. destruct Hin as (k & <- & _). split; [apply map_length|].
    intros r Hr. apply in_map_iff in Hr. destruct Hr as (r0 & <- & Hr0). apply Hdb in Hr0. destruct Hr0 as [_ Hb].
    rewrite pchunk_length. unfold el. rewrite Nat.min_r by lia. split; auto. apply pchunk_bytes. auto.
Qed.

Lemma generate_reorient_ok : forall rows len v (db : list bytes),
  1 <= max_byte_len pt_coeffs logt -> 1 <= len -> length db = rows -> 1 <= rows -> v < 31 ->
  (forall r, In r db -> length r = len /\ Forall is_byte r) ->
  exists parts, generate_reorient pt_coeffs logt rows len v (RawDb rows len db) = Ok parts
    /\ (forall es, element_size pt_coeffs logt (Nat.min len (max_byte_len pt_coeffs logt)) = Ok es ->
        uint_num rows es <= 2 ^ v -> Forall (fun p => length p = 2 ^ v) parts)
    /\ Forall (Forall (fun c => length c = pt_coeffs /\ Forall (coeff_ok logt) c)) parts
    /\ forall i, i < rows -> retrieve pt_coeffs logt rows len i parts = Ok (nth i db []).
Proof using H1.
  clear - H1. intros rows len v db Hm Hlen Hn Hr Hv Hdb.
  set (el := Nat.min len (max_byte_len pt_coeffs logt)).
  destruct (element_size_ok pt_coeffs logt (proj1 H1) el) as (es & Ees & Hes & _ & _); [unfold el; lia|unfold el; lia|].
  pose proof (part_rows_ok len db Hm Hlen Hdb) as Hpr. cbv zeta in Hpr. fold el in Hpr.
  assert (Hall : exists parts, map_out (fun raw => raw_to_pts pt_coeffs logt 64 rows len v raw) (part_rows len db) = Ok parts
    /\ Forall2 (fun raw vec => holds_rows es el rows raw vec
         /\ (uint_num rows es <= 2 ^ v -> length vec = 2 ^ v)
         /\ Forall (fun c => length c = pt_coeffs /\ Forall (coeff_ok logt) c) vec) (part_rows len db) parts).
  { apply map_out_forall. intros raw Hin. apply Hpr in Hin. destruct Hin as [L Hrs].
    destruct (raw_to_pts_ok pt_coeffs logt 64 (proj1 H1) ltac:(lia) ltac:(lia) rows len v raw)
      as (es' & vec & Ee & _ & Ev & Lv & Fv & Rv); auto; [lia|fold el; unfold el; lia|].
    fold el in Ee, Rv. assert (es' = es) by congruence. subst es'.
    exists vec. split; [exact Ev|]. split; [|split; auto].
    intros i Hi. destruct (Rv i Hi) as (c & out & En & Eo & Es). exists c, out.
    split; [exact En|]. split; [|auto]. apply nth_error_In in En. rewrite Forall_forall in Fv. apply Fv; auto. }
  destruct Hall as (parts & Ep & Fp). exists parts. split.
  { unfold generate_reorient. cbn [rd_len rd_db]. unfold part_rows in Ep.
    destruct (len <=? max_byte_len pt_coeffs logt) eqn:E.
    - cbn [map_out] in Ep. destruct (raw_to_pts pt_coeffs logt 64 rows len v db) as [p| | |]; try discriminate.
      cbn [bind] in *. exact Ep.
    - apply Nat.leb_gt in E. rewrite partition_ok; auto; [|intros r Hin; apply Hdb in Hin; apply Hin].
      cbn [bind]. rewrite <- Ep. clear. generalize (seq 0 (uint_num len (max_byte_len pt_coeffs logt))).
      intros l. induction l as [|k l IH]; [reflexivity|]. cbn [map map_out rd_db]. rewrite IH. reflexivity. }
  split.
  { intros es' Ee Hpts. fold el in Ee. assert (es' = es) by congruence. subst es'. clear - Fp Hpts.
    induction Fp as [|raw vec raws parts (_ & L & _) Fp IH]; constructor; auto. }
  split.
  { clear - Fp. induction Fp as [|raw vec raws parts (_ & _ & F) Fp IH]; constructor; auto. }
  intros i Hi. destruct (part_rows_combine len db i) as [Pl Pc]; auto; [intros r Hin; apply Hdb; auto|lia|].
  rewrite (retrieve_ok rows len es (part_rows len db)); auto.
  clear - Fp. induction Fp as [|raw vec raws parts (Hh & _ & _) Fp IH]; constructor; auto.
Qed.

Lemma load_ok : forall v (parts : list (list (list N))),
  (forall p, In p parts -> length p = 2 ^ v /\ forall c, In c p -> length c = pt_coeffs) ->
  load_pts pt_coeffs v (concat (map (@concat N) parts)) (2 ^ v * pt_coeffs) (length parts) = Ok parts.
Proof using.
  clear. intros v parts Hp.
  assert (Hlen : forall x, In x (map (@concat N) parts) -> length x = 2 ^ v * pt_coeffs).
  { intros x Hx. apply in_map_iff in Hx. destruct Hx as (p & <- & Hin). apply Hp in Hin. destruct Hin as [L Hc].
    rewrite (concat_fixed_len _ p pt_coeffs), L; auto. }
  unfold load_pts, enforce. rewrite (concat_fixed_len _ _ (2 ^ v * pt_coeffs) Hlen), map_length.
  rewrite Nat.eqb_refl, Nat.mul_assoc, Nat.eqb_refl.
  rewrite (Nat.mul_comm pt_coeffs), Nat.eqb_refl.
  apply map_out_seq. intros i p Hi. cbn [Nat.add].
  assert (Hin : In p parts) by (eapply nth_error_In; eauto). apply Hp in Hin. destruct Hin as [L Hc].
  replace (seq 0 (2 ^ v)) with (seq 0 (length p)) by (rewrite L; reflexivity). apply map_out_seq. intros j c Hj. cbn [Nat.add].
  assert (Hcl : length c = pt_coeffs) by (apply Hc; eapply nth_error_In; eauto).
  replace (seq 0 pt_coeffs) with (seq 0 (length c)) by (rewrite Hcl; reflexivity). apply map_out_seq. intros k x Hk. cbn [Nat.add].
  assert (Hkl : k < pt_coeffs) by (rewrite <- Hcl; apply nth_error_Some; congruence).
  assert (Hjl : j < 2 ^ v) by (rewrite <- L; apply nth_error_Some; congruence).
  assert (Hjk : j * pt_coeffs + k < 2 ^ v * pt_coeffs).
  { assert ((j + 1) * pt_coeffs <= 2 ^ v * pt_coeffs) by (apply Nat.mul_le_mono_r; lia).
    rewrite Nat.mul_add_distr_r in H. lia. }
  rewrite <- Nat.add_assoc, (concat_fixed_nth _ _ (2 ^ v * pt_coeffs) i (j * pt_coeffs + k) Hlen Hjk).
  rewrite nth_error_map, Hi. cbn [option_map].
  rewrite (concat_fixed_nth _ p pt_coeffs j k Hc Hkl), Hj, Hk. reflexivity.
Qed.

Lemma raw_to_pts_w : forall rows per_row v (raw : list bytes) vec, logt = 8 -> length raw = rows -> 1 <= rows -> v < 31 ->
  1 <= Nat.min per_row (max_byte_len pt_coeffs logt) ->
  (forall r, In r raw -> length r = Nat.min per_row (max_byte_len pt_coeffs logt) /\ Forall is_byte r) ->
  raw_to_pts pt_coeffs logt 8 rows per_row v raw = Ok vec ->
  exists es, element_size pt_coeffs logt (Nat.min per_row (max_byte_len pt_coeffs logt)) = Ok es /\ 1 <= es
    /\ (uint_num rows es <= 2 ^ v -> length vec = 2 ^ v)
    /\ Forall (fun c => length c = pt_coeffs /\ Forall (coeff_ok logt) c) vec
    /\ holds_rows es (Nat.min per_row (max_byte_len pt_coeffs logt)) rows raw vec.
Proof using.
  clear. intros rows per_row v raw vec H8 Hn Hr Hv Hel Hraw E.
  destruct (raw_to_pts_ok pt_coeffs logt 8 ltac:(lia) ltac:(lia) ltac:(lia) rows per_row v raw)
    as (es & vec' & Ee & Hes & Ev & Lv & Fv & Rv); auto.
  assert (vec' = vec) by congruence. subst vec'. exists es. split; [exact Ee|]. split; [exact Hes|]. split; [exact Lv|].
  split; [exact Fv|]. intros i Hi. destruct (Rv i Hi) as (c & out & En & Eo & Es). exists c, out.
  split; [exact En|]. split; [|auto]. apply nth_error_In in En. rewrite Forall_forall in Fv. apply Fv; auto.
Qed.

Lemma generate_raw_ok : forall rows len v (db : list bytes) es, logt = 8 ->
  1 <= max_byte_len pt_coeffs logt -> 1 <= len -> length db = rows -> 1 <= rows -> v < 31 ->
  (forall r, In r db -> length r = len /\ Forall is_byte r) ->
  element_size pt_coeffs logt (Nat.min len (max_byte_len pt_coeffs logt)) = Ok es -> uint_num rows es <= 2 ^ v ->
  exists pt_dbs single num parts,
    generate_raw pt_coeffs logt rows len v (RawDb rows len db) = Ok (pt_dbs, single, num)
    /\ load_pts pt_coeffs v pt_dbs single num = Ok parts
    /\ Forall (fun p => length p = 2 ^ v) parts
    /\ Forall (Forall (fun c => length c = pt_coeffs /\ Forall (coeff_ok logt) c)) parts
    /\ forall i, i < rows -> retrieve pt_coeffs logt rows len i parts = Ok (nth i db []).
Proof using.
  clear. intros rows len v db es H8 Hm Hlen Hn Hr Hv Hdb Ees Hpts.
  set (el := Nat.min len (max_byte_len pt_coeffs logt)) in *.
  pose proof (part_rows_ok len db Hm Hlen Hdb) as Hpr. cbv zeta in Hpr. fold el in Hpr.
  assert (Hall : exists flats, map_out (fun raw => raw_to_flat pt_coeffs logt rows len v raw) (part_rows len db) = Ok flats
    /\ Forall2 (fun raw flat => exists vec, flat = concat vec /\ holds_rows es el rows raw vec /\ length vec = 2 ^ v
         /\ Forall (fun c => length c = pt_coeffs /\ Forall (coeff_ok logt) c) vec) (part_rows len db) flats).
  { apply map_out_forall. intros raw Hin. apply Hpr in Hin. destruct Hin as [L Hrs].
    destruct (raw_to_pts_ok pt_coeffs logt 8 ltac:(lia) ltac:(lia) ltac:(lia) rows len v raw)
      as (es' & vec & Ee & _ & Ev & _ & _ & _); auto; [lia|fold el; unfold el; lia|].
    destruct (raw_to_pts_w rows len v raw vec) as (es2 & Ee2 & _ & Lv & Fv & Hh); [auto|lia|auto|auto|lia|exact Hrs|exact Ev|].
    fold el in Ee2, Hh. assert (es2 = es) by congruence. subst es2.
    specialize (Lv Hpts).
    assert (Lc : length (concat vec) = 2 ^ v * pt_coeffs).
    { rewrite (concat_fixed_len _ vec pt_coeffs), Lv; auto. intros c Hc. rewrite Forall_forall in Fv. apply Fv. auto. }
    exists (concat vec). split.
    - unfold raw_to_flat. rewrite Ev. cbn [bind]. rewrite Lc, Nat.leb_refl, Nat.sub_diag. cbn [repeat].
      rewrite app_nil_r. reflexivity.
    - exists vec. auto. }
  destruct Hall as (flats & Ef & Ff).
  assert (Hparts : exists parts, flats = map (@concat N) parts /\
    Forall2 (fun raw vec => holds_rows es el rows raw vec /\ length vec = 2 ^ v
       /\ Forall (fun c => length c = pt_coeffs /\ Forall (coeff_ok logt) c) vec) (part_rows len db) parts).
  { clear - Ff. induction Ff as [|raw flat raws flats (vec & -> & Hv) Ff IH].
    - exists []. split; [reflexivity|constructor].
    - destruct IH as (parts & -> & Fp). exists (vec :: parts). split; [reflexivity|constructor; auto]. }
  destruct Hparts as (parts & -> & Fp).
  assert (Hshape : forall p, In p parts -> length p = 2 ^ v /\ forall c, In c p -> length c = pt_coeffs).
  { clear - Fp. induction Fp as [|raw vec raws parts (_ & L & F) Fp IH]; [intros p []|].
    intros p [<-|Hin]; auto. split; auto. intros c Hc. rewrite Forall_forall in F. apply F. auto. }
  assert (Hlens : forall x, In x (map (@concat N) parts) -> length x = 2 ^ v * pt_coeffs).
  { intros x Hx. apply in_map_iff in Hx. destruct Hx as (p & <- & Hin). apply Hshape in Hin. destruct Hin as [L Hc].
    rewrite (concat_fixed_len _ p pt_coeffs), L; auto. }
  assert (Hnum : length parts = length (part_rows len db)) by (clear - Fp; induction Fp; simpl; auto).
  destruct (part_rows_combine len db 0) as [Pl _]; auto; [intros r Hin; apply Hdb; auto|lia|].
  assert (Hpos : 1 <= length parts).
  { rewrite Hnum, Pl. destruct (uint_num_spec len (max_byte_len pt_coeffs logt) Hm). destruct (uint_num len (max_byte_len pt_coeffs logt)); lia. }
  exists (concat (map (@concat N) parts)), (2 ^ v * pt_coeffs), (length parts), parts.
  split.
  { unfold generate_raw, enforce. rewrite H8, Nat.eqb_refl, <- H8. cbn [rd_len rd_db].
    unfold part_rows in Ef. destruct (len <=? max_byte_len pt_coeffs logt) eqn:E.
    - cbn [map_out] in Ef. destruct (raw_to_flat pt_coeffs logt rows len v db) as [p| | |]; try discriminate.
      cbn [bind] in *. assert (Ef' : [p] = map (@concat N) parts) by congruence.
      rewrite <- Ef' in *. cbn [concat]. rewrite app_nil_r. rewrite (Hlens p) by (left; auto).
      destruct parts as [|? [|]]; try discriminate. reflexivity.
    - apply Nat.leb_gt in E. rewrite partition_ok; auto; [|intros r Hin; apply Hdb in Hin; apply Hin].
      cbn [bind]. rewrite map_length, seq_length.
      assert (Em : map_out (fun s => raw_to_flat pt_coeffs logt rows len v (rd_db s))
         (map (fun k => RawDb rows (max_byte_len pt_coeffs logt) (map (pchunk (max_byte_len pt_coeffs logt) k) db))
            (seq 0 (uint_num len (max_byte_len pt_coeffs logt)))) = Ok (map (@concat N) parts)).
      { rewrite <- Ef. clear. generalize (seq 0 (uint_num len (max_byte_len pt_coeffs logt))).
        intros l. induction l as [|k l IH]; [reflexivity|]. cbn [map map_out rd_db]. rewrite IH. reflexivity. }
      rewrite Em. cbn [bind]. destruct (map (@concat N) parts) as [|p0 ps] eqn:Emap.
      { destruct parts; [simpl in Hpos; lia|discriminate]. }
      assert (Hp0 : length p0 = 2 ^ v * pt_coeffs) by (apply Hlens; left; auto).
      rewrite Hp0, Hnum, Pl.
      assert (Hfb : forallb (fun p => length p =? 2 ^ v * pt_coeffs) (p0 :: ps) = true).
      { apply forallb_forall. intros p Hin. apply Nat.eqb_eq. apply Hlens. auto. }
      rewrite Hfb. reflexivity. }
  split; [apply load_ok; exact Hshape|].
  split; [apply Forall_forall; intros p Hin; apply Hshape; auto|].
  split.
  { clear - Fp. induction Fp as [|raw vec raws parts (_ & _ & F) Fp IH]; constructor; auto. }
  intros i Hi. destruct (part_rows_combine len db i) as [_ Pc]; auto; [intros r Hin; apply Hdb; auto|lia|].
  rewrite (retrieve_ok rows len es (part_rows len db)); auto.
  - destruct (element_size_ok pt_coeffs logt ltac:(lia) el) as (es' & Ees' & Hes & _ & _); [unfold el; lia|unfold el; lia|].
    congruence.
  - clear - Fp. induction Fp as [|raw vec raws parts (Hh & _ & _) Fp IH]; constructor; auto.
Qed.

Lemma update_dims_ok : forall v0 rows len, 1 <= max_byte_len pt_coeffs logt -> 1 <= len -> v0 <= 30 ->
  exists es, element_size pt_coeffs logt (Nat.min len (max_byte_len pt_coeffs logt)) = Ok es /\
  ((N.of_nat (uint_num rows es) <= 2 ^ 30)%N ->
   exists v, update_dims pt_coeffs logt v0 rows len = Ok (v, uint_num rows es) /\ v < 31 /\ uint_num rows es <= 2 ^ v).
Proof using H1.
  clear - H1. intros v0 rows len Hm Hlen Hv0.
  destruct (element_size_ok pt_coeffs logt (proj1 H1) (Nat.min len (max_byte_len pt_coeffs logt)))
    as (es & Ees & Hes & _ & _); [lia|lia|]. exists es. split; [exact Ees|]. intros Hp.
  unfold update_dims. rewrite Ees. cbn [bind].
  destruct (uint_num rows es <=? 4) eqn:E4.
  - apply Nat.leb_le in E4. exists 3. split; [reflexivity|]. split; [lia|]. simpl. lia.
  - destruct (grow_ok 32 v0 (uint_num rows es)) as (v & Ev & Hv & Hpv); auto; [lia|].
    rewrite Ev. cbn [bind]. exists v. split; [reflexivity|]. split; [lia|].
    assert (Hz : N.of_nat (2 ^ v) = (2 ^ N.of_nat v)%N).
    { clear. induction v as [|v IH]; [reflexivity|]. rewrite Nat2N.inj_succ, N.pow_succ_r'.
      cbn [Nat.pow]. rewrite Nat2N.inj_mul, IH. reflexivity. }
    lia.
Qed.

End E2E.
