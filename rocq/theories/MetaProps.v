(** Theorems about kept digests and result files. *)
From Coq Require Import List NArith Bool Lia.
From Verif Require Import Base BaseProofs Text TextProofs DigestModel MetaModel MetaSpec.
Import ListNotations.
Local Open Scope N_scope.

Lemma join_lines_filter : forall t, join_lines t = filter (fun c => negb (c =? newline)) t.
Proof. induction t as [|c t IH]; cbn [join_lines filter]; [reflexivity|]. destruct (c =? newline); cbn [negb]; rewrite IH; reflexivity. Qed.

Section Props.
Variable sha : bytes -> bytes.
Variable keys_of : list nat -> bytes -> list bytes.
Variable show : meta -> bytes.
Variable parse : bytes -> option meta.
Notation Use := (use_input sha keys_of show parse).
Notation Runs := (runs sha keys_of show parse).

Lemma reuse : forall disk columns file old c f, json_ok show parse -> old = key_meta sha keys_of c f ->
  Use disk columns (mk_place file (Some (show old))) =
  if N.of_nat (length f) =? N.of_nat (length file) then Ok (info_of keys_of columns (mk_place file None) old, mk_place file (Some (show old)))
  else Use disk columns (mk_place file None).
Proof.
  intros disk columns file old c f J ->. destruct (J (key_meta sha keys_of c f)) as (P & NE).
  unfold use_input, make_info. cbn [pl_meta pl_input].
  destruct (show (key_meta sha keys_of c f)) as [|x r] eqn:E; [contradiction|].
  rewrite join_lines_filter, P. cbn [key_meta mt_size]. destruct (_ =? _); reflexivity.
Qed.

(** Without an old file, or with one of another size, hash and counts are those of the file and the
    columns of this run; the input stays as it is and the new digest is left beside it. *)
Theorem C102_fresh : forall disk columns p, json_ok show parse -> roomy disk ->
  pl_meta p = None \/ pl_meta p = Some [] \/
  (exists c f, pl_meta p = Some (show (key_meta sha keys_of c f)) /\ length f <> length (pl_input p)) ->
  Use disk columns p = Ok (unique_info sha (keys_of columns (pl_input p)),
                           mk_place (pl_input p) (Some (show (kept sha (keys_of columns (pl_input p)) (length (pl_input p)))))).
Proof.
  intros disk columns [file old] J R H. cbn [pl_meta pl_input] in *.
  assert (F : Use disk columns (mk_place file None) =
    Ok (unique_info sha (keys_of columns file), mk_place file (Some (show (key_meta sha keys_of columns file))))).
  { unfold use_input, make_info, rebuild. cbn [pl_meta pl_input]. rewrite R. reflexivity. }
  destruct H as [-> | [-> | (c & f & -> & N)]]; [exact F|exact F|].
  rewrite (reuse disk columns file _ c f J eq_refl). destruct (N.eqb_spec (N.of_nat (length f)) (N.of_nat (length file))) as [E|_]; [lia|exact F].
Qed.

(** An old digest of the same size is used whatever was changed: the hash and the counts are those
    of the earlier file and columns. *)
Theorem C102_old : forall disk columns c f file, json_ok show parse -> length f = length file ->
  exists k, Use disk columns (mk_place file (Some (show (key_meta sha keys_of c f)))) =
            Ok (k, mk_place file (Some (show (key_meta sha keys_of c f)))) /\
  ki_hash k = sha (concat (keys_of c f)) /\ ki_cnt k = u32 (N.of_nat (length (keys_of c f))) /\ ki_keys k = keys_of columns file.
Proof.
  intros disk columns c f file J L. rewrite (reuse disk columns file _ c f J eq_refl), L, N.eqb_refl.
  eexists. split; [reflexivity|]. repeat split.
Qed.

(** Whatever digest lies beside the input is believed if its size fits. *)
Theorem C102_believed : forall disk columns m file, json_ok show parse -> mt_size m = N.of_nat (length file) ->
  Use disk columns (mk_place file (Some (show m))) =
  Ok (mk_kinfo (keys_of columns file) (mt_hash m) (mt_dup m) (mt_unique m), mk_place file (Some (show m))).
Proof.
  intros disk columns m file J L. destruct (J m) as (P & NE). unfold use_input, make_info. cbn [pl_meta pl_input].
  destruct (show m) as [|x r] eqn:E; [contradiction|]. rewrite join_lines_filter, P, L, N.eqb_refl. reflexivity.
Qed.

(** Runs on changing files: if files of one size always have the same keys, every run uses its own. *)
Theorem C102_history : forall disk l, json_ok show parse -> roomy disk -> sizes_tell keys_of l ->
  exists last, Runs disk None l = Ok (map (fun a => unique_info sha (keys_of (snd a) (fst a))) l, last).
Proof.
  intros disk l J R.
  assert (G : forall l old, (old = None \/ exists a, old = Some (show (key_meta sha keys_of (snd a) (fst a))) /\
                forall b, In b l -> length (fst a) = length (fst b) -> keys_of (snd a) (fst a) = keys_of (snd b) (fst b)) ->
              sizes_tell keys_of l -> exists last, Runs disk old l = Ok (map (fun a => unique_info sha (keys_of (snd a) (fst a))) l, last)).
  { clear l. induction l as [|[file columns] l IH]; intros old H S; cbn [runs map fst snd]; [eauto|].
    assert (S' : sizes_tell keys_of l) by (intros a b Ha Hb; apply S; right; assumption).
    destruct H as [-> | ((f & c) & -> & H)].
    - rewrite (C102_fresh disk columns (mk_place file None) J R) by (left; reflexivity). cbn [bind fst snd pl_meta pl_input].
      change (kept sha (keys_of columns file) (length file)) with (key_meta sha keys_of columns file).
      destruct (IH (Some (show (key_meta sha keys_of columns file)))) as (last & ->); [|exact S'|eexists; reflexivity].
      right. exists (file, columns). split; [reflexivity|]. intros b Hb. apply (S (file, columns) b); [left; reflexivity|right; exact Hb].
    - cbn [fst snd] in *. destruct (PeanoNat.Nat.eq_dec (length f) (length file)) as [L|L].
      + rewrite (reuse disk columns file _ c f J eq_refl), L, N.eqb_refl. cbn [bind fst snd pl_meta].
        destruct (IH (Some (show (key_meta sha keys_of c f)))) as (last & ->); [|exact S'|].
        * right. exists (f, c). split; [reflexivity|]. intros b Hb. apply H. right. exact Hb.
        * eexists. cbn [bind fst snd]. do 2 f_equal.
          pose proof (H (file, columns) (or_introl eq_refl) L) as E. cbn [fst snd] in E.
          unfold info_of, unique_info, key_meta. cbn [pl_input mt_hash mt_dup mt_unique]. rewrite E. reflexivity.
      + rewrite (C102_fresh disk columns (mk_place file (Some (show (key_meta sha keys_of c f)))) J R)
          by (right; right; exists c, f; auto). cbn [bind fst snd pl_meta pl_input].
        change (kept sha (keys_of columns file) (length file)) with (key_meta sha keys_of columns file).
        destruct (IH (Some (show (key_meta sha keys_of columns file)))) as (last & ->); [|exact S'|eexists; reflexivity].
        right. exists (file, columns). split; [reflexivity|]. intros b Hb. apply (S (file, columns) b); [left; reflexivity|right; exact Hb]. }
  intros S. apply G; [left; reflexivity|exact S].
Qed.

(** A directory in which the digest cannot be written stops the run; a digest that was cut without
    notice stops every later run, on any file and columns. *)
Theorem C102_read_only : forall disk columns file, disk (show (key_meta sha keys_of columns file)) = Noticed ->
  Use disk columns (mk_place file None) = Throw.
Proof. intros disk columns file H. unfold use_input, make_info, rebuild. cbn [pl_meta pl_input]. rewrite H. reflexivity. Qed.
Theorem C102_cut : forall disk columns file c r, disk (show (key_meta sha keys_of columns file)) = Left (c :: r) ->
  parse (join_lines (c :: r)) = None ->
  Use disk columns (mk_place file None) = Ok (unique_info sha (keys_of columns file), mk_place file (Some (c :: r))) /\
  forall disk' columns' file', Use disk' columns' (mk_place file' (Some (c :: r))) = Throw.
Proof.
  intros disk columns file c r H P. split.
  - unfold use_input, make_info, rebuild. cbn [pl_meta pl_input]. rewrite H. reflexivity.
  - intros disk' columns' file'. unfold use_input, make_info. cbn [pl_meta]. rewrite P. reflexivity.
Qed.
End Props.

(** A reader for files of plain cells, used in the cases below. *)
Definition cell_rows (file : bytes) : list (list bytes) := map (split_on comma) (split_on newline file).
Definition cells (columns : list nat) (file : bytes) : list bytes :=
  map (fun row => row_key (map (fun i => nth i row []) columns)) (tl (cell_rows file)).
(** id,ph / 1,7 / 2,8 and id,ph / 1,5 / 2,6. *)
Definition file_a : bytes := [105; 100; 44; 112; 104; 10; 49; 44; 55; 10; 50; 44; 56].
Definition file_b : bytes := [105; 100; 44; 112; 104; 10; 49; 44; 53; 10; 50; 44; 54].

(** Two parties match by id, whose values are equal, and then match the same files by phone number:
    their digests of the ids are compared again, so all rows count as common though no number is. *)
Theorem C102_columns_refuted : exists keys_of fa fb ids phones,
  (forall k, In k (keys_of phones fa) -> ~ In k (keys_of phones fb)) /\ keys_of phones fa <> [] /\
  forall sha show parse disk, json_ok show parse -> roomy disk ->
  exists a1 a2 ma b1 b2 mb,
    runs sha keys_of show parse disk None [(fa, ids); (fa, phones)] = Ok ([a1; a2], ma) /\
    runs sha keys_of show parse disk None [(fb, ids); (fb, phones)] = Ok ([b1; b2], mb) /\
    digest_equal true [a2; b2] = Ok true /\ equal_indices a2 = [0; 1] /\ equal_indices b2 = [0; 1].
Proof.
  exists cells, file_a, file_b, [0%nat], [1%nat]. split; [|split; [discriminate|]].
  { assert (E : cells [1%nat] file_a = [[55]; [56]] /\ cells [1%nat] file_b = [[53]; [54]]) by (vm_compute; split; reflexivity).
    destruct E as (-> & ->). intros k [<- | [<- | []]] [X | [X | []]]; discriminate X. }
  intros sha show parse disk J R.
  assert (G : forall f, exists k1 k2 m, runs sha cells show parse disk None [(f, [0%nat]); (f, [1%nat])] = Ok ([k1; k2], m) /\
     ki_hash k2 = sha (concat (cells [0%nat] f)) /\ ki_cnt k2 = u32 (N.of_nat (length (cells [0%nat] f))) /\ ki_dup k2 = 0).
  { intros f. cbn [runs]. rewrite (C102_fresh sha cells show parse disk [0%nat] (mk_place f None) J R) by (left; reflexivity).
    cbn [bind fst snd pl_meta pl_input].
    change (kept sha (cells [0%nat] f) (length f)) with (key_meta sha cells [0%nat] f).
    rewrite (reuse sha cells show parse disk [1%nat] f _ [0%nat] f J eq_refl), N.eqb_refl. cbn [bind fst snd pl_meta].
    eexists _, _, _. split; [reflexivity|]. split; [reflexivity|]. split; reflexivity. }
  destruct (G file_a) as (a1 & a2 & ma & Ra & Ha & Ca & Da). destruct (G file_b) as (b1 & b2 & mb & Rb & Hb & Cb & Db).
  exists a1, a2, ma, b1, b2, mb. split; [exact Ra|]. split; [exact Rb|].
  assert (Ea : cells [0%nat] file_a = [[49]; [50]]) by (vm_compute; reflexivity).
  assert (Eb : cells [0%nat] file_b = [[49]; [50]]) by (vm_compute; reflexivity).
  rewrite Ea in Ha, Ca. rewrite Eb in Hb, Cb.
  split.
  - unfold digest_equal. cbn [forallb map]. rewrite Da, Db, Ha, Hb. cbn [N.eqb andb].
    unfold BucketModel.hash_list_equal. cbn. 
    repeat match goal with |- context [beqb ?x ?x] => rewrite (proj2 (beqb_spec x x) eq_refl) end. reflexivity.
  - unfold equal_indices. rewrite Ca, Cb. split; reflexivity.
Qed.

(** The result file holds the whole text exactly if the path has a directory part that is there or
    can be made, the file can be opened and the disk has room. *)
Theorem C102_result : forall w p text,
  result_file w p text = Ok (Some text) <->
  (exists d, parent p = Some d /\ (has_dir w d = true \/ can_mkdirs w d = true)) /\ can_open w p = true /\ (length text <= room w)%nat.
Proof.
  intros w p text. unfold result_file, open_out. split.
  - destruct (parent p) as [d|]; [|discriminate]. intros H.
    assert (X : (has_dir w d = true \/ can_mkdirs w d = true) /\ can_open w p = true /\ firstn (room w) text = text).
    { destruct (has_dir w d); [|destruct (can_mkdirs w d); [|discriminate]]; cbn [bind] in H;
      (destruct (can_open w p); [|discriminate]); injection H as H; auto. }
    destruct X as (X1 & X2 & X3). split; [eauto|]. split; [exact X2|].
    rewrite <- X3, firstn_length. lia.
  - intros ((d & -> & Hd) & -> & L). rewrite firstn_all2 by exact L.
    destruct (has_dir w d); [reflexivity|]. destruct Hd as [X | ->]; [discriminate X|reflexivity].
Qed.
(** A file name without a directory: the run fails when the result is written, on every machine; legacy
    bucket PSI takes it. *)
Theorem C102_bare_refuted : exists p, forall w text, result_file w p text = Throw /\ legacy_folder w p = Ok tt.
Proof. exists (mk_path false [[111; 46; 99; 115; 118]]). intros w text. split; reflexivity. Qed.
(** A file that cannot be opened, and a disk that is full: the run ends as if all was well. *)
Theorem C102_unnoticed_refuted : exists p d, parent p = Some d /\
  (forall w text, has_dir w d = true -> can_open w p = false -> result_file w p text = Ok None) /\
  (forall w text, has_dir w d = true -> can_open w p = true -> (room w < length text)%nat ->
     exists b, result_file w p text = Ok (Some b) /\ (length b < length text)%nat).
Proof.
  exists (mk_path true [[97]; [98]]), (mk_path true [[97]]). split; [reflexivity|].
  split; intros w text H O; [|intros L]; unfold result_file, open_out; change (parent (mk_path true [[97]; [98]])) with (Some (mk_path true [[97]])); cbv iota beta; rewrite H, O; cbn [bind]; [reflexivity|].
  eexists. split; [reflexivity|]. rewrite firstn_length. lia.
Qed.
(** Indices are written through a stream whose opening is checked. *)
Theorem C102_index_file : forall w p, open_arrow w p = Ok tt <->
  (exists d, parent p = Some d /\ (has_dir w d = true \/ can_mkdirs w d = true)) /\ can_open w p = true.
Proof.
  intros w p. unfold open_arrow, open_out. split.
  - destruct (parent p) as [d|]; [|discriminate]. intros H. split.
    + exists d. split; [reflexivity|]. destruct (has_dir w d); [auto|]. destruct (can_mkdirs w d); [auto|discriminate].
    + destruct (has_dir w d); [|destruct (can_mkdirs w d); [|discriminate]]; cbn [bind] in H; destruct (can_open w p); auto; discriminate.
  - intros ((d & -> & Hd) & ->). destruct (has_dir w d); [reflexivity|]. destruct Hd as [X | ->]; [discriminate X|reflexivity].
Qed.
(** Legacy bucket PSI makes one level of directories only, before the run; two missing levels stop it
    where the new interface would make them. *)
Theorem C102_nested_refuted : exists p, forall w, (forall d, has_dir w d = false) -> (forall d, can_mkdirs w d = true) ->
  can_open w p = true -> legacy_folder w p = Throw /\ open_out w p = Ok true.
Proof.
  exists (mk_path false [[97]; [98]; [99]]). intros w H1 H2 O. unfold legacy_folder, open_out, parent. cbn [fp_abs fp_parts removelast].
  rewrite !H1, H2, O. split; reflexivity.
Qed.
Theorem C102_legacy_folder : forall w p, legacy_folder w p = Ok tt <->
  parent p = None \/ exists d, parent p = Some d /\
    (has_dir w d = true \/ can_mkdir w d = true /\ (parent d = None \/ exists dd, parent d = Some dd /\ has_dir w dd = true)).
Proof.
  intros w p. unfold legacy_folder. destruct (parent p) as [d|]; [|split; auto]. destruct (has_dir w d) eqn:Hd.
  - split; [intros _; right; eauto|reflexivity].
  - destruct (parent d) as [dd|] eqn:Ed.
    + split.
      * intros H. right. exists d. split; [reflexivity|]. right. destruct (has_dir w dd) eqn:Hdd; [|discriminate].
        destruct (can_mkdir w d); [|discriminate]. split; [reflexivity|]. right. exists dd. auto.
      * intros [X | (d' & E & X)]; [discriminate|]. injection E as <-. destruct X as [X | (M & [X | (dd' & E & X)])]; try congruence.
        replace dd' with dd in X by congruence. rewrite M, X. reflexivity.
    + split.
      * intros H. right. exists d. split; [reflexivity|]. right. destruct (can_mkdir w d); [|discriminate]. auto.
      * intros [X | (d' & E & X)]; [discriminate|]. injection E as <-. destruct X as [X | (M & _)]; [congruence|]. rewrite M. reflexivity.
Qed.

(** A printer and reader of the kind the theorems ask for; an edited file of the same length. *)
Definition ex_show (m : meta) : bytes := [newline; mt_dup m + 1000; mt_unique m + 1000; mt_original m + 1000; mt_size m + 1000] ++ map (fun c => c + 1000) (mt_hash m).
Definition ex_parse (t : bytes) : option meta :=
  match t with a :: b :: c :: d :: r => Some (mk_meta (map (fun c => c - 1000) r) (a - 1000) (b - 1000) (c - 1000) (d - 1000)) | _ => None end.
Lemma ex_json : json_ok ex_show ex_parse.
Proof.
  intros [h a b c d]. unfold ex_show. cbn [mt_hash mt_dup mt_unique mt_original mt_size app]. split; [|discriminate].
  assert (F : forall x, negb (x + 1000 =? newline) = true) by (intros x; unfold newline; destruct (N.eqb_spec (x + 1000) 10); [lia|reflexivity]).
  cbn [filter]. change (newline =? newline) with true. rewrite !F. cbn [negb ex_parse].
  assert (M : filter (fun c => negb (c =? newline)) (map (fun c => c + 1000) h) = map (fun c => c + 1000) h).
  { clear -F. induction h as [|x h IH]; [reflexivity|]. cbn [map filter]. rewrite F, IH. reflexivity. }
  rewrite M, map_map. do 2 f_equal; try lia. rewrite <- (map_id h) at 2. apply map_ext. intros x. lia.
Qed.
Example C102_example :
  json_ok ex_show ex_parse /\ roomy Left /\ sizes_tell cells [(file_a, [0%nat]); (file_a ++ [10; 51; 44; 57], [1%nat]); (file_a, [0%nat])] /\
  (do r <- runs (fun b => b) cells ex_show ex_parse Left None [(file_a, [0%nat]); (file_a ++ [10; 51; 44; 57], [1%nat]); (file_a, [0%nat])]; Ok (map ki_hash (fst r)))
    = Ok [[49; 50]; [55; 56; 57]; [49; 50]] /\
  (do r <- runs (fun b => b) cells ex_show ex_parse Left None [(file_a, [1%nat]); (file_b, [1%nat])]; Ok (map ki_hash (fst r)))
    = Ok [[55; 56]; [55; 56]] /\
  ex_parse (join_lines [1000; 1000]) = None /\
  result_file (mk_machine (fun _ => false) (fun _ => false) (fun _ => true) (fun _ => true) 3) (mk_path true [[97]; [98]]) [1; 2; 3; 4] = Ok (Some [1; 2; 3]) /\
  result_file (mk_machine (fun _ => false) (fun _ => false) (fun _ => true) (fun _ => true) 9) (mk_path true [[97]; [98]]) [1; 2; 3; 4] = Ok (Some [1; 2; 3; 4]) /\
  legacy_folder (mk_machine (fun _ => false) (fun _ => true) (fun _ => true) (fun _ => true) 9) (mk_path false [[97]; [98]]) = Ok tt.
Proof.
  split; [exact ex_json|]. split; [intros b; reflexivity|]. split.
  { intros a b Ha Hb. cbn [In] in Ha, Hb.
    destruct Ha as [<- | [<- | [<- | []]]]; destruct Hb as [<- | [<- | [<- | []]]]; intros L; try discriminate L; reflexivity. }
  repeat split; vm_compute; reflexivity.
Qed.

Print Assumptions C102_fresh.
Print Assumptions C102_old.
Print Assumptions C102_believed.
Print Assumptions C102_history.
Print Assumptions C102_read_only.
Print Assumptions C102_cut.
Print Assumptions C102_columns_refuted.
Print Assumptions C102_result.
Print Assumptions C102_bare_refuted.
Print Assumptions C102_unnoticed_refuted.
Print Assumptions C102_index_file.
Print Assumptions C102_nested_refuted.
Print Assumptions C102_legacy_folder.
