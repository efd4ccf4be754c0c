From Coq Require Import List NArith Lia Bool Permutation Sorted Arith.
From Verif Require Import Base BaseProofs JoinModel JoinSpec JoinProofs JoinProofs2 JoinProofs3 JoinProofs4 JoinProofs5 JoinProofs6.
Import ListNotations.

(* ------------------------------------------------------------------ *)
(** * C01 *)
Section C01.
Variable Key : Type.
Variable keqb : Key -> Key -> bool.
Hypothesis keqb_spec : forall a b, keqb a b = true <-> a = b.
Variable empty_key : Key.
Variable R : Key -> Key -> Prop.
Hypothesis R_anti : forall x y, R x y -> R y x -> x = y.

Lemma tiles_starts_sorted : forall (es : list (kentry Key)) s,
  tiles s es -> StronglySorted N.lt (map ke_start es) /\ Forall (fun x => (s <= x)%N) (map ke_start es).
Proof.
  induction es as [|e es IH]; intros s H; simpl; [split; constructor|].
  simpl in H. destruct H as [H1 H2]. destruct (IH _ H2) as [I1 I2]. split.
  - constructor; auto. eapply Forall_impl; [|exact I2]. intros a Ha. simpl in *. lia.
  - constructor; [lia|]. eapply Forall_impl; [|exact I2]. intros a Ha. simpl in *. lia.
Qed.

Lemma expand_count : forall (es : list (kentry Key)) e,
  NoDup (map ke_key es) -> In e es ->
  length (filter (fun k => keqb (ke_key e) k) (expand es)) = N.to_nat (ke_dup e) + 1.
Proof.
  intros es e Hn He. apply in_split in He. destruct He as (a & b & ->).
  rewrite map_app in Hn. simpl in Hn. apply NoDup_remove in Hn. destruct Hn as [_ Hn].
  rewrite in_app_iff in Hn. rewrite expand_app. simpl.
  rewrite !filter_app, !app_length.
  rewrite (filter_none _ _ (expand a)).
  2:{ intros k Hk. apply (in_expand Key a) in Hk. apply (keqb_neq Key keqb keqb_spec). intros E. subst. tauto. }
  rewrite (filter_none _ _ (expand b)).
  2:{ intros k Hk. apply (in_expand Key b) in Hk. apply (keqb_neq Key keqb keqb_spec). intros E. subst. tauto. }
  rewrite filter_all.
  - rewrite repeat_length. simpl. lia.
  - intros k Hk. apply repeat_spec in Hk. subst. apply keqb_spec. auto.
Qed.

Lemma key_info_full : forall keys bs es m,
  concat bs = keys -> Forall (fun b => b <> []) bs -> keys <> [] ->
  (N.of_nat (length keys) < max32)%N -> StronglySorted R keys ->
  key_info_make keqb empty_key bs = (es, m) ->
  (forall k, In k keys <-> In k (map ke_key es)) /\
  NoDup (map ke_key es) /\
  (forall e j, In e es ->
     ((ke_start e <= N.of_nat j <= ke_start e + ke_dup e)%N <-> nth_error keys j = Some (ke_key e))) /\
  StronglySorted N.lt (map ke_start es) /\
  km_origin m = N.of_nat (length keys) /\
  km_unique m = N.of_nat (length (distinct keqb keys)) /\
  km_dup m = N.of_nat (length (filter (fun k => 1 <? key_count keqb (fun x => x) k keys) (distinct keqb keys))).
Proof.
  intros keys bs es m Hc Hne Hnn Hb Hs H.
  destruct (key_info_facts Key keqb keqb_spec empty_key R R_anti keys bs es m Hc Hne Hnn Hb Hs H)
    as (F1 & F2 & F3 & F4 & F5 & F6).
  split; [|split; [auto|split; [|split]]].
  - intros k. rewrite <- F1. apply in_expand.
  - intros e j He. apply in_split in He. destruct He as (a & b & Hes).
    rewrite Hes in F2. pose proof (tiles_start Key a e b 0 F2) as Hst. 
    rewrite <- F1, Hes. rewrite <- (expand_position Key a e b j) by (rewrite <- Hes; auto). lia.
  - apply (tiles_starts_sorted es 0). auto.
  - assert (Hm : m = fold_left kcount es (mk_kmeta 0 0 0)).
    { unfold key_info_make in H. inversion H. reflexivity. }
    assert (Hle : (N.of_nat (length es) <= total es)%N).
    { pose proof (expand_length_ge _ es). pose proof (expand_length _ es). lia. }
    rewrite kcount_fold in Hm; cbn [km_unique km_origin km_dup] in *; try lia.
    rewrite Hm. cbn [km_unique km_origin km_dup]. rewrite !N.add_0_l.
    rewrite <- F4, map_length. split; [auto|]. split; [auto|].
    f_equal. 
    assert (Hx : forall es', incl es' es ->
       length (filter (fun e => negb (ke_dup e =? 0)%N) es') =
       length (filter (fun k => 1 <? key_count keqb (fun x => x) k keys) (map ke_key es'))).
    { induction es' as [|e es' IH]; intros Hi; auto. simpl.
      assert (Hcnt : key_count keqb (fun x => x) (ke_key e) keys = N.to_nat (ke_dup e) + 1).
      { unfold key_count. rewrite <- F1. apply expand_count; auto. apply Hi. left; auto. }
      rewrite Hcnt. specialize (IH ltac:(intros x Hxx; apply Hi; right; auto)).
      destruct (ke_dup e =? 0)%N eqn:E.
      - apply N.eqb_eq in E. rewrite E. simpl. exact IH.
      - apply N.eqb_neq in E. assert (Hlt : (1 <? N.to_nat (ke_dup e) + 1) = true) by (apply Nat.ltb_lt; lia).
        rewrite Hlt. simpl. f_equal. exact IH. }
    apply Hx. apply incl_refl.
Qed.
End C01.

(* ------------------------------------------------------------------ *)
(** * C02 / C03 on top of the model's own key info *)
Section C02.
Variable Key : Type.
Variable keqb : Key -> Key -> bool.
Hypothesis keqb_spec : forall a b, keqb a b = true <-> a = b.
Variable empty_key : Key.
Variable Line : Type.
Variable empty_line header : Line.
Variable line_key : Line -> Key.
Variable R : Key -> Key -> Prop.
Hypothesis R_anti : forall x y, R x y -> R y x -> x = y.

Lemma result_split : forall rows kb es m pb idx t self left,
  concat kb = map line_key rows -> Forall (fun b => b <> []) kb -> rows <> [] ->
  (N.of_nat (length rows) < max32)%N -> StronglySorted R (map line_key rows) ->
  key_info_make keqb empty_key kb = (es, m) ->
  concat pb = map (fun e => (ke_start e, ke_dup e)) es -> Forall (fun b => b <> []) pb ->
  Forall (fun ip => (snd ip < max32)%N) idx ->
  valid_index (length (distinct keqb (map line_key rows))) idx ->
  let mult := listed_mult keqb (distinct keqb (map line_key rows)) idx in
  exists d s,
    apply_peer_dup_cnt empty_line (header :: rows) pb idx (make_dumper t self left) = Ok (d, s) /\
    d_int d = (if has_intersect t then Some (header :: intersect_rows line_key mult rows) else None) /\
    d_exc d = (if has_except t self left then Some (header :: except_rows line_key mult rows) else None) /\
    s_original s = N.of_nat (length rows) /\
    s_self s = N.of_nat (length (filter (fun r => negb (Nat.eqb (mult (line_key r)) 0)) rows)) /\
    s_peer s = u32 (fold_right (fun ip a => snd ip + 1 + a)%N 0%N idx) /\
    s_uniq s = N.of_nat (length idx) /\
    s_join s = u32 (N.of_nat (length (intersect_rows line_key mult rows))).
Proof.
  intros rows kb es m pb idx t self left Hkb Hkne Hrne Hb Hs Hki Hpb Hpne Hsnd Hv mult.
  assert (Hkn : map line_key rows <> []) by (destruct rows; [congruence|discriminate]).
  destruct (key_info_facts Key keqb keqb_spec empty_key R R_anti (map line_key rows) kb es m
              Hkb Hkne Hkn ltac:(rewrite map_length; auto) Hs Hki) as (F1 & F2 & F3 & F4 & F5 & F6).
  rewrite <- F4, map_length in Hv.
  destruct (apply_exact Key keqb keqb_spec Line empty_line header line_key (map line_key rows) es rows pb idx
              (make_dumper t self left) F1 F2 F3 eq_refl ltac:(rewrite map_length; auto) Hpb Hpne Hsnd Hv)
    as (ec & HA).
  rewrite F4 in HA. fold mult in HA.
  eexists _, _. split; [exact HA|].
  cbn [dext d_int d_exc d_icnt d_ecnt s_original s_self s_peer s_join s_uniq].
  split; [unfold make_dumper; destruct (has_intersect t); reflexivity|].
  split; [unfold make_dumper; destruct (has_except t self left); reflexivity|].
  split; [auto|]. split; [reflexivity|]. split; [|split; auto].
  f_equal. clear. induction idx as [|[j p] idx IH]; simpl; auto. rewrite IH. reflexivity.
Qed.

Lemma result_rejects : forall rows kb es m pb idx d0,
  concat kb = map line_key rows -> Forall (fun b => b <> []) kb -> rows <> [] ->
  (N.of_nat (length rows) < max32)%N -> StronglySorted R (map line_key rows) ->
  key_info_make keqb empty_key kb = (es, m) ->
  concat pb = map (fun e => (ke_start e, ke_dup e)) es -> Forall (fun b => b <> []) pb ->
  ~ valid_index (length (distinct keqb (map line_key rows))) idx ->
  apply_peer_dup_cnt empty_line (header :: rows) pb idx d0 = Throw.
Proof.
  intros rows kb es m pb idx d0 Hkb Hkne Hrne Hb Hs Hki Hpb Hpne Hv.
  assert (Hkn : map line_key rows <> []) by (destruct rows; [congruence|discriminate]).
  destruct (key_info_facts Key keqb keqb_spec empty_key R R_anti (map line_key rows) kb es m
              Hkb Hkne Hkn ltac:(rewrite map_length; auto) Hs Hki) as (F1 & F2 & F3 & F4 & F5 & F6).
  rewrite <- F4, map_length in Hv.
  apply (apply_rejects Key Line empty_line header es); auto.
  pose proof (expand_length_ge _ es). pose proof (expand_length _ es).
  rewrite map_length in F5. lia.
Qed.

(** keys_unique tables. *)
Lemma unique_info_facts : forall (keys : list Key) i,
  expand (map (fun p => mk_kentry (snd p) (N.of_nat (fst p)) 0) (number i keys)) = keys /\
  tiles (N.of_nat i) (map (fun p => mk_kentry (snd p) (N.of_nat (fst p)) 0) (number i keys)) /\
  map ke_key (map (fun p => mk_kentry (snd p) (N.of_nat (fst p)) 0) (number i keys)) = keys.
Proof.
  induction keys as [|k keys IH]; intros i; simpl; [auto|].
  destruct (IH (S i)) as (H1 & H2 & H3). split; [|split].
  - f_equal. exact H1.
  - split; auto. replace (N.of_nat i + 0 + 1)%N with (N.of_nat (S i)) by lia. exact H2.
  - f_equal. exact H3.
Qed.

Variable full_leb : Line -> Line -> bool.

Lemma unique_result : forall rows bs align idx t self left,
  0 < bs -> NoDup (map line_key rows) -> (N.of_nat (length rows) < max32)%N ->
  Forall (fun ip => (snd ip < max32)%N) idx ->
  valid_index (length rows) idx ->
  let mult := listed_mult keqb (map line_key rows) idx in
  let inter := intersect_rows line_key mult rows in
  (N.of_nat (length inter) < max32)%N ->
  exists d s,
    deal_result_index_unique empty_line line_key header full_leb t self left bs align rows idx = Ok (d, s) /\
    d_int d = (if has_intersect t then
                 Some (header :: (if align then sort_by full_leb inter else inter)) else None) /\
    d_exc d = (if has_except t self left then Some (header :: except_rows line_key mult rows) else None).
Proof.
  intros rows bs align idx t self left Hbs Hn Hb Hsnd Hv mult inter Hib.
  destruct (unique_info_facts (map line_key rows) 0) as (U1 & U2 & U3).
  fold (unique_key_info (map line_key rows)) in U1, U2, U3.
  set (es := unique_key_info (map line_key rows)) in *.
  assert (Hel : length es = length rows).
  { rewrite <- (map_length ke_key es), U3, map_length. reflexivity. }
  destruct (apply_exact Key keqb keqb_spec Line empty_line header line_key (map line_key rows) es rows
              (chunks bs (map (fun e => (ke_start e, ke_dup e)) es)) idx
              (make_dumper t self left) U1 U2 ltac:(rewrite U3; auto) eq_refl ltac:(rewrite map_length; auto)
              (chunks_concat _ _ _ Hbs)
              ltac:(apply Forall_forall; intros c Hc; apply (chunks_nonempty _ bs _ c Hbs) in Hc; tauto)
              Hsnd ltac:(rewrite Hel; auto))
    as (ec & HA).
  rewrite U3 in HA. fold mult in HA. fold inter in HA.
  unfold deal_result_index_unique. fold es. rewrite HA. cbn [bind s_join d_int d_exc d_icnt dext].
  cbn [make_dumper d_icnt]. rewrite N.add_0_l. rewrite u32_small by auto.
  destruct align; cbn [andb].
  - destruct (N.of_nat (length inter) =? 0)%N eqn:E; cbn [negb].
    + eexists _, _. split; [reflexivity|].
      assert (inter = []) as -> by (destruct inter; [auto|apply N.eqb_eq in E; simpl in E; lia]).
      unfold make_dumper. destruct (has_intersect t), (has_except t self left); auto.
    + eexists _, _. split; [reflexivity|]. cbn [d_int d_exc].
      unfold make_dumper. destruct (has_intersect t), (has_except t self left); auto.
  - eexists _, _. split; [reflexivity|]. cbn [d_int d_exc].
    unfold make_dumper. destruct (has_intersect t), (has_except t self left); auto.
Qed.
End C02.

(* ------------------------------------------------------------------ *)
(** * Alignment of two unique-key tables whose key columns come first *)
Section C07.
Variable Key : Type.
Variable keqb : Key -> Key -> bool.
Hypothesis keqb_spec : forall a b, keqb a b = true <-> a = b.
Variable kleb : Key -> Key -> bool.
Hypothesis kleb_anti : forall x y, kleb x y = true -> kleb y x = true -> x = y.
Variable L R : Type.
Variable lkey : L -> Key.
Variable rkey : R -> Key.

Lemma sort_full_keys_sorted : forall (T : Type) (key : T -> Key) (leb : T -> T -> bool) l,
  (forall x y, leb x y = true \/ leb y x = true) ->
  (forall x y z, leb x y = true -> leb y z = true -> leb x z = true) ->
  (forall x y, leb x y = true -> kleb (key x) (key y) = true) ->
  StronglySorted (fun a b => kleb a b = true) (map key (sort_by leb l)).
Proof.
  intros T key leb l Ht Htr Hk.
  assert (H := sort_sorted T leb Ht Htr l).
  induction H as [|x s Hs IH Hf]; simpl; constructor; auto.
  rewrite Forall_forall in *. intros k Hin. apply in_map_iff in Hin.
  destruct Hin as (y & <- & Hy). auto.
Qed.

Lemma unique_aligned : forall (lleb : L -> L -> bool) (rleb : R -> R -> bool) ls rs,
  (forall x y, lleb x y = true \/ lleb y x = true) ->
  (forall x y z, lleb x y = true -> lleb y z = true -> lleb x z = true) ->
  (forall x y, lleb x y = true -> kleb (lkey x) (lkey y) = true) ->
  (forall x y, rleb x y = true \/ rleb y x = true) ->
  (forall x y z, rleb x y = true -> rleb y z = true -> rleb x z = true) ->
  (forall x y, rleb x y = true -> kleb (rkey x) (rkey y) = true) ->
  map lkey (sort_by lleb (intersect_rows lkey (fun k => key_count keqb rkey k rs) ls)) =
  map rkey (sort_by rleb (intersect_rows rkey (fun k => key_count keqb lkey k ls) rs)).
Proof.
  intros lleb rleb ls rs H1 H2 H3 H4 H5 H6.
  apply (sorted_perm_unique _ (fun a b => kleb a b = true)); auto using sort_full_keys_sorted.
  rewrite (Permutation_map lkey (sort_perm _ lleb _)).
  rewrite (Permutation_map rkey (sort_perm _ rleb _)).
  apply (Permutation_count_occ (key_dec Key keqb keqb_spec)). intros k.
  rewrite !count_intersect. lia.
Qed.
End C07.

(* ------------------------------------------------------------------ *)
(** * Pasting outputs when one side has unique keys *)
Section C06.
Variable Key : Type.
Variable keqb : Key -> Key -> bool.
Hypothesis keqb_spec : forall a b, keqb a b = true <-> a = b.

Lemma combine_app : forall (A B : Type) (a1 a2 : list A) (b1 b2 : list B),
  length a1 = length b1 -> combine (a1 ++ a2) (b1 ++ b2) = combine a1 b1 ++ combine a2 b2.
Proof.
  induction a1 as [|x a1 IH]; intros a2 [|y b1] b2 H; try discriminate; auto.
  simpl. f_equal. apply IH. inversion H. auto.
Qed.

Lemma combine_null_r : forall (A B : Type) (l : list A),
  combine (map Some l) (repeat (@None B) (length l)) = map (fun x => (Some x, None)) l.
Proof. induction l; simpl; f_equal; auto. Qed.

Lemma combine_null_l : forall (A B : Type) (l : list A),
  combine (repeat (@None B) (length l)) (map Some l) = map (fun x => (None, Some x)) l.
Proof. induction l; simpl; f_equal; auto. Qed.

Section Paste.
Variable L R : Type.
Variable lkey : L -> Key.
Variable rkey : R -> Key.

(** [a] aligned with [b], where [b]'s rows come from a table with unique keys. *)
Lemma paste_unique_right : forall rs a b,
  NoDup (map rkey rs) -> map lkey a = map rkey b -> incl b rs ->
  combine (map Some a) (map Some b) = sql_matched keqb lkey rkey a rs.
Proof.
  intros rs a. induction a as [|x a IH]; intros [|y b] Hn Hk Hi; try discriminate; auto.
  simpl in Hk. injection Hk as Hxy Hk. cbn [map combine sql_matched flat_map].
  unfold sql_matched in *. rewrite (IH b) by (auto; intros z Hz; apply Hi; right; auto).
  assert (Hf : filter (fun r => keqb (lkey x) (rkey r)) rs = [y]).
  { assert (Hy : In y rs) by (apply Hi; left; auto).
    apply in_split in Hy. destruct Hy as (p & q & ->).
    rewrite map_app in Hn. simpl in Hn. apply NoDup_remove in Hn. destruct Hn as [_ Hn].
    rewrite in_app_iff in Hn.
    rewrite filter_app. simpl. rewrite (proj2 (keqb_spec _ _) Hxy).
    rewrite (filter_none _ _ p), (filter_none _ _ q); auto.
    - intros r Hr. apply (keqb_neq Key keqb keqb_spec). intros E. apply Hn. right.
      rewrite <- Hxy, E. apply in_map. auto.
    - intros r Hr. apply (keqb_neq Key keqb keqb_spec). intros E. apply Hn. left.
      rewrite <- Hxy, E. apply in_map. auto. }
  rewrite Hf. reflexivity.
Qed.

Lemma unique_count_le1 : forall rs k, NoDup (map rkey rs) -> key_count keqb rkey k rs <= 1.
Proof.
  intros rs k Hn. rewrite <- (count_occ_keys Key keqb keqb_spec).
  rewrite (NoDup_count_occ (key_dec Key keqb keqb_spec)) in Hn. apply Hn.
Qed.

Lemma matched_intersect : forall rs ls, NoDup (map rkey rs) ->
  sql_matched keqb lkey rkey (intersect_rows lkey (fun k => key_count keqb rkey k rs) ls) rs =
  sql_matched keqb lkey rkey ls rs.
Proof.
  intros rs ls Hn. unfold sql_matched, intersect_rows.
  induction ls as [|x ls IH]; auto. simpl. rewrite flat_map_app, IH. f_equal.
  pose proof (unique_count_le1 rs (lkey x) Hn) as Hc. unfold key_count in *.
  destruct (filter (fun r => keqb (lkey x) (rkey r)) rs) as [|y [|z q]] eqn:E; simpl in *; try lia; auto.
  rewrite E. reflexivity.
Qed.

Lemma intersect_incl : forall (T : Type) (key : T -> Key) m l, incl (intersect_rows key m l) l.
Proof.
  intros T key m l x Hx. apply in_flat_map in Hx. destruct Hx as (y & Hy & Hx).
  apply repeat_spec in Hx. subst. auto.
Qed.

Variable kleb : Key -> Key -> bool.
Hypothesis kleb_total : forall x y, kleb x y = true \/ kleb y x = true.
Hypothesis kleb_trans : forall x y z, kleb x y = true -> kleb y z = true -> kleb x z = true.
Hypothesis kleb_anti : forall x y, kleb x y = true -> kleb y x = true -> x = y.

Lemma sql_matched_perm_l : forall ls ls' rs, Permutation ls ls' ->
  Permutation (sql_matched keqb lkey rkey ls rs) (sql_matched keqb lkey rkey ls' rs).
Proof. intros. unfold sql_matched. apply Permutation_flat_map. auto. Qed.

Lemma paste_inner_right_unique : forall ls rs, NoDup (map rkey rs) ->
  Permutation
   (combine (map Some (intersect_rows lkey (fun k => key_count keqb rkey k rs) (sorted_rows lkey kleb ls)))
            (map Some (intersect_rows rkey (fun k => key_count keqb lkey k ls) (sorted_rows rkey kleb rs))))
   (sql_matched keqb lkey rkey ls rs).
Proof.
  intros ls rs Hn.
  rewrite (paste_unique_right rs); auto.
  - rewrite matched_intersect by auto. apply sql_matched_perm_l. apply sorted_rows_perm.
  - rewrite (intersect_rows_ext Key L lkey _ (fun k => key_count keqb rkey k (sorted_rows rkey kleb rs)))
      by (intros; apply (key_count_perm Key keqb keqb_spec); apply Permutation_sym, sorted_rows_perm).
    rewrite (intersect_rows_ext Key R rkey _ (fun k => key_count keqb lkey k (sorted_rows lkey kleb ls)))
      by (intros; apply (key_count_perm Key keqb keqb_spec); apply Permutation_sym, sorted_rows_perm).
    apply (intersect_aligned Key keqb keqb_spec (fun a b => kleb a b = true)); auto.
    + intros x. destruct (kleb_total x x); auto.
    + apply sorted_rows_sorted; auto.
    + apply sorted_rows_sorted; auto.
  - intros x Hx. apply intersect_incl in Hx.
    eapply Permutation_in; [apply sorted_rows_perm|exact Hx].
Qed.
End Paste.

Lemma combine_swap : forall (A B : Type) (a : list A) (b : list B),
  combine a b = map (fun p => (snd p, fst p)) (combine b a).
Proof. induction a as [|x a IH]; intros [|y b]; simpl; f_equal; auto. Qed.

Lemma sql_matched_swap : forall (L R : Type) (lkey : L -> Key) (rkey : R -> Key) ls rs,
  Permutation (sql_matched keqb lkey rkey ls rs)
              (map (fun p => (snd p, fst p)) (sql_matched keqb rkey lkey rs ls)).
Proof.
  intros L R lkey rkey ls rs. unfold sql_matched.
  assert (Hnil : forall (A B : Type) (l : list A), flat_map (fun _ => @nil B) l = []).
  { induction l; simpl; auto. }
  induction ls as [|x ls IH]; simpl.
  - rewrite Hnil. auto.
  - rewrite IH. clear IH. induction rs as [|y rs IHr]; simpl; auto.
    rewrite (keqb_sym Key keqb keqb_spec (rkey y) (lkey x)).
    destruct (keqb (lkey x) (rkey y)); simpl.
    + constructor. rewrite !map_app. rewrite <- IHr.
      rewrite !app_assoc. apply Permutation_app_tail. apply Permutation_app_comm.
    + rewrite !map_app. rewrite <- IHr.
      rewrite !app_assoc. apply Permutation_app_tail. apply Permutation_app_comm.
Qed.
End C06.

Lemma forall2_len : forall (A B : Type) (P : A -> B -> Prop) a b, Forall2 P a b -> length a = length b.
Proof. induction 1; simpl; auto. Qed.

Section C06b.
Variable Key : Type.
Variable keqb : Key -> Key -> bool.
Hypothesis keqb_spec : forall a b, keqb a b = true <-> a = b.
Variable kleb : Key -> Key -> bool.
Hypothesis kleb_total : forall x y, kleb x y = true \/ kleb y x = true.
Hypothesis kleb_trans : forall x y z, kleb x y = true -> kleb y z = true -> kleb x z = true.
Hypothesis kleb_anti : forall x y, kleb x y = true -> kleb y x = true -> x = y.
Variable L R : Type.
Variable lkey : L -> Key.
Variable rkey : R -> Key.

Lemma paste_inner : forall ls rs, NoDup (map lkey ls) \/ NoDup (map rkey rs) ->
  Permutation
   (combine (map Some (intersect_rows lkey (fun k => key_count keqb rkey k rs) (sorted_rows lkey kleb ls)))
            (map Some (intersect_rows rkey (fun k => key_count keqb lkey k ls) (sorted_rows rkey kleb rs))))
   (sql_matched keqb lkey rkey ls rs).
Proof.
  intros ls rs [Hn|Hn].
  - rewrite (combine_swap). rewrite (sql_matched_swap Key keqb keqb_spec).
    apply Permutation_map. apply paste_inner_right_unique; auto.
  - apply paste_inner_right_unique; auto.
Qed.

Lemma paste_seg : forall t ls rs, NoDup (map lkey ls) \/ NoDup (map rkey rs) ->
  Permutation (combine (seg_left Key keqb kleb L R lkey rkey t ls rs)
                       (seg_right Key keqb kleb L R lkey rkey t ls rs))
              (sql_join keqb lkey rkey t ls rs).
Proof.
  intros t ls rs Hn.
  pose proof (paste_inner ls rs Hn) as Hi.
  assert (Hlen : length (map Some (intersect_rows lkey (fun k => key_count keqb rkey k rs) (sorted_rows lkey kleb ls))) =
                 length (map Some (intersect_rows rkey (fun k => key_count keqb lkey k ls) (sorted_rows rkey kleb rs)))).
  { destruct (seg_facts Key keqb keqb_spec kleb kleb_total kleb_trans kleb_anti L R lkey rkey JInner ls rs) as (F & _ & _).
    apply forall2_len in F. exact F. }
  assert (Hl : Permutation (map (fun x => (Some x, @None R))
                 (except_rows lkey (fun k => key_count keqb rkey k rs) (sorted_rows lkey kleb ls)))
               (sql_left_only keqb lkey rkey ls rs)).
  { rewrite sql_left_only_eq. apply Permutation_map. apply except_rows_perm. apply sorted_rows_perm. }
  assert (Hr : Permutation (map (fun x => (@None L, Some x))
                 (except_rows rkey (fun k => key_count keqb lkey k ls) (sorted_rows rkey kleb rs)))
               (sql_right_only keqb lkey rkey ls rs)).
  { rewrite (sql_right_only_eq Key keqb keqb_spec). apply Permutation_map. apply except_rows_perm. apply sorted_rows_perm. }
  unfold seg_left, seg_right, sql_join. destruct t.
  - exact Hi.
  - rewrite combine_app by auto. rewrite combine_null_r. apply Permutation_app; auto.
  - rewrite combine_app by auto. rewrite combine_null_l. apply Permutation_app; auto.
  - rewrite combine_app by auto. apply Permutation_app; auto.
    rewrite combine_app by (rewrite map_length, repeat_length; auto).
    rewrite combine_null_l, combine_null_r. apply Permutation_app; auto.
  - rewrite combine_app by (rewrite map_length, repeat_length; auto).
    rewrite combine_null_l, combine_null_r. apply Permutation_app; auto.
Qed.
End C06b.
