From Coq Require Import List NArith Lia Bool Permutation Sorted Arith.
From Verif Require Import Base BaseProofs JoinModel JoinSpec JoinProofs JoinProofs2 JoinProofs3 JoinProofs4 JoinProofs5.
Import ListNotations.

Section One.
Variable Key : Type.
Variable keqb : Key -> Key -> bool.
Hypothesis keqb_spec : forall a b, keqb a b = true <-> a = b.
Variable empty_key : Key.
Variable kleb : Key -> Key -> bool.
Hypothesis kleb_total : forall x y, kleb x y = true \/ kleb y x = true.
Hypothesis kleb_trans : forall x y z, kleb x y = true -> kleb y z = true -> kleb x z = true.
Hypothesis kleb_anti : forall x y, kleb x y = true -> kleb y x = true -> x = y.

Notation Rk := (fun a b => kleb a b = true).

Section P.
Variable Line : Type.
Variable empty_line header : Line.
Variable line_key : Line -> Key.

Lemma sorted_rows_perm : forall rows, Permutation (sorted_rows line_key kleb rows) rows.
Proof. intros. apply sort_perm. Qed.

Lemma sorted_rows_sorted : forall rows,
  StronglySorted Rk (map line_key (sorted_rows line_key kleb rows)).
Proof.
  intros rows. unfold sorted_rows.
  assert (H := sort_sorted Line (fun a b => kleb (line_key a) (line_key b))
                ltac:(intros; apply kleb_total) ltac:(intros x y z; apply kleb_trans) rows).
  induction H as [|x l Hs IH Hf]; simpl; constructor; auto.
  rewrite Forall_forall in *. intros k Hk. apply in_map_iff in Hk.
  destruct Hk as (y & <- & Hy). apply Hf. auto.
Qed.

Lemma party_init_ok : forall bs rows,
  0 < bs -> rows <> [] -> (N.of_nat (length rows) < max32)%N ->
  exists es m, party_init keqb empty_key line_key kleb bs rows =
               Ok (sorted_rows line_key kleb rows, es, m) /\
    expand es = map line_key (sorted_rows line_key kleb rows) /\ tiles 0 es /\
    NoDup (map ke_key es) /\
    map ke_key es = distinct keqb (map line_key (sorted_rows line_key kleb rows)).
Proof.
  intros bs rows Hbs Hne Hb. unfold party_init.
  replace (negb (length rows =? 0)) with true by (destruct rows; [congruence|reflexivity]).
  cbn [enforce].
  set (srt := sorted_rows line_key kleb rows).
  destruct (key_info_make keqb empty_key (chunks bs (map line_key srt))) as [es m] eqn:E.
  exists es, m. split; [reflexivity|].
  assert (Hlen : length srt = length rows).
  { apply Permutation_length. apply sorted_rows_perm. }
  destruct (key_info_facts Key keqb keqb_spec empty_key Rk kleb_anti
             (map line_key srt) (chunks bs (map line_key srt)) es m)
    as (F1 & F2 & F3 & F4 & F5 & F6); auto.
  - apply chunks_concat. auto.
  - apply Forall_forall. intros c Hc. apply (chunks_nonempty _ bs _ c Hbs) in Hc. tauto.
  - destruct rows; [congruence|]. destruct srt; [discriminate|discriminate].
  - rewrite map_length. lia.
  - apply sorted_rows_sorted.
Qed.

Variable Peer : Type.
Variable peer_key : Peer -> Key.

Definition pcount (peer : list Peer) : Key -> nat := fun k => key_count keqb peer_key k peer.

Lemma deal_exact : forall t self left bs rows es m peer f,
  0 < bs -> rows <> [] -> (N.of_nat (length rows) < max32)%N ->
  (N.of_nat (length peer) < max32)%N ->
  party_init keqb empty_key line_key kleb bs rows = Ok (sorted_rows line_key kleb rows, es, m) ->
  Permutation f (exact_index keqb peer_key (map ke_key es) peer) ->
  let srt := sorted_rows line_key kleb rows in
  exists d s,
  deal_result_index empty_line header t self left bs srt es (sort_index_file f) = Ok (d, s) /\
  d_int d = (if has_intersect t then Some (header :: intersect_rows line_key (pcount peer) srt) else None) /\
  d_exc d = (if has_except t self left then Some (header :: except_rows line_key (pcount peer) srt) else None) /\
  s_original s = N.of_nat (length rows) /\
  s_self s = N.of_nat (length rows - length (except_rows line_key (pcount peer) srt)) /\
  s_peer s = N.of_nat (length peer - length (except_rows peer_key (fun k => key_count keqb line_key k rows) peer)) /\
  s_uniq s = N.of_nat (length (filter (fun k => negb (Nat.eqb (pcount peer k) 0)) (map ke_key es))) /\
  s_join s = u32 (N.of_nat (length (intersect_rows line_key (pcount peer) srt))).
Proof.
  intros t self left bs rows es m peer f Hbs Hne Hb Hbp Hinit Hperm srt.
  destruct (party_init_ok bs rows Hbs Hne Hb) as (es' & m' & Hi & F1 & F2 & F3 & F4).
  rewrite Hinit in Hi. injection Hi as <- <-. fold srt in F1, F4.
  assert (Hlen : length srt = length rows) by (apply Permutation_length, sorted_rows_perm).
  assert (Hdk : length (map ke_key es) = length es) by apply map_length.
  assert (Hval := exact_index_valid Key keqb Peer peer_key (map ke_key es) peer).
  rewrite Hdk in Hval.
  rewrite (sort_index_unique f (exact_index keqb peer_key (map ke_key es) peer)) by (auto; apply Hval).
  destruct (apply_exact Key keqb keqb_spec Line empty_line header line_key
              (map line_key srt) es srt
              (chunks bs (map (fun e => (ke_start e, ke_dup e)) es))
              (exact_index keqb peer_key (map ke_key es) peer) (make_dumper t self left))
    as (ec & HA); auto.
  - rewrite map_length. lia.
  - apply chunks_concat. auto.
  - apply Forall_forall. intros c Hc. apply (chunks_nonempty _ bs _ c Hbs) in Hc. tauto.
  - apply exact_index_snd. auto.
  - unfold deal_result_index. cbv zeta in HA. 
    set (mult := listed_mult keqb (map ke_key es) (exact_index keqb peer_key (map ke_key es) peer)) in *.
    assert (Hmult : forall r, In r srt -> mult (line_key r) = pcount peer (line_key r)).
    { intros r Hr. unfold mult, pcount. apply exact_mult; auto.
      rewrite F4. apply (in_distinct Key keqb keqb_spec). apply in_map. auto. }
    eexists _, _. split; [exact HA|].
    rewrite (intersect_rows_ext Key Line line_key mult (pcount peer) srt Hmult).
    rewrite (except_rows_ext Key Line line_key mult (pcount peer) srt Hmult).
    cbn [dext d_int d_exc d_icnt d_ecnt s_original s_self s_peer s_join s_uniq].
    split; [unfold make_dumper; destruct (has_intersect t); reflexivity|].
    split; [unfold make_dumper; destruct (has_except t self left); reflexivity|].
    split; [lia|].
    split; [|split; [|split]].
    + assert (Hsp : length (listed_rows Key Line line_key mult srt) +
                    length (except_rows line_key (pcount peer) srt) = length srt).
      { unfold listed_rows, except_rows. clear -Hmult. revert Hmult.
        induction srt as [|r l IH]; intros Hm; auto. simpl.
        rewrite (Hm r) by (left; auto).
        specialize (IH ltac:(intros; apply Hm; right; auto)).
        destruct (pcount peer (line_key r) =? 0); simpl; lia. }
      lia.
    + unfold exact_index. rewrite (exact_sum_peer Key keqb keqb_spec) by auto.
      assert (Hsp := rows_in_split Key keqb keqb_spec Line Peer line_key peer_key srt peer).
      rewrite <- F4 in Hsp.
      assert (Hex : except_rows peer_key (fun k => key_count keqb line_key k srt) peer =
                    except_rows peer_key (fun k => key_count keqb line_key k rows) peer).
      { apply except_rows_ext. intros r _. apply (key_count_perm Key keqb keqb_spec).
        apply sorted_rows_perm. }
      rewrite Hex in Hsp. rewrite u32_small by lia. lia.
    + f_equal. unfold exact_index. generalize 0%N. unfold pcount. clear.
      induction (map ke_key es) as [|k dk IH]; intros i; auto.
      cbn [exact_index_from filter]. destruct (key_count keqb peer_key k peer); cbn [negb Nat.eqb]; auto.
      simpl. f_equal. auto.
    + reflexivity.
Qed.

End P.

Variable L Rr : Type.
Variable lempty lheader : L.
Variable rempty rheader : Rr.
Variable lkey : L -> Key.
Variable rkey : Rr -> Key.

(** Segments of the two outputs, by join type. *)
Definition seg_left (t : join_type) (ls : list L) (rs : list Rr) : list (option L) :=
  let cnt := fun k => key_count keqb rkey k rs in
  let srt := sorted_rows lkey kleb ls in
  let i := map Some (intersect_rows lkey cnt srt) in
  let e := map Some (except_rows lkey cnt srt) in
  let n := repeat None (length (except_rows rkey (fun k => key_count keqb lkey k ls)
                                            (sorted_rows rkey kleb rs))) in
  match t with
  | JInner => i | JLeft => i ++ e | JRight => i ++ n | JFull => i ++ e ++ n | JDifference => e ++ n
  end.
Definition seg_right (t : join_type) (ls : list L) (rs : list Rr) : list (option Rr) :=
  let cnt := fun k => key_count keqb lkey k ls in
  let srt := sorted_rows rkey kleb rs in
  let i := map Some (intersect_rows rkey cnt srt) in
  let e := map Some (except_rows rkey cnt srt) in
  let n := repeat None (length (except_rows lkey (fun k => key_count keqb rkey k rs)
                                            (sorted_rows lkey kleb ls))) in
  match t with
  | JInner => i | JLeft => i ++ n | JRight => i ++ e | JFull => i ++ n ++ e | JDifference => n ++ e
  end.

Lemma two_party_bodies : forall t rl rr bl br ls rs esl ml esr mr fl fr,
  rl <> rr -> 0 < bl -> 0 < br -> ls <> [] -> rs <> [] ->
  (N.of_nat (length ls) < max32)%N -> (N.of_nat (length rs) < max32)%N ->
  party_init keqb empty_key lkey kleb bl ls = Ok (sorted_rows lkey kleb ls, esl, ml) ->
  party_init keqb empty_key rkey kleb br rs = Ok (sorted_rows rkey kleb rs, esr, mr) ->
  Permutation fl (exact_index keqb rkey (map ke_key esl) rs) ->
  Permutation fr (exact_index keqb lkey (map ke_key esr) ls) ->
  exists ol sl or sr,
    party_finalize lempty lheader t rl rl bl (sorted_rows lkey kleb ls) esl fl (s_original sr) = Ok (ol, sl) /\
    party_finalize rempty rheader t rr rl br (sorted_rows rkey kleb rs) esr fr (s_original sl) = Ok (or, sr) /\
    hd_error ol = Some OHead /\ hd_error or = Some OHead /\
    body ol = seg_left t ls rs /\ body or = seg_right t ls rs.
Proof.
  intros t rl rr bl br ls rs esl ml esr mr fl fr Hr Hbl Hbr Hl0 Hr0 Hl Hrr Hil Hir Hfl Hfr.
  destruct (deal_exact L lempty lheader lkey Rr rkey t rl rl bl ls esl ml rs fl Hbl Hl0 Hl Hrr Hil Hfl)
    as (dl & sl & L1 & L2 & L3 & L4 & L5 & L6 & _).
  destruct (deal_exact Rr rempty rheader rkey L lkey t rr rl br rs esr mr ls fr Hbr Hr0 Hrr Hl Hir Hfr)
    as (dr & sr & R1 & R2 & R3 & R4 & R5 & R6 & _).
  set (srtl := sorted_rows lkey kleb ls) in *.
  set (srtr := sorted_rows rkey kleb rs) in *.
  assert (Pl : Permutation srtl ls) by apply sorted_rows_perm.
  assert (Pr : Permutation srtr rs) by apply sorted_rows_perm.
  assert (Cr : forall k, key_count keqb rkey k rs = key_count keqb rkey k srtr).
  { intros k. apply (key_count_perm Key keqb keqb_spec). apply Permutation_sym. auto. }
  assert (Cl : forall k, key_count keqb lkey k ls = key_count keqb lkey k srtl).
  { intros k. apply (key_count_perm Key keqb keqb_spec). apply Permutation_sym. auto. }
  set (exl := except_rows lkey (fun k => key_count keqb rkey k rs) srtl) in *.
  set (exr := except_rows rkey (fun k => key_count keqb lkey k ls) srtr) in *.
  set (inl := intersect_rows lkey (fun k => key_count keqb rkey k rs) srtl) in *.
  set (inr := intersect_rows rkey (fun k => key_count keqb lkey k ls) srtr) in *.
  change (intersect_rows lkey (pcount Rr rkey rs) srtl) with inl in L2.
  change (except_rows lkey (pcount Rr rkey rs) srtl) with exl in L3, L5.
  change (intersect_rows rkey (pcount L lkey ls) srtr) with inr in R2.
  change (except_rows rkey (pcount L lkey ls) srtr) with exr in R3, R5.
  assert (Pexl : Permutation exl (except_rows lkey (fun k => key_count keqb rkey k rs) ls)).
  { apply except_rows_perm. auto. }
  assert (Pexr : Permutation exr (except_rows rkey (fun k => key_count keqb lkey k ls) rs)).
  { apply except_rows_perm. auto. }
  assert (Hexl_le : length (except_rows lkey (fun k => key_count keqb rkey k rs) ls) <= length ls).
  { unfold except_rows. clear. induction ls; simpl; auto. destruct (_ =? 0); simpl; lia. }
  assert (Hexr_le : length (except_rows rkey (fun k => key_count keqb lkey k ls) rs) <= length rs).
  { unfold except_rows. clear. induction rs; simpl; auto. destruct (_ =? 0); simpl; lia. }
  assert (Nl : N.to_nat (u32 (u32 (u64 (s_original sr + max64 - s_peer sl)))) = length exr).
  { rewrite (Permutation_length Pexr). rewrite R4, L6.
    set (x := length (except_rows rkey _ rs)) in *.
    replace (N.of_nat (length rs) + max64 - N.of_nat (length rs - x))%N with (N.of_nat x + 1 * max64)%N by lia.
    unfold u64. rewrite N.mod_add by discriminate. fold (u64 (N.of_nat x)).
    assert (Hx : (N.of_nat x < max32)%N) by lia.
    rewrite u64_small; [|eapply N.lt_trans; [exact Hx|reflexivity]].
    rewrite !u32_small by (rewrite ?u32_small; auto). lia. }
  assert (Nr : N.to_nat (u32 (u32 (u64 (s_original sl + max64 - s_peer sr)))) = length exl).
  { rewrite (Permutation_length Pexl). rewrite L4, R6.
    set (x := length (except_rows lkey _ ls)) in *.
    replace (N.of_nat (length ls) + max64 - N.of_nat (length ls - x))%N with (N.of_nat x + 1 * max64)%N by lia.
    unfold u64. rewrite N.mod_add by discriminate. fold (u64 (N.of_nat x)).
    assert (Hx : (N.of_nat x < max32)%N) by lia.
    rewrite u64_small; [|eapply N.lt_trans; [exact Hx|reflexivity]].
    rewrite !u32_small by (rewrite ?u32_small; auto). lia. }
  unfold party_finalize.
  eexists _, sl, _, sr.
  split; [rewrite L1; cbn [bind]; reflexivity|].
  split; [rewrite R1; cbn [bind]; reflexivity|].
  assert (Rll : role_eqb rl rl = true) by (destruct rl; reflexivity).
  assert (Rrl : role_eqb rr rl = false) by (destruct rl, rr; congruence || reflexivity).
  assert (Rlr : role_eqb rl rr = false) by (destruct rl, rr; congruence || reflexivity).
  unfold generate_result. rewrite L2, L3, R2, R3, Nl, Nr, Rll, Rrl.
  assert (B1 : forall (T : Type) (l : list T),
     map (fun x => match x with OLine l => Some l | _ => None end) (map OLine l) = map Some l).
  { intros T l. rewrite map_map. reflexivity. }
  assert (B2 : forall (T : Type) n,
     map (fun x : oline T => match x with OLine l => Some l | _ => None end) (repeat ONull n) = repeat None n).
  { intros T n. induction n; simpl; f_equal; auto. }
  unfold body, seg_left, seg_right.
  fold srtl srtr. fold exl exr inl inr.
  destruct t; unfold has_except, has_intersect; rewrite ?Rll, ?Rlr; cbn [negb andb app tl write_output hd_error];
    repeat rewrite map_app; repeat rewrite app_nil_r;
    rewrite ?B1, ?B2; cbn [map app]; rewrite ?app_nil_r;
    (split; [reflexivity|split; [reflexivity|split; reflexivity]]).
Qed.

Lemma seg_facts : forall t ls rs,
  Forall2 (lines_match lkey rkey) (seg_left t ls rs) (seg_right t ls rs) /\
  Permutation (seg_left t ls rs) (map fst (sql_join keqb lkey rkey t ls rs)) /\
  Permutation (seg_right t ls rs) (map snd (sql_join keqb lkey rkey t ls rs)).
Proof.
  intros t ls rs. unfold seg_left, seg_right. cbv zeta.
  set (srtl := sorted_rows lkey kleb ls) in *.
  set (srtr := sorted_rows rkey kleb rs) in *.
  assert (Pl : Permutation srtl ls) by apply sorted_rows_perm.
  assert (Pr : Permutation srtr rs) by apply sorted_rows_perm.
  assert (Cr : forall k, key_count keqb rkey k rs = key_count keqb rkey k srtr).
  { intros k. apply (key_count_perm Key keqb keqb_spec). apply Permutation_sym. auto. }
  assert (Cl : forall k, key_count keqb lkey k ls = key_count keqb lkey k srtl).
  { intros k. apply (key_count_perm Key keqb keqb_spec). apply Permutation_sym. auto. }
  set (exl := except_rows lkey (fun k => key_count keqb rkey k rs) srtl) in *.
  set (exr := except_rows rkey (fun k => key_count keqb lkey k ls) srtr) in *.
  set (inl := intersect_rows lkey (fun k => key_count keqb rkey k rs) srtl) in *.
  set (inr := intersect_rows rkey (fun k => key_count keqb lkey k ls) srtr) in *.
  assert (Pexl : Permutation exl (except_rows lkey (fun k => key_count keqb rkey k rs) ls)).
  { apply except_rows_perm. auto. }
  assert (Pexr : Permutation exr (except_rows rkey (fun k => key_count keqb lkey k ls) rs)).
  { apply except_rows_perm. auto. }
  assert (Hal : map lkey inl = map rkey inr).
  { unfold inl, inr.
    rewrite (intersect_rows_ext Key L lkey _ (fun k => key_count keqb rkey k srtr)) by (intros; apply Cr).
    rewrite (intersect_rows_ext Key Rr rkey _ (fun k => key_count keqb lkey k srtl)) by (intros; apply Cl).
    apply (intersect_aligned Key keqb keqb_spec Rk); auto.
    - intros x. destruct (kleb_total x x); auto.
    - apply sorted_rows_sorted.
    - apply sorted_rows_sorted. }
  assert (F2i : Forall2 (lines_match lkey rkey) (map Some inl) (map Some inr)) by (apply Forall2_map_eq; auto).
  assert (F2l : Forall2 (lines_match lkey rkey) (map Some exl) (repeat None (length exl))) by apply Forall2_right_null.
  assert (F2r : Forall2 (lines_match lkey rkey) (repeat None (length exr)) (map Some exr)) by apply Forall2_left_null.
  assert (Sil : Permutation (map Some inl) (map fst (sql_matched keqb lkey rkey ls rs))).
  { rewrite sql_matched_fst. apply Permutation_map. apply intersect_rows_perm. auto. }
  assert (Sir : Permutation (map Some inr) (map snd (sql_matched keqb lkey rkey ls rs))).
  { rewrite (sql_matched_snd Key keqb keqb_spec). apply Permutation_map. apply intersect_rows_perm. auto. }
  assert (Snull : forall (A B : Type) (g : A -> option B) (l : list A) n, length l = n ->
            (forall a, g a = None) -> map g l = repeat None n).
  { intros A B g l n <- Hg. induction l; simpl; f_equal; auto. }
  assert (Sll : Permutation (map Some exl) (map fst (sql_left_only keqb lkey rkey ls rs))).
  { rewrite sql_left_only_eq, map_map. simpl. apply Permutation_map. auto. }
  assert (Slr : Permutation (repeat None (length exl)) (map snd (sql_left_only keqb lkey rkey ls rs))).
  { rewrite sql_left_only_eq, map_map. simpl.
    rewrite (Snull _ _ _ _ (length exl)); auto. symmetry. apply Permutation_length. auto. }
  assert (Srr : Permutation (map Some exr) (map snd (sql_right_only keqb lkey rkey ls rs))).
  { rewrite (sql_right_only_eq Key keqb keqb_spec), map_map. simpl. apply Permutation_map. auto. }
  assert (Srl : Permutation (repeat None (length exr)) (map fst (sql_right_only keqb lkey rkey ls rs))).
  { rewrite (sql_right_only_eq Key keqb keqb_spec), map_map. simpl.
    rewrite (Snull _ _ _ _ (length exr)); auto. symmetry. apply Permutation_length. auto. }
  destruct t; unfold sql_join; repeat rewrite map_app;
    (split; [|split]);
    repeat first [assumption | apply Forall2_app | apply Permutation_app].
Qed.

Lemma two_party_join : forall t rl rr bl br ls rs esl ml esr mr fl fr,
  rl <> rr -> 0 < bl -> 0 < br -> ls <> [] -> rs <> [] ->
  (N.of_nat (length ls) < max32)%N -> (N.of_nat (length rs) < max32)%N ->
  party_init keqb empty_key lkey kleb bl ls = Ok (sorted_rows lkey kleb ls, esl, ml) ->
  party_init keqb empty_key rkey kleb br rs = Ok (sorted_rows rkey kleb rs, esr, mr) ->
  Permutation fl (exact_index keqb rkey (map ke_key esl) rs) ->
  Permutation fr (exact_index keqb lkey (map ke_key esr) ls) ->
  exists ol sl or sr,
    party_finalize lempty lheader t rl rl bl (sorted_rows lkey kleb ls) esl fl (s_original sr) = Ok (ol, sl) /\
    party_finalize rempty rheader t rr rl br (sorted_rows rkey kleb rs) esr fr (s_original sl) = Ok (or, sr) /\
    Forall2 (lines_match lkey rkey) (body ol) (body or) /\
    Permutation (body ol) (map fst (sql_join keqb lkey rkey t ls rs)) /\
    Permutation (body or) (map snd (sql_join keqb lkey rkey t ls rs)) /\
    hd_error ol = Some OHead /\ hd_error or = Some OHead.
Proof.
  intros t rl rr bl br ls rs esl ml esr mr fl fr Hr Hbl Hbr Hl0 Hr0 Hl Hrr Hil Hir Hfl Hfr.
  destruct (two_party_bodies t rl rr bl br ls rs esl ml esr mr fl fr) as
    (ol & sl & or & sr & B1 & B2 & B3 & B4 & B5 & B6); auto.
  exists ol, sl, or, sr. rewrite B5, B6. destruct (seg_facts t ls rs) as (S1 & S2 & S3). auto 10.
Qed.

End One.
