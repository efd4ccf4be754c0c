From Coq Require Import List NArith Lia Bool Permutation Sorted Arith.
From Verif Require Import Base BaseProofs JoinModel JoinSpec JoinProofs JoinProofs2 JoinProofs3 JoinProofs4 JoinProofs5 JoinProofs6 JoinProofs7.
Import ListNotations.

Section Both.
Variable Key : Type.
Variable keqb : Key -> Key -> bool.
Hypothesis keqb_spec : forall a b, keqb a b = true <-> a = b.
Variable empty_key : Key.
Variable kleb : Key -> Key -> bool.
Hypothesis kleb_total : forall x y, kleb x y = true \/ kleb y x = true.
Hypothesis kleb_trans : forall x y z, kleb x y = true -> kleb y z = true -> kleb x z = true.
Hypothesis kleb_anti : forall x y, kleb x y = true -> kleb y x = true -> x = y.
Variable L R : Type.
Variable lempty lheader : L.
Variable rempty rheader : R.
Variable lkey : L -> Key.
Variable rkey : R -> Key.

Lemma party_finalize_split : forall (Line : Type) (e h : Line) t self left bs srt (es : list (kentry Key)) f n o s,
  party_finalize e h t self left bs srt es f n = Ok (o, s) ->
  exists d, deal_result_index e h t self left bs srt es (sort_index_file f) = Ok (d, s).
Proof.
  unfold party_finalize. intros. apply bind_ok_inv in H. destruct H as ([d s'] & H1 & H2).
  injection H2 as _ <-. exists d. auto.
Qed.

Lemma both_bodies : forall t rl rr bl br ls rs fl fr,
  rl <> rr -> 0 < bl -> 0 < br -> ls <> [] -> rs <> [] ->
  (N.of_nat (length ls) < max32)%N -> (N.of_nat (length rs) < max32)%N ->
  Permutation fl (exact_index keqb rkey (distinct keqb (map lkey (sorted_rows lkey kleb ls))) rs) ->
  Permutation fr (exact_index keqb lkey (distinct keqb (map rkey (sorted_rows rkey kleb rs))) ls) ->
  exists ol sl or sr,
    both_finalize keqb empty_key kleb lempty lheader lkey rempty rheader rkey t rl rr bl br ls rs fl fr
      = Ok (ol, sl, or, sr) /\
    hd_error ol = Some OHead /\ hd_error or = Some OHead /\
    body ol = seg_left Key keqb kleb L R lkey rkey t ls rs /\
    body or = seg_right Key keqb kleb L R lkey rkey t ls rs.
Proof.
  intros t rl rr bl br ls rs fl fr Hr Hbl Hbr Hl0 Hr0 Hl Hrr Hfl Hfr.
  destruct (party_init_ok Key keqb keqb_spec empty_key kleb kleb_total kleb_trans kleb_anti
              L lkey bl ls Hbl Hl0 Hl) as (esl & ml & Il & _ & _ & _ & Dl).
  destruct (party_init_ok Key keqb keqb_spec empty_key kleb kleb_total kleb_trans kleb_anti
              R rkey br rs Hbr Hr0 Hrr) as (esr & mr & Ir & _ & _ & _ & Dr).
  rewrite <- Dl in Hfl. rewrite <- Dr in Hfr.
  destruct (two_party_bodies Key keqb keqb_spec empty_key kleb kleb_total kleb_trans kleb_anti
              L R lempty lheader rempty rheader lkey rkey t rl rr bl br ls rs esl ml esr mr fl fr)
    as (ol & sl & or & sr & B1 & B2 & B3 & B4 & B5 & B6); auto.
  exists ol, sl, or, sr. unfold both_finalize. rewrite Il, Ir. cbn [bind].
  destruct (party_finalize_split _ _ _ _ _ _ _ _ _ _ _ _ _ B1) as (dl & D1).
  destruct (party_finalize_split _ _ _ _ _ _ _ _ _ _ _ _ _ B2) as (dr & D2).
  rewrite D1. cbn [bind]. rewrite D2. cbn [bind]. rewrite B1. cbn [bind]. rewrite B2. cbn [bind].
  auto.
Qed.

Lemma both_join : forall t rl rr bl br ls rs fl fr,
  rl <> rr -> 0 < bl -> 0 < br -> ls <> [] -> rs <> [] ->
  (N.of_nat (length ls) < max32)%N -> (N.of_nat (length rs) < max32)%N ->
  Permutation fl (exact_index keqb rkey (distinct keqb (map lkey (sorted_rows lkey kleb ls))) rs) ->
  Permutation fr (exact_index keqb lkey (distinct keqb (map rkey (sorted_rows rkey kleb rs))) ls) ->
  exists ol sl or sr,
    both_finalize keqb empty_key kleb lempty lheader lkey rempty rheader rkey t rl rr bl br ls rs fl fr
      = Ok (ol, sl, or, sr) /\
    hd_error ol = Some OHead /\ hd_error or = Some OHead /\
    Forall2 (lines_match lkey rkey) (body ol) (body or).
Proof.
  intros. edestruct (both_bodies t rl rr bl br ls rs fl fr) as (ol & sl & or & sr & B1 & B2 & B3 & B4 & B5); eauto.
  exists ol, sl, or, sr. rewrite B4, B5. repeat split; auto.
  apply (seg_facts Key keqb keqb_spec kleb); auto.
Qed.

Lemma both_sql : forall t rl rr bl br ls rs fl fr,
  rl <> rr -> 0 < bl -> 0 < br -> ls <> [] -> rs <> [] ->
  (N.of_nat (length ls) < max32)%N -> (N.of_nat (length rs) < max32)%N ->
  Permutation fl (exact_index keqb rkey (distinct keqb (map lkey (sorted_rows lkey kleb ls))) rs) ->
  Permutation fr (exact_index keqb lkey (distinct keqb (map rkey (sorted_rows rkey kleb rs))) ls) ->
  exists ol sl or sr,
    both_finalize keqb empty_key kleb lempty lheader lkey rempty rheader rkey t rl rr bl br ls rs fl fr
      = Ok (ol, sl, or, sr) /\
    Permutation (body ol) (map fst (sql_join keqb lkey rkey t ls rs)) /\
    Permutation (body or) (map snd (sql_join keqb lkey rkey t ls rs)).
Proof.
  intros. edestruct (both_bodies t rl rr bl br ls rs fl fr) as (ol & sl & or & sr & B1 & B2 & B3 & B4 & B5); eauto.
  exists ol, sl, or, sr. rewrite B4, B5. repeat split; auto;
  apply (seg_facts Key keqb keqb_spec kleb); auto.
Qed.

Lemma both_paste : forall t rl rr bl br ls rs fl fr,
  rl <> rr -> 0 < bl -> 0 < br -> ls <> [] -> rs <> [] ->
  (N.of_nat (length ls) < max32)%N -> (N.of_nat (length rs) < max32)%N ->
  Permutation fl (exact_index keqb rkey (distinct keqb (map lkey (sorted_rows lkey kleb ls))) rs) ->
  Permutation fr (exact_index keqb lkey (distinct keqb (map rkey (sorted_rows rkey kleb rs))) ls) ->
  NoDup (map lkey ls) \/ NoDup (map rkey rs) ->
  exists ol sl or sr,
    both_finalize keqb empty_key kleb lempty lheader lkey rempty rheader rkey t rl rr bl br ls rs fl fr
      = Ok (ol, sl, or, sr) /\
    Permutation (combine (body ol) (body or)) (sql_join keqb lkey rkey t ls rs).
Proof.
  intros. edestruct (both_bodies t rl rr bl br ls rs fl fr) as (ol & sl & or & sr & B1 & B2 & B3 & B4 & B5); eauto.
  exists ol, sl, or, sr. rewrite B4, B5. split; auto. apply paste_seg; auto.
Qed.

(** keys_unique *)
Variable lleb : L -> L -> bool.
Variable rleb : R -> R -> bool.

Lemma inner_body : forall (T : Type) self left (h : T) l,
  body (generate_result JInner self left (Some (h :: l)) None 0) = map Some l.
Proof.
  intros. unfold body, generate_result, write_output. cbn [tl app].
  rewrite !andb_false_r. cbn [app]. rewrite !app_nil_r. rewrite map_map. reflexivity.
Qed.

Lemma unique_one : forall (T P : Type) (e h : T) (key : T -> Key) (pkey : P -> Key) leb self left bs rows peer f n,
  0 < bs -> NoDup (map key rows) -> NoDup (map pkey peer) ->
  (N.of_nat (length rows) < max32)%N -> (N.of_nat (length peer) < max32)%N ->
  Permutation f (exact_index keqb pkey (map key rows) peer) ->
  exists o s,
    unique_finalize e key h leb JInner self left bs true rows f n = Ok (o, s) /\
    body o = map Some (sort_by leb (intersect_rows key (fun k => key_count keqb pkey k peer) rows)).
Proof.
  intros T P e h key pkey leb self left bs rows peer f n Hbs Hn Hnp Hb Hbp Hf.
  assert (Hval := exact_index_valid Key keqb P pkey (map key rows) peer).
  rewrite map_length in Hval.
  unfold unique_finalize.
  rewrite (sort_index_unique f (exact_index keqb pkey (map key rows) peer)) by (auto; apply Hval).
  assert (Hm : forall r, In r rows ->
     listed_mult keqb (map key rows) (exact_index keqb pkey (map key rows) peer) (key r) =
     key_count keqb pkey (key r) peer).
  { intros r Hr. apply (exact_mult Key keqb keqb_spec); auto. apply in_map. auto. }
  assert (Hle : length (intersect_rows key (fun k => key_count keqb pkey k peer) rows) <= length rows).
  { unfold intersect_rows. clear -Hnp keqb_spec. induction rows as [|r rows IH]; auto. simpl. rewrite app_length, repeat_length.
    pose proof (unique_count_le1 Key keqb keqb_spec P pkey peer (key r) Hnp). lia. }
  destruct (unique_result Key keqb keqb_spec T e h key leb rows bs true
             (exact_index keqb pkey (map key rows) peer) JInner self left) as (d & s & D1 & D2 & D3); auto.
  - apply exact_index_snd. auto.
  - rewrite (intersect_rows_ext Key T key _ (fun k => key_count keqb pkey k peer) rows Hm). lia.
  - rewrite D1. cbn [bind]. eexists _, _. split; [reflexivity|].
    rewrite (intersect_rows_ext Key T key _ (fun k => key_count keqb pkey k peer) rows Hm) in D2.
    cbn [has_intersect has_except] in D2, D3. rewrite D2, D3.
    unfold body, generate_result, write_output. cbn [tl app].
    rewrite !andb_false_r. cbn [app]. rewrite !app_nil_r. rewrite map_map. reflexivity.
Qed.

Lemma unique_both : forall rl rr bl br ls rs fl fr nl nr,
  0 < bl -> 0 < br -> NoDup (map lkey ls) -> NoDup (map rkey rs) ->
  (N.of_nat (length ls) < max32)%N -> (N.of_nat (length rs) < max32)%N ->
  Permutation fl (exact_index keqb rkey (map lkey ls) rs) ->
  Permutation fr (exact_index keqb lkey (map rkey rs) ls) ->
  (forall x y, lleb x y = true \/ lleb y x = true) ->
  (forall x y z, lleb x y = true -> lleb y z = true -> lleb x z = true) ->
  (forall x y, lleb x y = true -> kleb (lkey x) (lkey y) = true) ->
  (forall x y, rleb x y = true \/ rleb y x = true) ->
  (forall x y z, rleb x y = true -> rleb y z = true -> rleb x z = true) ->
  (forall x y, rleb x y = true -> kleb (rkey x) (rkey y) = true) ->
  exists ol sl or sr,
    unique_finalize lempty lkey lheader lleb JInner rl rl bl true ls fl nl = Ok (ol, sl) /\
    unique_finalize rempty rkey rheader rleb JInner rr rl br true rs fr nr = Ok (or, sr) /\
    map (option_map lkey) (body ol) = map (option_map rkey) (body or).
Proof.
  intros rl rr bl br ls rs fl fr nl nr Hbl Hbr Hnl Hnr Hl Hr Hfl Hfr A1 A2 A3 B1 B2 B3.
  destruct (unique_one L R lempty lheader lkey rkey lleb rl rl bl ls rs fl nl) as (ol & sl & X1 & X2); auto.
  destruct (unique_one R L rempty rheader rkey lkey rleb rr rl br rs ls fr nr) as (or & sr & Y1 & Y2); auto.
  exists ol, sl, or, sr. split; auto. split; auto. rewrite X2, Y2, !map_map. simpl.
  rewrite <- (map_map lkey Some), <- (map_map rkey Some). f_equal.
  apply (unique_aligned Key keqb keqb_spec kleb); auto.
Qed.
End Both.

(** Witnesses against the unrestricted claims. *)
Definition nleb (a b : N * N) : bool :=
  if (fst a <? fst b)%N then true else if (fst a =? fst b)%N then (snd a <=? snd b)%N else false.

Lemma paste_witness :
  exists ol sl or sr,
    both_finalize N.eqb 0%N N.leb (0, 0)%N (0, 0)%N fst (0, 0)%N (0, 0)%N fst JInner RoleReceiver RoleSender 2 2
      [(7, 1); (7, 2)]%N [(7, 11); (7, 12)]%N [(0, 1)]%N [(0, 1)]%N = Ok (ol, sl, or, sr) /\
    ~ Permutation (combine (body ol) (body or))
        (sql_join N.eqb fst fst JInner [(7, 1); (7, 2)]%N [(7, 11); (7, 12)]%N).
Proof.
  eexists _, _, _, _. split; [vm_compute; reflexivity|].
  intros H. 
  assert (Hin : In (Some (7, 1), Some (7, 12))%N (sql_join N.eqb (@fst N N) (@fst N N) JInner [(7, 1); (7, 2)]%N [(7, 11); (7, 12)]%N)).
  { vm_compute. auto. }
  apply Permutation_sym in H. apply (Permutation_in _ H) in Hin. vm_compute in Hin.
  intuition congruence.
Qed.

(** The party on the left has its key in the second column (value first). *)
Lemma unique_witness :
  exists ol sl or sr,
    unique_finalize (0, 0)%N snd (0, 0)%N nleb JInner RoleReceiver RoleReceiver 2 true
      [(9, 1); (8, 2)]%N [(0, 0); (1, 0)]%N 2 = Ok (ol, sl) /\
    unique_finalize (0, 0)%N fst (0, 0)%N nleb JInner RoleSender RoleReceiver 2 true
      [(1, 5); (2, 6)]%N [(0, 0); (1, 0)]%N 2 = Ok (or, sr) /\
    map (option_map snd) (body ol) <> map (option_map fst) (body or).
Proof.
  eexists _, _, _, _. split; [vm_compute; reflexivity|]. split; [vm_compute; reflexivity|].
  vm_compute. discriminate.
Qed.
