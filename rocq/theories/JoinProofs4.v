From Coq Require Import List NArith Lia Bool Permutation Sorted Arith.
From Verif Require Import Base BaseProofs JoinModel JoinSpec JoinProofs JoinProofs2 JoinProofs3.
Import ListNotations.

(* ------------------------------------------------------------------ *)
(** * Sorting *)
Section SortProofs.
Variable A : Type.
Variable leb : A -> A -> bool.

Lemma insert_perm : forall x l, Permutation (insert_by leb x l) (x :: l).
Proof.
  induction l as [|y l IH]; simpl; auto.
  destruct (leb x y); auto.
  rewrite IH. apply perm_swap.
Qed.

Lemma sort_perm : forall l, Permutation (sort_by leb l) l.
Proof.
  induction l as [|x l IH]; simpl; auto.
  rewrite insert_perm. auto.
Qed.

Hypothesis total : forall x y, leb x y = true \/ leb y x = true.
Hypothesis trans : forall x y z, leb x y = true -> leb y z = true -> leb x z = true.

Lemma insert_sorted : forall x l,
  StronglySorted (fun a b => leb a b = true) l ->
  StronglySorted (fun a b => leb a b = true) (insert_by leb x l).
Proof.
  induction l as [|y l IH]; intros H; simpl; [repeat constructor|].
  inversion H as [|? ? Hs Hf]; subst.
  destruct (leb x y) eqn:E.
  - constructor; auto. constructor; auto.
    rewrite Forall_forall in *. intros z Hz. eapply trans; eauto.
  - constructor; auto. rewrite Forall_forall in *. intros z Hz.
    apply (Permutation_in _ (insert_perm x l)) in Hz. destruct Hz as [<-|Hz]; auto.
    destruct (total x y); congruence.
Qed.

Lemma sort_sorted : forall l, StronglySorted (fun a b => leb a b = true) (sort_by leb l).
Proof. induction l; simpl; [constructor|apply insert_sorted; auto]. Qed.
End SortProofs.

(* ------------------------------------------------------------------ *)
(** * One party *)
Section Party.
Variable Key : Type.
Variable keqb : Key -> Key -> bool.
Hypothesis keqb_spec : forall a b, keqb a b = true <-> a = b.
Variable empty_key : Key.
Variable Line : Type.
Variable empty_line header : Line.
Variable line_key : Line -> Key.
Variable R : Key -> Key -> Prop.
Hypothesis R_anti : forall x y, R x y -> R y x -> x = y.

Lemma key_info_facts : forall (keys : list Key) bs es m,
  concat bs = keys -> Forall (fun b => b <> []) bs -> keys <> [] ->
  (N.of_nat (length keys) < max32)%N -> StronglySorted R keys ->
  key_info_make keqb empty_key bs = (es, m) ->
  expand es = keys /\ tiles 0 es /\ NoDup (map ke_key es) /\
  map ke_key es = distinct keqb keys /\ total es = N.of_nat (length keys) /\
  StronglySorted (fun a b => R a b /\ a <> b) (map ke_key es).
Proof.
  intros keys bs es m Hc Hne Hnn Hb Hs H. subst keys.
  pose proof (key_info_rle _ keqb empty_key keqb_spec bs es m Hne Hnn Hb H) as (H1 & H2 & H3).
  assert (Hstr := sorted_adj_strict Key R R_anti es H3 ltac:(rewrite H1; exact Hs)).
  assert (Hnd := strict_nodup Key R _ Hstr).
  split; [auto|]. split; [auto|]. split; [auto|]. split; [|split; [|auto]].
  - rewrite <- H1. symmetry. apply distinct_expand; auto.
  - rewrite <- H1. symmetry. apply expand_length.
Qed.

Lemma pairs_length : forall es : list (kentry Key), length (pairs Key es) = length es.
Proof. intros. apply map_length. Qed.

Lemma dumper_start : forall d0 : dumper Line,
  to_except (to_intersect d0 header 0) header 0 = dext Line d0 [header] [header] 1 1.
Proof.
  intros d0. rewrite to_intersect_dext, to_except_dext, dext_dext. reflexivity.
Qed.

Lemma pinit_inv : forall idx prov,
  Forall (fun b => b <> []) prov -> (N.of_nat (length (concat prov)) < max32)%N ->
  ps_inv (pinit idx prov) /\ p_finish (pinit idx prov) = false /\
  p_prov (pinit idx prov) = prov /\
  ps_mi (pinit idx prov) = mi 0 (concat prov) idx.
Proof.
  intros idx prov Hne Hb. unfold pinit. destruct idx as [|x idx]; simpl; unfold ps_inv, ps_mi, rd_ok; simpl;
    repeat split; auto; try congruence.
Qed.

Lemma apply_exact : forall keys es rows prov idx d0,
  expand es = keys -> tiles 0 es -> NoDup (map ke_key es) ->
  map line_key rows = keys -> (N.of_nat (length keys) < max32)%N ->
  concat prov = pairs Key es -> Forall (fun b => b <> []) prov ->
  Forall (fun ip => (snd ip < max32)%N) idx ->
  valid_index (length es) idx ->
  let mult := listed_mult keqb (map ke_key es) idx in
  exists ec,
  apply_peer_dup_cnt empty_line (header :: rows) prov idx d0 =
  Ok (dext Line d0 (header :: intersect_rows line_key mult rows)
                   (header :: except_rows line_key mult rows)
                   (1 + N.of_nat (length (intersect_rows line_key mult rows))) ec,
      mk_stat (N.of_nat (length (listed_rows Key Line line_key mult rows)))
              (u32 (sum_peer idx)) (N.of_nat (length rows))
              (u32 (d_icnt d0 + N.of_nat (length (intersect_rows line_key mult rows))))
              (N.of_nat (length idx))).
Proof.
  intros keys es rows prov idx d0 He Ht Hn Hk Hb Hpc Hpne Hsnd Hv mult.
  assert (Htot : total es = N.of_nat (length rows)).
  { rewrite <- (expand_length _ es), He, <- Hk, map_length. reflexivity. }
  assert (Hlenk : length keys = length rows) by (rewrite <- Hk, map_length; reflexivity).
  assert (Hesl : (N.of_nat (length es) <= total es)%N).
  { pose proof (expand_length_ge _ es). pose proof (expand_length _ es). lia. }
  assert (Hpl : length (concat prov) = length es) by (rewrite Hpc, pairs_length; reflexivity).
  destruct (pinit_inv idx prov Hpne ltac:(rewrite Hpl; lia)) as (I1 & I2 & I3 & I4).
  assert (Hvf : valid_from 0 (0 + N.of_nat (length (pairs Key es))) idx).
  { rewrite pairs_length. apply valid_index_from. destruct Hv as [Hv1 Hv2]. split; auto.
    eapply Forall_impl; [|exact Hv2]. intros a Ha. simpl in *. lia. }
  destruct (proj1 (mi_valid (pairs Key es) 0 idx) Hvf) as [infos Hmi].
  unfold apply_peer_dup_cnt. cbn [getline]. rewrite dumper_start.
  pose proof (apply_loop_mi Line empty_line (S (S (length prov))) (pinit idx prov)
                (mk_ast rows 0 (dext Line d0 [header] [header] 1 1) 0 0 0)
                I1 ltac:(rewrite I3; lia) (or_introl I2)) as HL.
  rewrite I4, Hpc, Hmi in HL.
  assert (Hmult : forall k, In k (map ke_key es) -> M Key keqb 0 es idx k = mult k).
  { intros k Hkin. rewrite (M_listed Key keqb keqb_spec es idx 0%N []); auto.
    rewrite pairs_length in Hvf. exact Hvf. }
  assert (Hrk : forall r, In r rows -> In (line_key r) (map ke_key es)).
  { intros r Hr. apply (in_expand Key es). rewrite He, <- Hk. apply in_map. auto. }
  pose proof (run_spec Key keqb keqb_spec Line empty_line line_key es 0%N 0%N idx infos
               (mk_ast rows 0 (dext Line d0 [header] [header] 1 1) 0 0 0) [] rows
               Ht Hn ltac:(rewrite He; exact Hk) eq_refl eq_refl
               ltac:(lia) ltac:(cbn [a_self]; lia) Hsnd Hmi eq_refl) as HR.
  cbv zeta in HR. destruct HR as (ic & ec & HR & Hic & Hil).
  assert (Hlu : (a_uniq (mk_ast rows 0 (dext Line d0 [header] [header] 1 1) 0 0 0) + N.of_nat (length infos) < max32)%N).
  { cbn [a_uniq]. rewrite Hil.
    assert (length idx <= length es).
    { destruct Hv as [Hv1 Hv2]. 
      assert (Hnd : NoDup (map N.to_nat (map fst idx))).
      { apply FinFun.Injective_map_NoDup; [intros x y; lia|].
        clear -Hv1. induction Hv1 as [|x l Hs IH Hf]; constructor; auto.
        intros Hin. rewrite Forall_forall in Hf. specialize (Hf _ Hin). lia. }
      assert (Hin : incl (map N.to_nat (map fst idx)) (seq 0 (length es))).
      { intros x Hx. rewrite map_map in Hx. apply in_map_iff in Hx. destruct Hx as (ip & <- & Hip).
        rewrite Forall_forall in Hv2. specialize (Hv2 _ Hip). apply in_seq. lia. }
      pose proof (NoDup_incl_length Hnd Hin) as Hle. rewrite !map_length, seq_length in Hle. exact Hle. }
    lia. }
  specialize (HL Hlu). rewrite HL. cbn [bind].
  assert (Hdr : forall st u, drain empty_line (set_uniq Line st u) = set_uniq Line (drain empty_line st) u).
  { intros st u. unfold drain. cbn [a_file set_uniq].
    apply (proj1 (skip_except_uniq Line empty_line (length (a_file st)) st u)). }
  rewrite Hdr, HR.
  cbn [set_uniq a_file a_idx a_d a_self a_peer a_uniq]. rewrite !N.add_0_l.
  assert (Hint : intersect_rows line_key (M Key keqb 0 es idx) rows = intersect_rows line_key mult rows).
  { apply flat_map_ext_in. intros r Hr. rewrite Hmult by auto. reflexivity. }
  assert (Hexc : except_rows line_key (M Key keqb 0 es idx) rows = except_rows line_key mult rows).
  { apply filter_ext_in'. intros r Hr. rewrite Hmult by auto. reflexivity. }
  assert (Hlis : listed_rows Key Line line_key (M Key keqb 0 es idx) rows = listed_rows Key Line line_key mult rows).
  { apply filter_ext_in'. intros r Hr. rewrite Hmult by auto. reflexivity. }
  rewrite Hint, Hexc, Hlis in *. subst ic.
  exists (1 + ec)%N. f_equal. f_equal.
  - rewrite dext_dext. reflexivity.
  - rewrite Hil. f_equal.
    + exact Htot.
    + unfold dext. cbn [d_icnt]. f_equal. lia.
Qed.

Lemma apply_rejects : forall (es : list (kentry Key)) rows prov idx d0,
  (N.of_nat (length es) < max32)%N ->
  concat prov = pairs Key es -> Forall (fun b => b <> []) prov ->
  ~ valid_index (length es) idx ->
  apply_peer_dup_cnt empty_line (header :: rows) prov idx d0 = Throw.
Proof.
  intros es rows prov idx d0 Hb Hpc Hpne Hv.
  assert (Hpl : length (concat prov) = length es) by (rewrite Hpc, pairs_length; reflexivity).
  destruct (pinit_inv idx prov Hpne ltac:(rewrite Hpl; lia)) as (I1 & I2 & I3 & I4).
  destruct (mi_valid (pairs Key es) 0 idx) as (_ & A2 & A3).
  assert (Hmi : mi 0 (pairs Key es) idx = Throw).
  { destruct A3 as [A3|A3]; [exact A3|]. exfalso. apply Hv. specialize (A2 A3).
    rewrite pairs_length in A2. apply valid_index_from in A2. destruct A2 as [B1 B2]. split; auto.
    eapply Forall_impl; [|exact B2]. intros a Ha. simpl in *. lia. }
  unfold apply_peer_dup_cnt. cbn [getline].
  set (d1 := to_except _ _ _).
  pose proof (apply_loop_mi Line empty_line (S (S (length prov))) (pinit idx prov)
                (mk_ast rows 0 d1 0 0 0)
                I1 ltac:(rewrite I3; lia) (or_introl I2)) as HL.
  rewrite I4, Hpc, Hmi in HL. rewrite HL. reflexivity.
Qed.

End Party.
