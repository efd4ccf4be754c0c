(** C90: how the configurations of the two parties are checked and turned into a run. *)
From Coq Require Import List NArith Arith Bool String Lia.
From Verif Require Import Base JoinModel LaunchModel LaunchSpec LaunchProofs.
Import ListNotations.
Local Open Scope N_scope.

(** Two parties start if and only if both configurations are valid, the roles are receiver and sender
    and the shared fields agree; otherwise the run throws.  Each party then runs the protocol of its
    configuration, in its role, with the threshold variant only under ECDH. *)
Theorem C90_start : forall c0 c1,
  ((exists s0 s1, start2 c0 c1 = Ok (s0, s1)) <->
     conf_valid c0 /\ conf_valid c1 /\ opposite (v_prole c0) (v_prole c1) /\ conf_agree c0 c1) /\
  ((forall s0 s1, start2 c0 c1 <> Ok (s0, s1)) -> start2 c0 c1 = Throw) /\
  (forall s0 s1, start2 c0 c1 = Ok (s0, s1) ->
     (forall c s, c = c0 /\ s = s0 \/ c = c1 /\ s = s1 ->
        party_role (st_party s) = v_prole c /\
        (v_proto c = VEcdh -> st_party s = if v_threshold c =? 0 then PEcdh (v_prole c) else PThresholdEcdh (v_prole c)) /\
        (v_proto c = VKkrt -> st_party s = PKkrt (v_prole c)) /\ (v_proto c = VRr22 -> st_party s = PRr22 (v_prole c)) /\
        v_digest (st_conf s) = (v_digest c || v_rec c)%bool)).
Proof.
  intros c0 c1. destruct (start2_spec c0 c1) as [(V0 & V1 & O & A & s0 & s1 & E & K0 & K1)|(F & E)]; rewrite E.
  - split; [split; [tauto|eauto]|]. split; [intros H; contradiction (H s0 s1 eq_refl)|].
    intros s0' s1' Q. inversion Q; subst s0' s1'. intros c s [(-> & ->)|(-> & ->)].
    + destruct K0 as (D & R & P & _). split; [exact R|]. rewrite P, D.
      split; [intros ->; reflexivity|]. split; [intros ->; reflexivity|]. split; [intros ->; reflexivity|reflexivity].
    + destruct K1 as (D & R & P & _). split; [exact R|]. rewrite P, D.
      split; [intros ->; reflexivity|]. split; [intros ->; reflexivity|]. split; [intros ->; reflexivity|reflexivity].
  - split; [split; [intros (a & b & Q); discriminate|tauto]|]. split; [reflexivity|]. intros; discriminate.
Qed.
Print Assumptions C90_start.

(** If the left side is named as the receiver or the sender, both files get one line for each line of
    the joined table, whatever the numbers of rows with and without partner, and each party writes its
    own rows without partner exactly if the join keeps them. *)
Theorem C90_lines : forall c0 c1 s0 s1 t, start2 c0 c1 = Ok (s0, s1) -> is_join c0 t ->
  v_left c0 = RReceiver \/ v_left c0 = RSender ->
  exists left0 : bool, (left0 = true <-> v_prole c0 = v_left c0) /\
  forall inter alone0 alone1,
    let n := if left0 then joined t inter alone0 alone1 else joined t inter alone1 alone0 in
    jp_lines (st_join s0) inter alone0 alone1 = n /\ jp_lines (st_join s1) inter alone1 alone0 = n /\
    jp_except (st_join s0) = keeps t left0 /\ jp_except (st_join s1) = keeps t (negb left0).
Proof.
  intros c0 c1 s0 s1 t E J L. destruct (start2_spec c0 c1) as [(V0 & V1 & O & A & s0' & s1' & E' & K0 & K1)|(F & E')]; [|congruence].
  rewrite E in E'. inversion E'; subst s0' s1'. destruct K0 as (_ & _ & _ & T0 & R0 & L0 & _), K1 as (_ & _ & _ & T1 & R1 & L1 & _).
  assert (JT : jtype c0 = t) by (unfold jtype; destruct J as [-> |[-> ->]]; reflexivity).
  assert (JT1 : jtype c1 = t) by (rewrite <- JT; unfold jtype; destruct A as (_ & _ & _ & _ & _ & _ & -> & _); reflexivity).
  assert (LL : v_left c1 = v_left c0) by (destruct A as (_ & _ & _ & _ & _ & _ & _ & -> & _); reflexivity).
  assert (X : (v_prole c0 = v_left c0 /\ v_prole c1 <> v_left c0) \/ (v_prole c0 <> v_left c0 /\ v_prole c1 = v_left c0)).
  { destruct O as [(-> & ->)|(-> & ->)], L as [-> | ->]; [left|right|right|left]; split; congruence. }
  destruct X as [(X0 & X1)|(X0 & X1)]; [exists true|exists false]; (split; [split; (congruence || discriminate || tauto)|]); intros inter a0 a1 n; unfold n.
  - destruct (lines_left (st_join s0) inter a0 a1 ltac:(congruence)) as [-> ->].
    destruct (lines_right (st_join s1) inter a1 a0 ltac:(congruence)) as [-> ->]. rewrite T0, T1, JT, JT1. auto.
  - destruct (lines_right (st_join s0) inter a0 a1 ltac:(congruence)) as [-> ->].
    destruct (lines_left (st_join s1) inter a1 a0 ltac:(congruence)) as [-> ->]. rewrite T0, T1, JT, JT1. auto.
Qed.
Print Assumptions C90_lines.

Lemma exec_ok : forall e r, a_proto e = AEcdh \/ a_proto e = AKkrt \/ a_proto e = ARr22 -> exists c, exec_to_v2 e r = Ok c /\
  v_proto c = match a_proto e with AEcdh => VEcdh | AKkrt => VKkrt | _ => VRr22 end /\
  v_prole c = (if a_receiver e =? r then RReceiver else RSender) /\ v_broadcast c = a_broadcast e /\
  (exists k, curve_map (a_ecurve e) = Ok k /\ v_ecdh c = Some (k, a_batch e)) /\ v_kkrt c = Some (a_bucket e) /\ v_rr22 c = Some (a_bucket e, a_low_comm e) /\
  io_map (a_in_type e) = Ok (v_in_type c) /\ io_map (a_out_type e) = Ok (v_out_type c) /\ v_keys c = a_keys e /\
  v_rec c = a_ckpt e /\ join_map (a_jtype e) = Ok (v_jtype c) /\ v_left c = (if a_left_rank e =? a_receiver e then RReceiver else RSender) /\
  v_digest c = true /\ v_null c = Some (a_null e) /\ v_threshold c = 0.
Proof.
  intros e r P. unfold exec_to_v2.
  assert (PM : proto_map (a_proto e) = Ok match a_proto e with AEcdh => VEcdh | AKkrt => VKkrt | _ => VRr22 end) by (destruct P as [-> |[-> | ->]]; reflexivity).
  rewrite PM. cbn [bind].
  destruct (curve_map (a_ecurve e)) as [k| | |] eqn:C; try (destruct (a_ecurve e); discriminate).
  destruct (io_map (a_in_type e)) as [i| | |] eqn:I; try (destruct (a_in_type e); discriminate).
  destruct (io_map (a_out_type e)) as [o| | |] eqn:U; try (destruct (a_out_type e); discriminate).
  destruct (join_map (a_jtype e)) as [j| | |] eqn:J; try (destruct (a_jtype e); discriminate).
  cbn [bind]. eexists. split; [reflexivity|]. cbn. repeat split. exists k. split; reflexivity.
Qed.
Lemma curve_inj : forall a b k, curve_map a = Ok k -> curve_map b = Ok k -> a = b.
Proof. intros [] [] k; cbn; intros E F; inversion E; subst; (reflexivity || discriminate). Qed.
Lemma join_exec : forall a b, match a with AJoinUnspec | AJoinInner => JInner | AJoinLeft => JLeft | AJoinRight => JRight | AJoinFull => JFull | AJoinDiff => JDifference end =
  b <-> exists j, join_map a = Ok j /\ match j with None => JInner | Some t => t end = b.
Proof. intros [] b; cbn; split; try (intros <-; eexists; split; reflexivity); intros (j & E & F); inversion E; subst; reflexivity. Qed.

(** Calling PsiExecute at ranks 0 and 1 with one of the two-party protocols: it starts if and only if
    both configurations are valid, agree, and receiver_rank is 0 or 1.  The party of that rank is the
    receiver.  If left_side_rank is 0 or 1 the party of that rank is the left one. *)
Theorem C90_exec : forall e0 e1, a_proto e0 = AEcdh \/ a_proto e0 = AKkrt \/ a_proto e0 = ARr22 -> a_proto e1 = a_proto e0 ->
  (a_receiver e0 = a_receiver e1) ->
  ((exists s0 s1, exec2 e0 e1 = Ok (s0, s1)) <-> exec_valid e0 /\ exec_valid e1 /\ exec_agree e0 e1 /\ a_receiver e0 < 2) /\
  (forall s0 s1, exec2 e0 e1 = Ok (s0, s1) ->
     party_role (st_party s0) = (if a_receiver e0 =? 0 then RReceiver else RSender) /\
     party_role (st_party s1) = (if a_receiver e0 =? 1 then RReceiver else RSender) /\
     (a_left_rank e0 < 2 -> forall inter alone0 alone1,
        let l := a_left_rank e0 =? 0 in let t := exec_join e0 in
        let n := if l then joined t inter alone0 alone1 else joined t inter alone1 alone0 in
        jp_lines (st_join s0) inter alone0 alone1 = n /\ jp_lines (st_join s1) inter alone1 alone0 = n /\
        jp_except (st_join s0) = keeps t l /\ jp_except (st_join s1) = keeps t (negb l))).
Proof.
  intros e0 e1 P PE RE. unfold exec2.
  destruct (exec_ok e0 0 P) as (c0 & -> & A1 & A2 & A3 & (k0 & CM0 & A4) & A5 & A6 & A7 & A8 & A9 & A10 & A11 & A12 & A13 & A14 & A15).
  destruct (exec_ok e1 1 ltac:(rewrite PE; exact P)) as (c1 & -> & B1 & B2 & B3 & (k1 & CM1 & B4) & B5 & B6 & B7 & B8 & B9 & B10 & B11 & B12 & B13 & B14 & B15).
  cbn [bind]. rewrite PE in B1. rewrite <- RE in B2, B12.
  assert (JI : v_left c0 <> RUnspec /\ v_left c1 <> RUnspec) by (rewrite A12, B12; split; [destruct (a_left_rank e0 =? a_receiver e0)|destruct (a_left_rank e1 =? a_receiver e0)]; discriminate).
  assert (V : forall e c k, a_proto e = a_proto e0 -> v_proto c = match a_proto e0 with AEcdh => VEcdh | AKkrt => VKkrt | _ => VRr22 end -> (v_prole c = RReceiver \/ v_prole c = RSender) ->
    v_ecdh c = Some (k, a_batch e) -> curve_map (a_ecurve e) = Ok k ->
    io_map (a_in_type e) = Ok (v_in_type c) -> io_map (a_out_type e) = Ok (v_out_type c) -> v_keys c = a_keys e -> v_left c <> RUnspec -> conf_valid c <-> exec_valid e).
  { clear - P. intros e c k PE VP VR VE CM IM OM VK VL. unfold conf_valid, exec_valid. rewrite VP, VE, VK, PE.
    assert (I1 : v_in_type c = VIoCsv <-> a_in_type e = AIoCsv) by (destruct (a_in_type e); injection IM as H; rewrite <- H; split; congruence).
    assert (I2 : v_out_type c = VIoCsv <-> a_out_type e = AIoCsv) by (destruct (a_out_type e); injection OM as H; rewrite <- H; split; congruence).
    assert (I3 : k <> VCurveInvalid <-> a_ecurve e <> ACurveInvalid) by (destruct (a_ecurve e); inversion CM; subst; split; congruence).
    rewrite I1, I2. destruct P as [Q|[Q|Q]]; rewrite Q.
    - split; [intros (H1 & H2 & H3 & H4)|intros (H1 & H2 & H3)].
      + split; [auto|]. split; [intros _; destruct (H3 eq_refl) as (k' & n & E & N); inversion E; subst; tauto|]. tauto.
      + split; [discriminate|]. split; [exact VR|]. split; [intros _; exists k, (a_batch e); split; [reflexivity|]; tauto|]. tauto.
    - split; [intros (H1 & H2 & H3 & H4)|intros (H1 & H2 & H3)].
      + split; [auto|]. split; [discriminate|]. tauto.
      + split; [discriminate|]. split; [exact VR|]. split; [discriminate|]. tauto.
    - split; [intros (H1 & H2 & H3 & H4)|intros (H1 & H2 & H3)].
      + split; [auto|]. split; [discriminate|]. tauto.
      + split; [discriminate|]. split; [exact VR|]. split; [discriminate|]. tauto. }
  assert (R0 : v_prole c0 = RReceiver \/ v_prole c0 = RSender) by (rewrite A2; destruct (a_receiver e0 =? 0); auto).
  assert (R1 : v_prole c1 = RReceiver \/ v_prole c1 = RSender) by (rewrite B2; destruct (a_receiver e0 =? 1); auto).
  pose proof (V e0 c0 k0 eq_refl A1 R0 A4 CM0 A7 A8 A9 (proj1 JI)) as V0. pose proof (V e1 c1 k1 PE B1 R1 B4 CM1 B7 B8 B9 (proj2 JI)) as V1. clear V.
  assert (OP : opposite (v_prole c0) (v_prole c1) <-> a_receiver e0 < 2).
  { rewrite A2, B2. unfold opposite. destruct (N.eqb_spec (a_receiver e0) 0), (N.eqb_spec (a_receiver e0) 1); split; intros H; try lia; try tauto;
      destruct H as [(X & Y)|(X & Y)]; discriminate. }
  assert (AG : conf_agree c0 c1 <-> exec_agree e0 e1).
  { unfold conf_agree, exec_agree. rewrite A1, B1, A3, B3, A4, B4, A5, B5, A6, B6, A10, B10, A12, B12, A13, B13, A14, B14, A15, B15.
    assert (CI : k0 = k1 <-> a_ecurve e0 = a_ecurve e1).
    { split; [intros ->; eapply curve_inj; eassumption|intros E; congruence]. }
    assert (JJ : v_jtype c0 = v_jtype c1 <-> a_jtype e0 = a_jtype e1).
    { split; [|intros E; congruence]. intros E. rewrite E in A11. clear - A11 B11. destruct (a_jtype e0), (a_jtype e1); try reflexivity; cbn in A11, B11; congruence. }
    assert (LI : ((if a_left_rank e0 =? a_receiver e0 then RReceiver else RSender) = (if a_left_rank e1 =? a_receiver e0 then RReceiver else RSender)) <->
                 (a_left_rank e0 = a_receiver e0 <-> a_left_rank e1 = a_receiver e1)).
    { rewrite <- RE. destruct (N.eqb_spec (a_left_rank e0) (a_receiver e0)), (N.eqb_spec (a_left_rank e1) (a_receiver e0)); split; intros; try tauto; try congruence. }
    rewrite JJ, LI, PE. clear - CI RE.
    split.
    - intros (H1 & H2 & H3 & H4 & H5 & H6 & H7 & H8 & H9 & H10 & H11). inversion H3. inversion H5. inversion H10. repeat split; try tauto.
    - intros (H1 & H2 & H3 & H4 & H5 & H6 & H7 & H8 & H9 & H10 & H11). apply CI in H5. repeat split; try tauto; congruence. }
  split.
  - rewrite (proj1 (C90_start c0 c1)), V0, V1, OP, AG. tauto.
  - intros s0 s1 E. pose proof (proj2 (proj2 (C90_start c0 c1)) s0 s1 E) as K.
    destruct (K c0 s0 ltac:(auto)) as (-> & _). destruct (K c1 s1 ltac:(auto)) as (-> & _). split; [exact A2|]. split; [exact B2|].
    intros LR inter a0 a1. cbv zeta. set (l := a_left_rank e0 =? 0). set (t := exec_join e0).
    assert (LV : v_left c0 = RReceiver \/ v_left c0 = RSender) by (rewrite A12; destruct (a_left_rank e0 =? a_receiver e0); auto).
    assert (JT : is_join c0 t).
    { unfold is_join, t, exec_join. clear - A11. destruct (a_jtype e0); inversion A11 as [H]; auto. }
    destruct (proj1 (proj1 (C90_start c0 c1)) ltac:(eauto)) as (_ & _ & O & _). apply OP in O.
    destruct (C90_lines c0 c1 s0 s1 t E JT LV) as (left0 & L & H). specialize (H inter a0 a1).
    assert (LE : l = left0).
    { unfold l. rewrite A2, A12 in L. apply eq_true_iff_eq. rewrite L. clear - O LR.
      destruct (N.eqb_spec (a_receiver e0) 0), (N.eqb_spec (a_left_rank e0) (a_receiver e0)), (N.eqb_spec (a_left_rank e0) 0); split; intros; try reflexivity; try discriminate; try lia. }
    rewrite LE. exact H.
Qed.
Print Assumptions C90_exec.

(** Unbalanced PSI: with left_side_rank 0 or 1 and the server at either rank, both parties name the
    party of that rank as the left one, and the files fit. *)
Theorem C90_ub : forall t left_rank null rank, rank < 2 -> left_rank < 2 ->
  exists js jc, ub_exec RServer t left_rank null rank = Ok js /\ ub_exec RClient t left_rank null (1 - rank) = Ok jc /\
    jp_left js = jp_left jc /\ (jp_left js = RServer <-> left_rank = rank) /\
    forall inter s c, jp_lines js inter s c = jp_lines jc inter c s.
Proof.
  intros t lr null rank R L. unfold ub_exec, ub_role. cbn [bind].
  assert (J : exists j, join_map t = Ok j) by (destruct t; eexists; reflexivity). destruct J as (j & ->). cbn [bind].
  assert (LC : ub_left RClient lr (1 - rank) = ub_left RServer lr rank).
  { unfold ub_left. destruct (N.eqb_spec lr (1 - rank)), (N.eqb_spec lr rank); cbn; try reflexivity; lia. }
  rewrite LC. set (l := ub_left RServer lr rank).
  assert (LV : l <> RUnspec) by (unfold l, ub_left; destruct (lr =? rank); discriminate).
  destruct (jp_make_spec j RServer l (Some null)) as [(_ & js & -> & T0 & R0 & L0 & _)|(F & _)]; [|contradiction F; intros E; contradiction].
  destruct (jp_make_spec j RClient l (Some null)) as [(_ & jc & -> & T1 & R1 & L1 & _)|(F & _)]; [|contradiction F; intros E; contradiction].
  exists js, jc. split; [reflexivity|]. split; [reflexivity|]. split; [congruence|]. split.
  - rewrite L0. unfold l, ub_left. destruct (N.eqb_spec lr rank); split; intros; (reflexivity || assumption || discriminate || contradiction).
  - intros inter s c. assert (X : l = RServer \/ l = RClient) by (unfold l, ub_left; destruct (lr =? rank); auto).
    destruct X as [X|X]; rewrite X in *.
    + rewrite (proj1 (lines_left js inter s c ltac:(congruence))), (proj1 (lines_right jc inter c s ltac:(congruence))), T0, T1. reflexivity.
    + rewrite (proj1 (lines_right js inter s c ltac:(congruence))), (proj1 (lines_left jc inter c s ltac:(congruence))), T0, T1. reflexivity.
Qed.
Print Assumptions C90_ub.

(** PsiExecute accepts every protocol but the unspecified one.  The legacy protocols get the caller's
    rank, paths, keys, curve and flags; the join, the null string and the checkpoint are dropped. *)
Theorem C90_dispatch : forall e rank,
  (a_proto e = AUnspec -> dispatch e rank = Throw) /\
  (legacy (a_proto e) -> exists b, dispatch e rank = Ok (inl b) /\ b_receiver b = a_receiver e /\ b_broadcast b = a_broadcast e /\
     b_in_path b = a_in_path e /\ b_fields b = a_keys e /\ b_precheck b = negb (a_unique e) /\ b_out_path b = a_out_path e /\
     b_sort b = negb (a_no_align e) /\ b_bucket b = a_bucket e /\ b_dp b = a_dp e) /\
  (a_proto e <> AUnspec -> ~ legacy (a_proto e) -> exists c, dispatch e rank = Ok (inr c) /\ v_in_path c = a_in_path e /\ v_out_path c = a_out_path e /\
     v_keys c = a_keys e /\ v_unique c = a_unique e /\ v_no_align c = a_no_align e /\ v_null c = Some (a_null e) /\ v_rec c = a_ckpt e /\ v_rec_folder c = a_ckpt_path e).
Proof.
  intros e rank. unfold dispatch, exec_to_bucket, exec_to_v2, legacy.
  assert (C : exists k, curve_map (a_ecurve e) = Ok k) by (destruct (a_ecurve e); eexists; reflexivity). destruct C as (k & ->).
  assert (I : exists k, io_map (a_in_type e) = Ok k) by (destruct (a_in_type e); eexists; reflexivity). destruct I as (i & ->).
  assert (O : exists k, io_map (a_out_type e) = Ok k) by (destruct (a_out_type e); eexists; reflexivity). destruct O as (o & ->).
  assert (J : exists k, join_map (a_jtype e) = Ok k) by (destruct (a_jtype e); eexists; reflexivity). destruct J as (j & ->).
  cbn [bind]. split; [intros ->; reflexivity|]. split.
  - intros [E|[E|[E|E]]]; rewrite E; cbn; eexists; (split; [reflexivity|]); repeat split.
  - intros H1 H2. destruct (a_proto e); try tauto; try (contradiction H1; reflexivity); try (contradiction H2; auto; fail); cbn; eexists; (split; [reflexivity|]); repeat split.
Qed.
Print Assumptions C90_dispatch.

(** ** Cases *)
Local Open Scope string_scope.
Definition l_exec (p : a_protocol) (recv left : N) (path : string) (keys : list string) (j : a_join) : a_conf :=
  mk_a p recv 1024 true ACurve25519 4096 false (0, 0) AIoCsv path keys false AIoCsv "out.csv" false "NULL" j left false "".
Definition l_v (r left : v_role) (p : v_protocol) (thr : N) (path : string) (keys : list string) (align : bool) (j : v_join) : v_conf :=
  mk_v p r true (Some (VCurve25519, 4096)) None None VIoCsv path VIoCsv "out.csv" keys "info" align false "" j left true false None thr "".

(** A left join called at ranks 0 and 1, rank 1 receives, rank 0 is left; 3 rows with partner, 5 and
    2 without. *)
Example C90_example :
  (do r <- exec2 (l_exec AEcdh 1 0 "a.csv" ["id"; "day"] AJoinLeft) (l_exec AEcdh 1 0 "b.csv" ["uid"; "date"] AJoinLeft);
   Ok (st_party (fst r), st_party (snd r), jp_lines (st_join (fst r)) 3 5 2, jp_lines (st_join (snd r)) 3 2 5,
       jp_except (st_join (fst r)), jp_except (st_join (snd r))))
  = Ok (PEcdh RSender, PEcdh RReceiver, 8%nat, 8%nat, true, false) /\
  exec2 (l_exec AEcdh 2 0 "a.csv" ["id"] AJoinLeft) (l_exec AEcdh 2 0 "b.csv" ["id"] AJoinLeft) = Throw /\
  exec2 (l_exec AEcdh 1 0 "a.csv" ["id"; "id"] AJoinInner) (l_exec AEcdh 1 0 "b.csv" ["id"] AJoinInner) = Throw /\
  exec2 (l_exec ARr22 1 0 "a.csv" ["id"] AJoinInner) (l_exec ARr22 1 0 "b.csv" ["id"] AJoinFull) = Throw.
Proof. repeat split; vm_compute; reflexivity. Qed.
Example C90_example_valid : exec_valid (l_exec AEcdh 1 0 "a.csv" ["id"; "day"] AJoinLeft) /\
  exec_agree (l_exec AEcdh 1 0 "a.csv" ["id"; "day"] AJoinLeft) (l_exec AEcdh 1 0 "b.csv" ["uid"; "date"] AJoinLeft).
Proof.
  split; [|unfold exec_agree; cbn; tauto]. unfold exec_valid. cbn. split; [auto|]. split; [discriminate|]. split; [reflexivity|]. split; [reflexivity|].
  split; [discriminate|]. repeat constructor; cbn; intuition discriminate.
Qed.

(** ** What is not checked *)
(** left_side may be a role that neither party has: the run starts, and in a left join neither file has
    the party's own rows without partner; the files have different lengths. *)
Theorem C90_left_side_refuted : exists c0 c1 s0 s1, start2 c0 c1 = Ok (s0, s1) /\ v_left c0 = RServer /\ is_join c0 JLeft /\
  jp_except (st_join s0) = false /\ jp_except (st_join s1) = false /\
  exists inter alone0 alone1, jp_lines (st_join s0) inter alone0 alone1 <> jp_lines (st_join s1) inter alone1 alone0.
Proof.
  set (c0 := l_v RReceiver RServer VEcdh 0 "a.csv" ["id"] false (Some JLeft)). set (c1 := l_v RSender RServer VEcdh 0 "b.csv" ["id"] false (Some JLeft)).
  exists c0, c1, (mk_started (PEcdh RReceiver) (with_digest c0) (mk_jp JLeft RReceiver RServer "NULL")), (mk_started (PEcdh RSender) (with_digest c1) (mk_jp JLeft RSender RServer "NULL")).
  split; [vm_compute; reflexivity|]. split; [reflexivity|]. split; [left; reflexivity|]. split; [reflexivity|]. split; [reflexivity|].
  exists 3%nat, 5%nat, 2%nat. vm_compute. discriminate.
Qed.
Print Assumptions C90_left_side_refuted.

(** PsiExecute with a left_side_rank that is no rank: the sender is taken as the left party. *)
Theorem C90_left_rank_refuted : exists e0 e1 s0 s1, a_left_rank e0 = 2 /\ a_left_rank e1 = 2 /\ exec2 e0 e1 = Ok (s0, s1) /\
  jp_left (st_join s0) = RSender /\ party_role (st_party s0) = RSender /\ jp_except (st_join s0) = true.
Proof.
  set (e0 := l_exec AKkrt 1 2 "a.csv" ["id"] AJoinLeft). set (e1 := l_exec AKkrt 1 2 "b.csv" ["id"] AJoinLeft).
  destruct (exec2 e0 e1) as [[s0 s1]| | |] eqn:E; try (vm_compute in E; discriminate). exists e0, e1, s0, s1.
  split; [reflexivity|]. split; [reflexivity|]. split; [exact E|]. vm_compute in E. inversion E; subst. repeat split.
Qed.
Print Assumptions C90_left_rank_refuted.

(** Unbalanced PSI with a left_side_rank that is no rank: each party takes the other one as the left
    party; in a left join no row without partner is written and the files have different lengths. *)
Theorem C90_ub_left_rank_refuted : exists js jc, ub_exec RServer AJoinLeft 2 "NULL" 0 = Ok js /\ ub_exec RClient AJoinLeft 2 "NULL" 1 = Ok jc /\
  jp_left js = RClient /\ jp_left jc = RServer /\ jp_except js = false /\ jp_except jc = false /\
  exists inter s c, jp_lines js inter s c <> jp_lines jc inter c s.
Proof.
  exists (mk_jp JLeft RServer RClient "NULL"), (mk_jp JLeft RClient RServer "NULL").
  split; [reflexivity|]. split; [reflexivity|]. split; [reflexivity|]. split; [reflexivity|]. split; [reflexivity|]. split; [reflexivity|].
  exists 3%nat, 5%nat, 2%nat. vm_compute. discriminate.
Qed.
Print Assumptions C90_ub_left_rank_refuted.

(** Not compared: the number of keys and the alignment of the output.  Not applied: a threshold with
    KKRT or RR22. *)
Theorem C90_compared_refuted : exists c0 c1 s0 s1, start2 c0 c1 = Ok (s0, s1) /\
  List.length (v_keys c0) <> List.length (v_keys c1) /\ v_no_align c0 <> v_no_align c1 /\
  v_threshold c0 <> 0 /\ st_party s0 = PRr22 RReceiver /\ st_party s1 = PRr22 RSender.
Proof.
  set (c0 := l_v RReceiver RReceiver VRr22 10 "a.csv" ["id"] false None). set (c1 := l_v RSender RReceiver VRr22 10 "b.csv" ["id"; "day"] true None).
  exists c0, c1, (mk_started (PRr22 RReceiver) (with_digest c0) (mk_jp JInner RReceiver RReceiver "NULL")), (mk_started (PRr22 RSender) (with_digest c1) (mk_jp JInner RSender RReceiver "NULL")).
  split; [vm_compute; reflexivity|]. repeat split; discriminate.
Qed.
Print Assumptions C90_compared_refuted.
