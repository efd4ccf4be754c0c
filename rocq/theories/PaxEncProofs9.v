(** Lemmas about the Paxos encoder: when it succeeds. *)
From Coq Require Import List Arith NArith Bool Lia Permutation.
From Verif Require Import Base BaseProofs StoreModel GfModel GfSpec GfProofs GfProofs2 OkvsModel OkvsSpec OkvsProofs OkvsProofs2 OkvsProofs4
  PaxEncModel PaxEncSpec PaxEncProofs PaxEncProofs2 PaxEncProofs3 PaxEncProofs4 PaxEncProofs5 PaxEncProofs6 PaxEncProofs7 PaxEncProofs8.
Import ListNotations.
Local Open Scope nat_scope.

Section Peel.
Variables (s : nat) (rows : list (list nat)) (dense : list N).
Local Notation n := (length rows).
Hypothesis Hrows : rows_ok s rows.
Hypothesis Hsz : n + 2 <= s.
Hypothesis Hpeel : forall U, U <> [] -> NoDup U -> (forall r, In r U -> r < n) ->
  exists c r, In r U /\ In c (rowi rows r) /\ forall r', In r' U -> In c (rowi rows r') -> r' = r.
Hypothesis Hw : forall c, length (filter (hasb rows c) (seq 0 n)) < 200.

Definition unset (st : list bool) (l : list nat) : nat := length (filter (fun r => negb (nth r st true)) l).

Lemma visits_peel : forall old c l t first, (forall x, In x (map snd old) -> x < s) -> c < s -> ~ In c (map snd old) ->
  NoDup (map fst old) -> (forall r, In r (map fst old) -> r < n) -> NoDup l ->
  vinv s rows dense old [] c l (t, first) -> t_gap t = [] ->
  (if first then unset (t_set t) l = 1 else unset (t_set t) l = 0) ->
  exists t', ofold (visit rows dense c) l (t, first) = Ok (t', false) /\ t_gap t' = [].
Proof using Hrows Hsz.
  clear Hpeel Hw. intros old c l. induction l as [|row l IH]; intros t first Ho Hc Hn Hd Hb Nl V G U.
  - cbn [ofold]. destruct first; [discriminate|]. eauto.
  - cbn [ofold]. destruct (visit rows dense c row (t, first)) as [[t1 f1]| | |] eqn:E.
    2-4: exfalso.
    + pose proof (visit_facts s rows dense Hrows _ _ _ _ _ _ _ Ho Hc Hn V E) as V1.
      inversion Nl; subst. cbn [bind].
      assert (Q : t_gap t1 = [] /\ (if f1 then unset (t_set t1) l = 1 else unset (t_set t1) l = 0)).
      { unfold visit in E. apply bind_ok in E. destruct E as (d & E1 & E). apply (vget_ok _ true) in E1. destruct E1 as [Lr E1].
        unfold unset in U. cbn [filter] in U. rewrite E1 in U. destruct d; cbn [negb] in U.
        - injection E as <- <-. split; [assumption|]. destruct first; exact U.
        - destruct first; [|cbn in U; discriminate].
          apply bind_ok in E. destruct E as (rs & E2 & E). apply vset_ok in E2. destruct E2 as [_ ->].
          apply bind_ok in E. destruct E as (cs & _ & E). apply bind_ok in E. destruct E as (wd & _ & E). injection E as <- <-.
          cbn [t_gap t_set]. split; [assumption|]. unfold unset. cbn [length] in U. injection U as U.
          rewrite <- U. f_equal. apply filter_ext_in. intros r I. rewrite upd_other; [reflexivity|]. intros ->. contradiction. }
      destruct Q as [G1 U1]. apply IH; assumption.
    + (* Throw *) revert E. unfold visit. destruct V as [VS VT VC VZ VR VI VM VD VX]. cbn [fst snd] in *. destruct VI as (Ls & VI & VN & VG).
      destruct (VX row (or_introl eq_refl)) as [Hr Hcr]. rewrite (vget_in _ true) by lia. cbn [bind].
      unfold unset in U. cbn [filter] in U. destruct (nth row (t_set t) true) eqn:E1; [discriminate|]. cbn [negb length] in U.
      destruct first; [|discriminate]. rewrite vset_in by lia. cbn [bind]. rewrite (vget_in _ []) by assumption. cbn [bind].
      destruct (dec_row_prog s (c :: map snd old) (nth row rows []) (t_wd t) VS) as [wd E2]; [apply Hrows; assumption|assumption| |rewrite E2; discriminate].
      intros c0. destruct (nodup_pigeon (c0 :: c :: map snd old) s) as (x & Hx & Nx).
      * destruct VM as [VM _]. cbn [length]. rewrite map_length.
        assert (length old < n); [|lia]. rewrite <- (map_length fst). apply (Nat.lt_le_trans _ (length (row :: map fst old))); [cbn; lia|].
        rewrite <- (seq_length n 0). apply NoDup_incl_length.
        -- constructor; [|assumption]. rewrite <- VM. intros X. assert (nth row (t_set t) true = true) by (apply VI; auto). congruence.
        -- intros z [<-|Z]; apply in_seq; [lia|]. specialize (Hb z Z). lia.
      * exists x. cbn [In] in Nx. split; [intros ->; tauto|]. split; [assumption|]. cbn [In]. tauto.
    + (* UB *) revert E. unfold visit. destruct V as [VS VT VC VZ VR VI VM VD VX]. cbn [fst snd] in *. destruct VI as (Ls & VI & VN & VG).
      destruct (VX row (or_introl eq_refl)) as [Hr Hcr]. rewrite (vget_in _ true) by lia. cbn [bind].
      unfold unset in U. cbn [filter] in U. destruct (nth row (t_set t) true) eqn:E1; [discriminate|]. cbn [negb length] in U.
      destruct first; [|discriminate]. rewrite vset_in by lia. cbn [bind]. rewrite (vget_in _ []) by assumption. cbn [bind].
      destruct (dec_row_prog s (c :: map snd old) (nth row rows []) (t_wd t) VS) as [wd E2]; [apply Hrows; assumption|assumption| |rewrite E2; discriminate].
      intros c0. destruct (nodup_pigeon (c0 :: c :: map snd old) s) as (x & Hx & Nx).
      * destruct VM as [VM _]. cbn [length]. rewrite map_length.
        assert (length old < n); [|lia]. rewrite <- (map_length fst). apply (Nat.lt_le_trans _ (length (row :: map fst old))); [cbn; lia|].
        rewrite <- (seq_length n 0). apply NoDup_incl_length.
        -- constructor; [|assumption]. rewrite <- VM. intros X. assert (nth row (t_set t) true = true) by (apply VI; auto). congruence.
        -- intros z [<-|Z]; apply in_seq; [lia|]. specialize (Hb z Z). lia.
      * exists x. cbn [In] in Nx. split; [intros ->; tauto|]. split; [assumption|]. cbn [In]. tauto.
    + apply (visit_nodiv rows dense c row (t, first) E).
Qed.

(** While a row is unset, some column has exactly one unset row. *)
Lemma weight_one : forall t, inv s rows dense t -> 1 < length (wd_sets (t_wd t)) ->
  forall w c, min_node (wd_sets (t_wd t)) = Ok (w, c) -> w = 1.
Proof using Hrows Hpeel.
  clear Hsz Hw. intros t I L w c M. destruct (min_facts s _ _ _ _ (i_sets _ _ _ _ I) M) as (W1 & (Hc & Hn & Hw') & Hmin).
  pose (U := filter (fun r => negb (nth r (t_set t) true)) (seq 0 n)).
  assert (UN : U <> []).
  { intros E. assert (C : cnt rows (t_set t) c <> 0) by (rewrite <- (i_cnt _ _ _ _ I c Hc), Hw'; lia).
    apply C. apply cnt_zero. intros r Hr Hs _. assert (X : In r U) by (apply filter_In; split; [apply in_seq; lia|rewrite Hs; reflexivity]).
    rewrite E in X. destruct X. }
  destruct (Hpeel U UN) as (x & r & Ir & Ix & Ux); [apply NoDup_filter, seq_NoDup|intros r Ir; apply filter_In in Ir; destruct Ir as [Ir _]; apply in_seq in Ir; lia|].
  assert (Hr : r < n) by (apply filter_In in Ir; destruct Ir as [Ir _]; apply in_seq in Ir; lia).
  assert (Hx : x < s) by (destruct (Hrows r Hr) as [_ F]; rewrite Forall_forall in F; auto).
  assert (C : cnt rows (t_set t) x = 1).
  { unfold cnt. rewrite (filter_drop1 _ _ (fun _ => false) (seq 0 n) r); [| | | | |].
    - f_equal. clear. induction (seq 0 n); [reflexivity|assumption].
    - apply seq_NoDup.
    - apply in_seq; lia.
    - apply filter_In in Ir. destruct Ir as [_ Ir]. rewrite Ir. cbn. apply hasb_in. assumption.
    - reflexivity.
    - intros y Iy Dy. symmetry. destruct (negb (nth y (t_set t) true) && hasb rows x y) eqn:E; [|reflexivity]. exfalso. apply Dy.
      apply andb_prop in E. destruct E as [E1 E2]. apply Ux; [apply filter_In; split; assumption|apply hasb_in; assumption]. }
  assert (E : nth x (wd_weight (t_wd t)) 0 = 1) by (rewrite (i_cnt _ _ _ _ I x Hx); assumption).
  assert (w <= 1); [|lia]. rewrite <- E. apply Hmin; [|lia]. split; [assumption|]. split; [|reflexivity].
  intros X. apply (i_zero _ _ _ _ I) in X. lia.
Qed.

Lemma loop_peel : forall cols, length cols = s -> (forall c, nth c cols [] = filter (hasb rows c) (seq 0 n)) ->
  forall fuel t, inv s rows dense t -> t_gap t = [] -> s < fuel + length (t_main t) ->
  exists t', tri_loop fuel rows cols dense t = Ok t' /\ t_gap t' = [].
Proof using Hrows Hsz Hpeel.
  clear Hw. intros cols Lc Hc fuel. induction fuel as [|f IH]; intros t I G L; [pose proof (main_len s rows dense t I); lia|].
  cbn [tri_loop]. destruct (Nat.leb_spec (length (wd_sets (t_wd t))) 1) as [Q|Q]; [eauto|].
  destruct (min_prog _ (i_trim _ _ _ _ I) Q) as [[w c] E1]. rewrite E1. cbn [bind].
  assert (W1 : w = 1) by (apply (weight_one t I Q w c E1)).
  destruct (min_facts s _ _ _ _ (i_sets _ _ _ _ I) E1) as (_ & Nc & _).
  destruct (t_wd t) as [sets0 ws0] eqn:Ewd. cbn [wd_sets wd_weight] in *.
  assert (ML : length (t_main t) <= n).
  { rewrite <- (map_length fst). rewrite <- (seq_length n 0). destruct (i_set _ _ _ _ I) as (_ & _ & ND & _).
    apply NoDup_incl_length; [rewrite G in ND; cbn [map] in ND; rewrite app_nil_r in ND; assumption|].
    intros r X. apply in_map_iff in X. destruct X as ([r' c'] & E & X). cbn in E. subst r'. apply In_nth_error in X. destruct X as [i X].
    apply in_seq. pose proof (proj1 (tri_in _ _ _ _ _ (i_tri _ _ _ _ I) X)). lia. }
  destruct (pop_prog s (map snd (t_main t)) sets0 ws0 w c) as [sets E2].
  { rewrite <- Ewd. apply (i_sets _ _ _ _ I). } { assumption. }
  { destruct (nodup_pigeon (c :: map snd (t_main t)) s) as (x & Hx & Nx); [cbn [length]; rewrite map_length; lia|].
    exists x. cbn [In] in Nx. split; [intros ->; tauto|]. split; [assumption|tauto]. }
  rewrite E2. cbn [bind]. destruct Nc as (Hcs & Nc & Wc).
  assert (Lw : length ws0 = s) by (pose proof (i_sets _ _ _ _ I) as (X & _); rewrite Ewd in X; exact X).
  rewrite vset_in by lia. cbn [bind]. rewrite (vget_in _ []) by lia. cbn [bind]. rewrite Hc.
  destruct (start_vinv s rows dense t w c sets I) as (A & B & C & _ & V).
  { rewrite Ewd. exact E1. } { rewrite Ewd. exact E2. }
  rewrite Ewd in V. cbn [wd_weight] in V. rewrite G in V. rewrite G.
  assert (SI := i_set _ _ _ _ I). destruct SI as (SL & SIff & SN & _).
  destruct (visits_peel (t_main t) c (filter (hasb rows c) (seq 0 n)) (mk_tri (mk_wd sets (upd c (fun _ => 0) ws0)) (t_set t) (t_main t) []) true) as (t1 & E5 & G1).
  - apply (inv_lt s rows dense t I).
  - assumption.
  - assumption.
  - rewrite G in SN. cbn [map] in SN. rewrite app_nil_r in SN. assumption.
  - intros r X. apply in_map_iff in X. destruct X as ([r' c'] & E & X). cbn in E. subst r'. apply In_nth_error in X. destruct X as [i X].
    apply (tri_in _ _ _ _ _ (i_tri _ _ _ _ I) X).
  - apply NoDup_filter, seq_NoDup.
  - exact V.
  - reflexivity.
  - cbn [t_set]. rewrite <- W1, C. unfold unset, cnt. clear. induction (seq 0 n) as [|r l IHl]; [reflexivity|]. cbn [filter].
    destruct (hasb rows c r); cbn [filter]; destruct (negb (nth r (t_set t) true)); cbn [andb length]; auto.
  - rewrite E5. cbn [bind negb enforce].
    pose proof (visits_facts s rows dense Hrows _ _ _ _ _ _ (inv_lt s rows dense t I) A B V E5) as V'.
    destruct (end_inv s rows dense _ _ _ _ (inv_lt s rows dense t I) A B (i_nd _ _ _ _ I) V') as (I1 & r & M).
    apply IH; [assumption|assumption|]. rewrite M. cbn [length]. lia.
Qed.
Theorem triangulate_peel : exists t, triangulate s rows dense = Ok t /\ t_gap t = [].
Proof using Hrows Hsz Hpeel Hw.
  unfold triangulate.
  destruct (count_cols_ok s rows Hrows) as (ws & E1 & L1 & V1). destruct (build_cols_ok s rows Hrows) as (cols & E2 & L2 & V2).
  rewrite E1, E2. cbn [bind].
  assert (Hs : 0 < s) by lia.
  destruct (wd_init_prog ws) as [wd E3].
  { rewrite Forall_forall. intros x X. apply (In_nth _ _ 0) in X. destruct X as (i & _ & <-). rewrite V1. apply Hw. }
  rewrite E3. cbn [bind]. destruct (length (wd_sets wd) <=? 1).
  - destruct (wd_init_prog (map (@length nat) cols)) as [wd' E4].
    { rewrite Forall_forall. intros x X. apply in_map_iff in X. destruct X as (l & <- & X). apply (In_nth _ _ []) in X. destruct X as (i & _ & <-). rewrite V2. apply Hw. }
    rewrite E4. cbn [bind]. apply (loop_peel cols L2 V2); [|reflexivity|cbn; lia].
    apply (init_inv s rows dense (map (@length nat) cols)); auto; [rewrite map_length; assumption|apply (map_len_cols s rows); assumption].
  - cbn [bind]. apply (loop_peel cols L2 V2); [|reflexivity|cbn; lia]. apply (init_inv s rows dense ws); auto.
Qed.
End Peel.

(** Nothing fails in the backward pass. *)
Lemma back_prog : forall (step : nat * nat -> list N -> outcome (list N)) main p tot, length p = tot ->
  (forall rc p, In rc main -> length p = tot -> exists p', step rc p = Ok p' /\ length p' = tot) ->
  exists p', ofold step main p = Ok p' /\ length p' = tot.
Proof.
  intros step main p tot L H.
  destruct (ofold_prog _ _ (fun l p => length p = tot /\ incl l main) step main p) as (p' & E & L' & _).
  - split; [assumption|]. intros x X. assumption.
  - intros x r st [Ls Ir]. destruct (H x st) as (p' & E & L'); [apply Ir; left; reflexivity|assumption|]. exists p'. split; [assumption|].
    split; [assumption|]. intros y Y. apply Ir. right. assumption.
  - eauto.
Qed.
Lemma sparse_prog : forall p row y, Forall (fun c => c < length p) row -> exists z, sparse_sum p row y = Ok z.
Proof. intros. apply ofold_xor_prog. assumption. Qed.

Theorem solve_peel : forall w q avx gmax hs values p, param_ok w q -> (ok_dt q = DBinary -> ok_dense q <= 64) -> Forall (fun h => (h < 2 ^ 128)%N) hs ->
  length hs + 2 <= N.to_nat (ok_sparse q) -> length hs <= length values ->
  peelable (map (row_of q) hs) -> (forall c, column_below 200 (map (row_of q) hs) c) ->
  length p = N.to_nat (ok_sparse q) + ok_dense q ->
  exists P, paxos_solve avx q gmax (rows_of q hs) hs values p = Ok P.
Proof.
  intros w q avx gmax hs values p Hq Hsh Hhs Hsz Hlv Hpl Hcw Lp.
  set (s := N.to_nat (ok_sparse q)) in *. set (rows := rows_of q hs).
  destruct (rows_of_ok w q hs Hq Hhs) as [HR HN]. fold s in HR. fold rows in HR, HN.
  assert (Lr : length rows = length hs) by apply rows_of_len.
  assert (PR : forall r, r < length hs -> rowi rows r = map N.to_nat (prow (map (row_of q) hs) r)).
  { intros r Hr. unfold rows. rewrite rows_of_nth by assumption. f_equal. unfold prow, at0.
    rewrite (nth_indep _ [] (row_of q 0%N)) by (rewrite map_length; assumption). rewrite map_nth. reflexivity. }
  destruct (triangulate_peel s rows hs HR) as (t & E & G).
  - lia.
  - intros U UN UD UB. destruct (Hpl U UN UD) as (c & r & A & B & C).
    { intros r X. rewrite map_length, <- Lr. auto. }
    exists (N.to_nat c), r. split; [assumption|]. rewrite PR by (rewrite <- Lr; auto). split; [apply in_map; assumption|].
    intros r' A' B'. rewrite PR in B' by (rewrite <- Lr; auto). apply in_map_iff in B'. destruct B' as (c' & E & B'). apply N2Nat.inj in E. subst c'. auto.
  - intros c. apply (Hcw (N.of_nat c)); [apply NoDup_filter, seq_NoDup|]. intros r X. apply filter_In in X. destruct X as [X Y]. apply in_seq in X.
    apply hasb_in in Y. rewrite PR in Y by lia. apply in_map_iff in Y. destruct Y as (c' & Ec & Y).
    split; [rewrite map_length; lia|]. replace (N.of_nat c) with c' by lia. assumption.
  - unfold paxos_solve. fold s. rewrite (proj2 (Nat.eqb_eq _ _) Lp). cbn [enforce]. rewrite E. cbn [bind].
    assert (Hs : 0 < s) by lia.
    destruct (triangulate_facts s rows hs HR t Hs HN E) as [I HC]. rewrite G.
    assert (MI : forall rc, In rc (t_main t) -> fst rc < length hs /\ snd rc < s /\ Forall (fun c => c < s) (rowi rows (fst rc))).
    { intros [r c] X. pose proof X as X'. apply In_nth_error in X'. destruct X' as [i X']. destruct (tri_in _ _ _ _ _ (i_tri _ _ _ _ I) X') as [Hr Ic].
      cbn [fst snd]. split; [lia|]. destruct (HR r Hr) as [_ F]. split; [rewrite Forall_forall in F; auto|assumption]. }
    destruct (ok_dt q) eqn:Hdt.
    + unfold backfill_bin. cbn [length Nat.leb enforce Nat.eqb bind].
      destruct (back_prog (bin_backfill1 q rows hs values []) (t_main t) p _ Lp) as (P & EP & _); [|eauto].
      intros [r c] p0 X L0. destruct (MI _ X) as (M1 & M2 & M3). cbn [fst snd] in *. unfold bin_backfill1. cbn [fst snd].
      rewrite (vget_in _ 0%N) by lia. cbn [bind]. rewrite (vget_in _ []) by lia. cbn [bind].
      destruct (sparse_prog p0 (nth r rows []) (nth r values 0%N)) as [z Ez].
      { fold (rowi rows r). revert M3. apply Forall_impl. intros; lia. }
      rewrite Ez. cbn [bind]. rewrite (proj2 (Nat.leb_le _ _) (Hsh eq_refl)). cbn [enforce]. rewrite (vget_in _ 0%N) by lia. cbn [bind bin_dense_sum ofold].
      rewrite vset_in by lia. eexists. split; [reflexivity|]. rewrite upd_len. assumption.
    + unfold backfill_gf. cbn [length Nat.leb enforce Nat.eqb bind negb].
      destruct (back_prog (gf_backfill1 avx q rows hs values false) (t_main t) p _ Lp) as (P & EP & _); [|eauto].
      intros [r c] p0 X L0. destruct (MI _ X) as (M1 & M2 & M3). cbn [fst snd] in *. unfold gf_backfill1. cbn [fst snd].
      rewrite (vget_in _ 0%N) by lia. cbn [bind]. rewrite (vget_in _ []) by lia. cbn [bind].
      destruct (sparse_prog p0 (nth r rows []) (nth r values 0%N)) as [z Ez].
      { fold (rowi rows r). revert M3. apply Forall_impl. intros; lia. }
      rewrite Ez. cbn [bind]. rewrite vset_in by lia. eexists. split; [reflexivity|]. rewrite upd_len. assumption.
Qed.
