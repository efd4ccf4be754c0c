(** Proofs about unbalanced PSI in phases. *)
From Coq Require Import List NArith Bool Arith Lia Permutation.
From Verif Require Import Base BaseProofs Text StoreModel Rr22MatchModel Rr22MatchProofs ShufModel UbCacheModel UbCacheSpec UbCacheProofs UbPsiModel UbPsiSpec UbPsiProofs UbPsiProofs2 UbPsiProps PhModel PhSpec.
Import ListNotations.

(** A store as its session leaves it opens and closes without change. *)
Lemma save_all_shape : forall its s s1, store_save_all s its = Ok s1 -> (cs_items s < max32)%N -> (cs_peer s < max32)%N -> cs_len s <= max_cipher ->
  cs_len s1 = cs_len s /\ cs_items s1 = u32 (cs_items s + N.of_nat (length its)) /\ (cs_peer s1 < max32)%N /\
  length (cs_pending s1) = length (cs_pending s) + length its * item_size.
Proof.
  induction its as [|it its IH]; intros s s1 H HI HP HL; cbn [store_save_all] in H.
  - inversion H; subst. cbn [length]. rewrite N.add_0_r, u32_small by assumption. repeat split; [assumption|lia].
  - unfold store_save in H. destruct (Nat.eqb (length (fst it)) (cs_len s)) eqn:E; cbn [enforce bind] in H; [|discriminate].
    apply Nat.eqb_eq in E. destruct (IH _ _ H) as (A & B & C & D); cbn [cs_len cs_items cs_peer cs_pending] in *.
    { apply u32_lt. } { apply u32_lt. } { exact HL. }
    split; [exact A|]. split; [rewrite B, u32_u32_add; f_equal; cbn [length]; lia|]. split; [exact C|].
    rewrite D, app_length. replace (length (enc_item it)) with item_size; [cbn [length]; lia|].
    unfold enc_item. rewrite !app_length, to_bytes_len, repeat_length. unfold item_size, max_cipher in *. lia.
Qed.

Lemma session_stable : forall len its d, store_session len no_cache its = Ok d ->
  exists st, store_open len d = Ok (d, st) /\ fst (store_flush d st) = d.
Proof.
  intros len its d H. unfold store_session in H.
  destruct (store_open len no_cache) as [[d1 s]| | |] eqn:O; cbn [bind] in H; try discriminate.
  assert (HL : len <= max_cipher).
  { unfold store_open in O. destruct (Nat.leb len max_cipher) eqn:E; [apply Nat.leb_le; exact E|discriminate]. }
  rewrite open_fresh in O by exact HL. inversion O; subst d1 s; clear O.
  destruct (store_save_all _ its) as [s1| | |] eqn:S; cbn [bind] in H; try discriminate. inversion H; subst d; clear H.
  destruct (save_all_shape _ _ _ S) as (A & B & C & D); cbn [cs_len cs_items cs_peer cs_pending] in *; try reflexivity; try exact HL.
  destruct s1 as [l i p pd]. cbn [cs_len cs_items cs_peer cs_pending] in *. subst l. rewrite N.add_0_l in B. cbn [length] in D.
  unfold store_flush, dump_meta. cbn [fst cs_len cs_items cs_peer cs_pending cd_data cd_meta file_bytes app].
  unfold store_open. replace (Nat.leb len max_cipher) with true by (symmetry; apply Nat.leb_le; exact HL).
  cbn [enforce cd_data cd_meta file_bytes]. rewrite D. replace (0 + length its * item_size) with (length its * item_size) by reflexivity.
  rewrite Nat.div_mul by discriminate. rewrite <- B.
  assert (I : (i < max32)%N) by (subst i; apply u32_lt).
  destruct (enc_meta_parts i p (N.of_nat len) I C (len_small len HL)) as (E1 & E2 & E3 & E4).
  rewrite E1, E2, E3, E4, !N.eqb_refl. cbn [Nat.ltb Nat.leb enforce].
  eexists. split; [reflexivity|]. cbn [fst cs_len cs_items cs_peer cs_pending cd_data cd_meta file_bytes]. rewrite app_nil_r. reflexivity.
Qed.
Lemma session_some : forall len d its d', store_session len d its = Ok d' -> cd_data d' <> None.
Proof.
  intros len d its d' H. unfold store_session in H. destruct (store_open len d) as [[d1 s]| | |]; cbn [bind] in H; try discriminate.
  destruct (store_save_all s its) as [s1| | |]; cbn [bind] in H; try discriminate. inversion H. discriminate.
Qed.
Lemma flush_some : forall d s, cd_data (fst (store_flush d s)) <> None.
Proof. intros d s. discriminate. Qed.

(** The cache keeps its key. *)
Lemma save_all_priv : forall rs c c', cache_save_all c rs = Ok c' -> ca_priv c' = ca_priv c.
Proof.
  induction rs as [|r rs IH]; intros c c' H; cbn [cache_save_all] in H; [inversion H; reflexivity|].
  destruct (cache_save c r) as [c1| | |] eqn:E; cbn [bind] in H; try discriminate. rewrite (IH _ _ H).
  unfold cache_save in E. destruct (Nat.eqb _ _); cbn [enforce] in E; inversion E; reflexivity.
Qed.
Lemma gen_priv : forall Item ev cl priv bs moved src c, offline_server Item ev cl priv bs moved src = Ok c -> ca_priv c = priv.
Proof.
  intros Item ev cl priv bs moved src c H. unfold offline_server in H.
  destruct (drain_shuffled _ _ _ _ _) as [b| | |]; cbn [bind] in H; try discriminate.
  unfold gen_cache in H. destruct (cache_open cl priv) as [c0| | |] eqn:O; cbn [bind] in H; try discriminate.
  assert (P : ca_priv c0 = priv).
  { unfold cache_open in O. destruct (Nat.ltb _ _); cbn [enforce] in O; inversion O; reflexivity. }
  rewrite <- P. clear O P. revert c0 H. induction b as [|x b IH]; intros c0 H; cbn [fold_left] in H; [inversion H; reflexivity|].
  cbn [bind] in H. destruct (cache_save_all c0 (batch_recs Item ev cl x)) as [c1| | |] eqn:E.
  - rewrite (IH _ H). eapply save_all_priv. exact E.
  - exfalso. clear -H. induction b as [|y b IH]; cbn [fold_left bind] in H; [discriminate|auto].
  - exfalso. clear -H. induction b as [|y b IH]; cbn [fold_left bind] in H; [discriminate|auto].
  - exfalso. clear -H. induction b as [|y b IH]; cbn [fold_left bind] in H; [discriminate|auto].
Qed.

(** From positions to keys. *)
Lemma rows_perm : forall Item t ix ix', Permutation ix ix' -> forall l, ph_rows Item t ix = Ok l ->
  exists l', ph_rows Item t ix' = Ok l' /\ Permutation l l'.
Proof.
  intros Item t ix ix' P. induction P as [|[i c] a b P IH|[i c] [j d] a|a b e P1 IH1 P2 IH2]; intros l H.
  - exists l. split; [exact H|reflexivity].
  - cbn [ph_rows] in *. destruct (nth_error t (N.to_nat i)) as [x|]; [|discriminate].
    destruct (ph_rows Item t a) as [la| | |] eqn:E; cbn [omap bind] in H; try discriminate. inversion H; subst.
    destruct (IH _ eq_refl) as (l' & E' & Q). rewrite E'. exists ((fst x, c) :: l'). split; [reflexivity|]. constructor. exact Q.
  - cbn [ph_rows] in *. destruct (nth_error t (N.to_nat j)) as [y|]; [|discriminate].
    destruct (nth_error t (N.to_nat i)) as [x|]; [|discriminate].
    destruct (ph_rows Item t a) as [la| | |]; cbn [omap bind] in *; try discriminate. inversion H; subst.
    eexists. split; [reflexivity|]. apply perm_swap.
  - destruct (IH1 _ H) as (l1 & E1 & Q1). destruct (IH2 _ E1) as (l2 & E2 & Q2). exists l2. split; [exact E2|]. etransitivity; eassumption.
Qed.
Lemma rows_joined : forall Item eqb peer l pre, 
  ph_rows Item (pre ++ l) (flat_map (fun p => match find (fun q => eqb (fst q) (fst (snd p))) peer with
                     | Some q => [(N.of_nat (fst p), snd q)]
                     | None => []
                     end) (number (length pre) l)) = Ok (ph_common Item eqb l peer).
Proof.
  intros Item eqb peer. induction l as [|e l IH]; intros pre; [reflexivity|].
  cbn [number flat_map fst snd]. unfold ph_common. cbn [flat_map].
  specialize (IH (pre ++ [e])). rewrite <- app_assoc, app_length in IH. cbn [app length] in IH.
  replace (length pre + 1) with (S (length pre)) in IH by lia.
  destruct (find (fun q => eqb (fst q) (fst e)) peer) as [q|]; [|exact IH].
  cbn [app ph_rows]. rewrite Nat2N.id. rewrite nth_error_app2, Nat.sub_diag by lia. cbn [nth_error].
  unfold ph_common in IH. rewrite IH. reflexivity.
Qed.
Lemma rows_of_joined : forall Item eqb self peer ix, Permutation ix (joined Item eqb self peer) ->
  exists l, ph_rows Item self ix = Ok l /\ Permutation l (ph_common Item eqb self peer).
Proof.
  intros Item eqb self peer ix P.
  destruct (rows_perm Item self _ _ (Permutation_sym P) _ (rows_joined Item eqb peer self [])) as (l & E & Q).
  exists l. split; [exact E|symmetry; exact Q].
Qed.

(** Histories. *)
Section Hist.
Variable Item : Type.
Definition last_build (rs : list (ph_run Item)) (g : ph_run Item) : Prop :=
  exists before after, rs = before ++ g :: after /\ ph_builds (pr_mode Item g) = true /\
    Forall (fun r => ph_builds (pr_mode Item r) = false) after.
Lemma list_snoc : forall (A : Type) (l : list A), l = [] \/ exists b x, l = b ++ [x].
Proof. intros A l. induction l as [|x l _] using rev_ind; [left; reflexivity|right; eauto]. Qed.
Lemma snoc_inj : forall (A : Type) (a b : list A) x y, a ++ [x] = b ++ [y] -> a = b /\ x = y.
Proof. intros A a b x y H. apply app_inj_tail in H. exact H. Qed.
Lemma last_build_snoc : forall rs r g, last_build (rs ++ [r]) g ->
  (ph_builds (pr_mode Item r) = true /\ g = r) \/ (ph_builds (pr_mode Item r) = false /\ last_build rs g).
Proof.
  intros rs r g (b & a & E & B & F). destruct (list_snoc _ a) as [->|(a' & x & ->)].
  - apply snoc_inj in E. destruct E as [_ ->]. left. split; [exact B|reflexivity].
  - rewrite app_comm_cons, app_assoc in E. apply snoc_inj in E. destruct E as [-> ->].
    apply Forall_app in F. destruct F as [F1 F2]. right. split; [inversion F2; assumption|]. exists b, a'. auto.
Qed.
Lemma served_last : forall rs g, ph_served Item rs g -> last_build rs g.
Proof. intros rs g (b & a & E & B & F & _). exists b, a. auto. Qed.
Lemma served_snoc : forall rs r g, ph_served Item (rs ++ [r]) g ->
  (ph_builds (pr_mode Item r) = true /\ ph_sends (pr_mode Item r) = true /\ g = r) \/
  (ph_builds (pr_mode Item r) = false /\ last_build rs g /\ (ph_sends (pr_mode Item r) = true \/ ph_served Item rs g)).
Proof.
  intros rs r g (b & a & E & B & F & S). destruct (list_snoc _ a) as [->|(a' & x & ->)].
  - apply snoc_inj in E. destruct E as [_ ->]. left. split; [exact B|]. inversion S; subst; [auto|]. inversion H0.
  - rewrite app_comm_cons, app_assoc in E. apply snoc_inj in E. destruct E as [-> ->].
    apply Forall_app in F. destruct F as [F1 F2]. right. split; [inversion F2; assumption|]. split; [exists b, a'; auto|].
    rewrite app_comm_cons in S. apply Exists_app in S. destruct S as [S|S]; [right; exists b, a'; auto|].
    left. inversion S; subst; [assumption|]. inversion H0.
Qed.
End Hist.

Section Runs.
Variable Item : Type.
Variables (simple_eval blind : bytes -> Item -> bytes) (evaluate finalize : bytes -> bytes -> bytes) (cl pl : nat).
Notation step := (ph_step Item simple_eval evaluate blind finalize cl pl).
Notation steps := (ph_steps Item simple_eval evaluate blind finalize cl pl).
Notation built g := (offline_server Item (simple_eval (ph_gen_key Item g)) cl (ph_gen_key Item g) (pr_bsg Item g) (pr_moved Item g) (pr_src Item g)).

Lemma steps_snoc : forall rs r s, steps (rs ++ [r]) s = (do s' <- steps rs s; do (s'', _) <- step r s'; Ok s'').
Proof.
  induction rs as [|x rs IH]; intros r s; cbn [app ph_steps bind].
  - reflexivity.
  - destruct (step x s) as [[s1 o]| | |]; cbn [bind]; try reflexivity. apply IH.
Qed.

Lemma transfer_spec : forall r s s' c, ph_transfer Item cl r s = Ok s' -> sd_cache Item (ps_server Item s) = Some c ->
  (cd_data (ps_client Item s) = None -> ps_client Item s = no_cache) ->
  ps_server Item s' = ps_server Item s /\ offline_transfer cl (pr_bst Item r) c = Ok (ps_client Item s').
Proof.
  intros r s s' c H C N0. unfold ph_transfer in H. rewrite C in H. unfold offline_transfer.
  destruct (cache_batches (pr_bst Item r) c) as [bt| | |]; cbn [bind] in H |- *; try discriminate.
  destruct (recv_into _ _ _) as [items| | |]; cbn [bind] in H |- *; try discriminate.
  replace (ph_clear (ps_client Item s)) with no_cache in H.
  2:{ unfold ph_clear. destruct (cd_data (ps_client Item s)) eqn:E; [reflexivity|]. symmetry. apply N0. reflexivity. }
  destruct (store_session cl no_cache items) as [d| | |] eqn:E; cbn [bind] in H |- *; try discriminate.
  inversion H; subst. split; reflexivity.
Qed.
Lemma transferred_some : forall bst c d, offline_transfer cl bst c = Ok d -> cd_data d <> None.
Proof.
  intros bst c d H. unfold offline_transfer in H. destruct (cache_batches _ _); cbn [bind] in H; try discriminate.
  destruct (recv_into _ _ _); cbn [bind] in H; try discriminate. eapply session_some; exact H.
Qed.
Lemma transferred_stable : forall bst c d, offline_transfer cl bst c = Ok d ->
  exists st, store_open cl d = Ok (d, st) /\ fst (store_flush d st) = d.
Proof.
  intros bst c d H. unfold offline_transfer in H. destruct (cache_batches _ _); cbn [bind] in H; try discriminate.
  destruct (recv_into _ _ _); cbn [bind] in H; try discriminate. eapply session_stable; exact H.
Qed.
Lemma online_spec : forall r s s' o, ph_online Item evaluate blind finalize cl pl r s = Ok (s', o) ->
  ps_server Item s' = ps_server Item s /\ cd_data (ps_client Item s') <> None /\
  (forall st, store_open cl (ps_client Item s) = Ok (ps_client Item s, st) -> fst (store_flush (ps_client Item s) st) = ps_client Item s ->
     ps_client Item s' = ps_client Item s).
Proof.
  intros r s s' o H. unfold ph_online in H.
  destruct (sd_cache Item (ps_server Item s)) as [c|]; [|discriminate]. destruct (sd_table Item (ps_server Item s)) as [t|]; [|discriminate].
  match type of H with bind ?m _ = _ => destruct m as [[[rc nc] [rs ns]]| | |] end; cbn [bind] in H; try discriminate.
  destruct (store_open cl (ps_client Item s)) as [[d1 st]| | |]; cbn [bind] in H; try discriminate.
  match type of H with bind ?m _ = _ => destruct m as [oc| | |] end; cbn [bind] in H; try discriminate.
  match type of H with bind ?m _ = _ => destruct m as [os| | |] end; cbn [bind] in H; try discriminate.
  inversion H; subst. split; [reflexivity|]. split; [discriminate|].
  intros st' E F. inversion E; subst. exact F.
Qed.
Lemma gen_spec : forall r d d', ph_gen Item simple_eval cl r d = Ok d' ->
  exists c, built r = Ok c /\ d' = mk_sdisk Item (Some c) (Some (ph_table Item r)).
Proof.
  intros r d d' H. unfold ph_gen in H. match type of H with bind ?m _ = _ => destruct m as [c| | |] end; cbn [bind] in H; try discriminate.
  inversion H. eauto.
Qed.

Definition inv (rs : list (ph_run Item)) (s : ph_state Item) : Prop :=
  (forall g, last_build Item rs g -> exists c, built g = Ok c /\ ps_server Item s = mk_sdisk Item (Some c) (Some (ph_table Item g))) /\
  (cd_data (ps_client Item s) = None -> ps_client Item s = no_cache) /\
  (forall g, ph_served Item rs g -> exists c t, built g = Ok c /\ In t rs /\ offline_transfer cl (pr_bst Item t) c = Ok (ps_client Item s)).

Lemma inv_step : forall rs r s s' o, inv rs s -> step r s = Ok (s', o) -> inv (rs ++ [r]) s'.
Proof.
  intros rs r s s' o (IA & IB & IC) H. unfold ph_step in H.
  assert (IR : In r (rs ++ [r])) by (apply in_or_app; right; left; reflexivity).
  assert (ONE : forall g, ph_builds (pr_mode Item r) = true -> last_build Item (rs ++ [r]) g -> g = r).
  { intros g B L. apply last_build_snoc in L. destruct L as [[_ ->]|[B' _]]; [reflexivity|congruence]. }
  destruct (pr_mode Item r) eqn:M; cbn [ph_server_init] in H.
  - (* gen *)
    destruct (ph_gen Item simple_eval cl r (ph_empty Item)) as [d'| | |] eqn:G; cbn [bind] in H; try discriminate.
    inversion H; subst. destruct (gen_spec _ _ _ G) as (c & E1 & ->).
    split; [|split].
    + intros g L. rewrite (ONE g eq_refl L). exists c. split; [exact E1|reflexivity].
    + exact IB.
    + intros g L. apply served_snoc in L. rewrite M in L. cbn [ph_builds ph_sends] in L. destruct L as [(_ & L & _)|(L & _)]; discriminate.
  - (* transfer *)
    destruct s as [sd cd]. cbn [ps_server ps_client] in *.
    destruct (ph_transfer Item cl r (mk_state Item sd cd)) as [s1| | |] eqn:T; cbn [bind] in H; try discriminate. inversion H; subst s1 o; clear H.
    destruct (sd_cache Item sd) as [c|] eqn:C; [|unfold ph_transfer in T; cbn [ps_server] in T; rewrite C in T; discriminate].
    destruct (transfer_spec _ _ _ c T C IB) as (S1 & S2). cbn [ps_server] in S1.
    split; [|split].
    + intros g L. apply last_build_snoc in L. rewrite M in L. destruct L as [[L _]|[_ L]]; [discriminate|]. rewrite S1. apply IA. exact L.
    + intros E. exfalso. exact (transferred_some _ _ _ S2 E).
    + intros g L. apply served_last in L. apply last_build_snoc in L. rewrite M in L. destruct L as [[L _]|[_ L]]; [discriminate|].
      destruct (IA g L) as (c' & E & Q). rewrite Q in C. cbn [sd_cache] in C. inversion C; subst c'. exists c, r. auto.
  - (* offline *)
    destruct (ph_gen Item simple_eval cl r (ph_empty Item)) as [d'| | |] eqn:G; cbn [bind] in H; try discriminate.
    destruct (gen_spec _ _ _ G) as (c & E1 & ->).
    destruct (ph_transfer Item cl r _) as [s1| | |] eqn:T; cbn [bind] in H; try discriminate. inversion H; subst s1 o; clear H.
    destruct (transfer_spec _ _ _ c T eq_refl IB) as (S1 & S2). cbn [ps_server] in S1.
    split; [|split].
    + intros g L. rewrite (ONE g eq_refl L). exists c. split; [exact E1|exact S1].
    + intros E. exfalso. exact (transferred_some _ _ _ S2 E).
    + intros g L. apply served_last in L. rewrite (ONE g eq_refl L). exists c, r. auto.
  - (* online *)
    destruct s as [sd cd]. cbn [ps_server ps_client] in *.
    destruct (online_spec _ _ _ _ H) as (S1 & S2 & S3). cbn [ps_server ps_client] in *.
    split; [|split].
    + intros g L. apply last_build_snoc in L. rewrite M in L. destruct L as [[L _]|[_ L]]; [discriminate|]. rewrite S1. apply IA. exact L.
    + intros E. exfalso. exact (S2 E).
    + intros g L. apply served_snoc in L. rewrite M in L. cbn [ph_builds ph_sends] in L. destruct L as [(L & _)|(_ & _ & [L|L])]; try discriminate.
      destruct (IC g L) as (c & t & E & I & T). destruct (transferred_stable _ _ _ T) as (st & O1 & O2).
      exists c, t. rewrite (S3 st O1 O2). split; [exact E|]. split; [apply in_or_app; left; exact I|exact T].
  - (* full *)
    destruct (ph_gen Item simple_eval cl r (ph_empty Item)) as [d'| | |] eqn:G; cbn [bind] in H; try discriminate.
    destruct (gen_spec _ _ _ G) as (c & E1 & ->).
    destruct (ph_transfer Item cl r _) as [s1| | |] eqn:T; cbn [bind] in H; try discriminate.
    destruct (transfer_spec _ _ _ c T eq_refl IB) as (S1 & S2). cbn [ps_server] in S1.
    destruct (online_spec _ _ _ _ H) as (Q1 & Q2 & Q3). destruct (transferred_stable _ _ _ S2) as (st & O1 & O2).
    split; [|split].
    + intros g L. rewrite (ONE g eq_refl L). exists c. split; [exact E1|]. rewrite Q1. exact S1.
    + intros E. exfalso. exact (Q2 E).
    + intros g L. apply served_last in L. rewrite (ONE g eq_refl L). exists c, r. rewrite (Q3 st O1 O2). auto.
Qed.
Lemma inv_init : inv [] (ph_init Item).
Proof.
  split; [|split].
  - intros g (b & a & E & _). destruct b; discriminate.
  - reflexivity.
  - intros g (b & a & E & _). destruct b; discriminate.
Qed.
Lemma inv_steps : forall rs s, steps rs (ph_init Item) = Ok s -> inv rs s.
Proof.
  induction rs as [|r rs IH] using rev_ind; intros s H.
  - inversion H. apply inv_init.
  - rewrite steps_snoc in H. destruct (steps rs (ph_init Item)) as [s1| | |]; cbn [bind] in H; try discriminate.
    destruct (step r s1) as [[s2 o]| | |] eqn:E; cbn [bind] in H; try discriminate. inversion H; subst.
    eapply inv_step; [|exact E]. apply IH. reflexivity.
Qed.
End Runs.

(** What one online phase needs of its run, of the run that built the cache, and of the keys. *)
Section Result.
Variable Item : Type.
Variable eqb : Item -> Item -> bool.
Variables (simple_eval blind : bytes -> Item -> bytes) (evaluate finalize : bytes -> bytes -> bytes) (cl pl : nat).

Lemma online_right : forall g r s c bst,
  (forall x y, eqb x y = true <-> x = y) -> 0 < cl < max_cipher -> 0 < pl -> 0 < bst ->
  ph_good_build Item g -> ph_good_online Item r -> ph_good_oprf Item simple_eval blind evaluate finalize cl pl (ph_gen_key Item g) (pr_client_key Item r) (map fst (ph_table Item g) ++ map fst (concat (pr_client Item r))) ->
  (pr_key_file Item r = None \/ pr_key_file Item r = Some (ph_gen_key Item g)) ->
  offline_server Item (simple_eval (ph_gen_key Item g)) cl (ph_gen_key Item g) (pr_bsg Item g) (pr_moved Item g) (pr_src Item g) = Ok c ->
  ps_server Item s = mk_sdisk Item (Some c) (Some (ph_table Item g)) -> offline_transfer cl bst c = Ok (ps_client Item s) ->
  exists o, ph_online Item evaluate blind finalize cl pl r s = Ok (s, o) /\ ph_right Item eqb r (ph_table Item g) o.
Proof.
  intros g r s c bst HE HC HP HB (B1 & B2 & B3 & B4 & B5) (O1 & O2 & O3 & O4 & O5 & O6 & O7) (P1 & P2 & P3 & P4 & P5) HK EC ES ET.
  destruct (C35_both_sides Item eqb (simple_eval (ph_gen_key Item g)) (blind (pr_client_key Item r)) (evaluate (ph_gen_key Item g)) (finalize (pr_client_key Item r)) cl pl
    HE HC HP P1 P2 P3 P4 (pr_src Item g) (pr_client Item r) (ph_gen_key Item g) (pr_moved Item g) (pr_bsg Item g) bst (pr_bso Item r) (pr_bsc Item r) (pr_threads Item r)
    (pr_sched Item r) (pr_shuffle Item r) (pr_server_gets Item r) B1 B2 B3 O1 B4 O2 P5 B5 HB O3 O4 O5 O6 O7)
    as (c' & d' & rc & rs & nc & ns & E1 & E2 & E3 & E4 & E5 & E6).
  rewrite EC in E1. inversion E1; subst c'. rewrite ET in E2. inversion E2; subst d'. clear E1 E2.
  destruct (transferred_stable cl bst c (ps_client Item s) ET) as (st & S1 & S2).
  unfold ph_online. rewrite ES. cbn [sd_cache sd_table].
  replace (ph_online_key Item r c) with (ph_gen_key Item g).
  2:{ unfold ph_online_key. destruct HK as [->| ->]; [|reflexivity]. symmetry. eapply gen_priv. exact EC. }
  rewrite E3. cbn [bind]. rewrite S1. cbn [bind]. rewrite S2.
  destruct s as [sd cd]. cbn [ps_server ps_client] in *. subst sd.
  unfold ph_right. destruct (pr_shuffle Item r) as [perm|]; cbn [bind].
  - destruct (pr_server_gets Item r); cbn [bind].
    + destruct (E6 eq_refl) as (E7 & E8). destruct (rows_of_joined _ _ _ _ _ E7) as (l & R1 & R2). fold (ph_table Item g) in R1, R2. rewrite R1. cbn [omap bind].
      eexists. split; [reflexivity|]. cbn [fst snd]. split; [reflexivity|]. rewrite E8. eauto.
    + eexists. split; [reflexivity|]. split; reflexivity.
  - destruct (rows_of_joined _ _ _ _ _ (E5 eq_refl)) as (l & R1 & R2). rewrite R1. cbn [omap bind]. fold (ph_table Item g) in R2, E4.
    destruct (pr_server_gets Item r); cbn [bind].
    + destruct (E6 eq_refl) as (E7 & E8). destruct (rows_of_joined _ _ _ _ _ E7) as (l' & R1' & R2'). fold (ph_table Item g) in R1', R2'. rewrite R1'. cbn [omap bind].
      eexists. split; [reflexivity|]. cbn [fst snd]. rewrite E4, E8. split; eauto.
    + eexists. split; [reflexivity|]. cbn [fst snd]. rewrite E4. split; eauto.
Qed.
End Result.

(** Existence of the cache and of the transfer. *)
Lemma built_sent : forall (Item : Type) (eqb : Item -> Item -> bool) (simple_eval blind : bytes -> Item -> bytes) (evaluate finalize : bytes -> bytes -> bytes) cl pl g r bst,
  (forall x y, eqb x y = true <-> x = y) -> 0 < cl < max_cipher -> 0 < pl -> 0 < bst ->
  ph_good_build Item g -> ph_good_online Item r ->
  ph_good_oprf Item simple_eval blind evaluate finalize cl pl (ph_gen_key Item g) (pr_client_key Item r) (map fst (ph_table Item g) ++ map fst (concat (pr_client Item r))) ->
  exists c d, offline_server Item (simple_eval (ph_gen_key Item g)) cl (ph_gen_key Item g) (pr_bsg Item g) (pr_moved Item g) (pr_src Item g) = Ok c /\
    offline_transfer cl bst c = Ok d.
Proof.
  intros Item eqb simple_eval blind evaluate finalize cl pl g r bst HE HC HP HB (B1 & B2 & B3 & B4 & B5) (O1 & O2 & O3 & O4 & O5 & O6 & O7) (P1 & P2 & P3 & P4 & P5).
  destruct (C35_both_sides Item eqb (simple_eval (ph_gen_key Item g)) (blind (pr_client_key Item r)) (evaluate (ph_gen_key Item g)) (finalize (pr_client_key Item r)) cl pl
    HE HC HP P1 P2 P3 P4 (pr_src Item g) (pr_client Item r) (ph_gen_key Item g) (pr_moved Item g) (pr_bsg Item g) bst (pr_bso Item r) (pr_bsc Item r) (pr_threads Item r)
    (pr_sched Item r) (pr_shuffle Item r) (pr_server_gets Item r) B1 B2 B3 O1 B4 O2 P5 B5 HB O3 O4 O5 O6 O7)
    as (c & d & _ & _ & _ & _ & E1 & E2 & _).
  eauto.
Qed.
Lemma transfer_runs : forall Item cl r s c d, sd_cache Item (ps_server Item s) = Some c ->
  (cd_data (ps_client Item s) = None -> ps_client Item s = no_cache) -> offline_transfer cl (pr_bst Item r) c = Ok d ->
  exists s1, ph_transfer Item cl r s = Ok s1 /\ ps_server Item s1 = ps_server Item s /\ ps_client Item s1 = d.
Proof.
  intros Item cl r s c d C N0 H. unfold ph_transfer. rewrite C. unfold offline_transfer in H.
  destruct (cache_batches (pr_bst Item r) c) as [bt| | |]; cbn [bind] in H |- *; try discriminate.
  destruct (recv_into _ _ _) as [items| | |]; cbn [bind] in H |- *; try discriminate.
  replace (ph_clear (ps_client Item s)) with no_cache.
  2:{ unfold ph_clear. destruct (cd_data (ps_client Item s)) eqn:E; [reflexivity|]. symmetry. apply N0. reflexivity. }
  rewrite H. cbn [bind]. eexists. split; [reflexivity|]. split; reflexivity.
Qed.
