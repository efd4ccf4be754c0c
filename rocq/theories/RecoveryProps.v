(** C30, C32, C56: the recovery folder. *)
From Coq Require Import List NArith Bool Arith Lia.
From Verif Require Import Base RecoveryModel RecoverySpec RecoveryProofs.
Import ListNotations.

(** ** C30 *)
(** Within a run the saved stages do not decrease, provided the run makes no Update call when it
    starts at ONLINE_END or later. *)
Theorem C30_stage_monotone_partial :
  forall (Config : Type) (config_eqb : Config -> Config -> bool) (default_config : Config) (Key : Type)
         (d : folder Config Key) (c : ckpt Config) cfg dig again k peer ups ends n,
  load Config default_config Key d = Ok c ->
  Forall (is_update Config Key) ups -> Forall (is_end Config Key) ends ->
  (c_stage Config c <= STAGE_ONLINE_START \/ ups = []) ->
  ascending (c_stage Config c)
    (stages (firstn n (run Config config_eqb default_config Key (program Config Key cfg dig again k peer ups ends) d))).
Proof.
  intros Config config_eqb default_config Key d c cfg dig again k peer ups ends n HL HU HE HC.
  unfold run. rewrite HL.
  assert (PRE : forall m a b, ascending m (stages (a ++ b : list (event Config Key))) -> ascending m (stages a)).
  { intros m a b. rewrite stages_app. generalize (stages a) (stages b). clear. intros l. revert m.
    induction l as [|x l IH]; intros m l' H; [exact I|]. cbn [app ascending] in *. destruct H. split; [assumption|]. eapply IH. eassumption. }
  apply (PRE _ _ (skipn n (run_calls Config config_eqb Key (program Config Key cfg dig again k peer ups ends) c d))).
  rewrite firstn_skipn.
  assert (NE : Forall (non_update Config Key) ends) by (eapply Forall_impl; [|exact HE]; intros []; cbn; unfold non_update; cbn; tauto).
  destruct HC as [HC| ->].
  - replace (program Config Key cfg dig again k peer ups ends) with
      ((CInit Config Key cfg dig :: (if again then [CInit Config Key cfg dig] else []) ++ CPre Config Key k :: COnline Config Key peer :: ups) ++ ends).
    2: { unfold program. cbn [app]. rewrite <- app_assoc. reflexivity. }
    apply asc_low; [exact HC| |exact NE].
    constructor; [unfold non_end; cbn; tauto|]. apply Forall_app. split.
    + destruct again; repeat constructor. unfold non_end; cbn; tauto.
    + repeat (constructor; [unfold non_end; cbn; tauto|]). eapply Forall_impl; [|exact HU]. intros []; cbn; unfold non_end; cbn; tauto.
  - apply asc_nonupdate. unfold program. cbn [app].
    constructor; [unfold non_update; cbn; tauto|]. apply Forall_app. split.
    + destruct again; repeat constructor. unfold non_update; cbn; tauto.
    + repeat (constructor; [unfold non_update; cbn; tauto|]). exact NE.
Qed.
Print Assumptions C30_stage_monotone_partial.

(** Without that proviso it is false: a party that had finished, restarted because its peer had
    not, falls back from POST_PROCESS_END to ONLINE_START. *)
Definition rx_rec : record := mk_record 3 0 1.
Definition rx_run (d : folder nat nat) (ups ends : list (call nat nat)) : list (event nat nat) :=
  run nat Nat.eqb 0 nat (program nat nat 7 [1%N] false None rx_rec ups ends) d.
Definition rx_first := rx_run (fresh_folder nat nat) [CParsed nat nat 1; CParsed nat nat 2] [CPostEnd nat nat].
Definition rx_d1 := apply_events nat nat (fresh_folder nat nat) rx_first.
Theorem C30_stage_monotone_refuted :
  exists (d : folder nat nat) (es : list (event nat nat)),
    history nat Nat.eqb 0 nat (fun k => k = None) d es /\ ~ ascending 0 (stages es).
Proof.
  exists (apply_events nat nat rx_d1 (firstn 100 (rx_run rx_d1 [CParsed nat nat 2] []))),
         (([] ++ firstn 100 rx_first) ++ firstn 100 (rx_run rx_d1 [CParsed nat nat 2] [])).
  split.
  - apply (h_run nat Nat.eqb 0 nat (fun k => k = None) rx_d1 ([] ++ firstn 100 rx_first) 7 [1%N] false None rx_rec [CParsed nat nat 2] [] 100);
      [|reflexivity|repeat constructor|constructor].
    apply (h_run nat Nat.eqb 0 nat (fun k => k = None) (fresh_folder nat nat) [] 7 [1%N] false None rx_rec [CParsed nat nat 1; CParsed nat nat 2] [CPostEnd nat nat] 100);
      [constructor|reflexivity|repeat constructor|repeat constructor].
  - cbv. lia.
Qed.
Print Assumptions C30_stage_monotone_refuted.

(** Both parties resume the bucket protocols at the same bucket, which each has recorded. *)
Theorem C30_same_start_bucket : forall (own peer : record),
  start_bucket own peer = start_bucket peer own /\
  (start_bucket own peer <= r_parsed own)%N /\ (start_bucket own peer <= r_parsed peer)%N.
Proof. intros own peer. unfold start_bucket. repeat split; lia. Qed.
Print Assumptions C30_same_start_bucket.

(** ECDH: the items a party skips were recorded by every party that stores their dual-masked form. *)
Theorem C30_same_start_item : forall Config (self_touch peer_touch : bool) (own : ckpt Config) (peer : record),
  self_touch || peer_touch = true ->
  (self_touch = true -> (processed_items Config self_touch peer_touch own peer <= c_self Config own)%N) /\
  (peer_touch = true -> (processed_items Config self_touch peer_touch own peer <= r_peer peer)%N).
Proof. intros Config [] [] own peer H; cbn in *; try discriminate; split; intros; try discriminate; lia. Qed.
Print Assumptions C30_same_start_item.

(** Saving is not atomic: a crash between truncating and writing the file loses the checkpoint, and
    no later run on the folder gets anywhere. *)
Theorem C30_save_atomic_refuted :
  exists (d : folder nat nat) (es : list (event nat nat)),
    history nat Nat.eqb 0 nat (fun k => k = None) d es /\
    (exists c, In (WCkpt nat nat (Saved nat c)) es) /\
    forall xs, run nat Nat.eqb 0 nat xs d = [].
Proof.
  exists (apply_events nat nat (fresh_folder nat nat) (firstn 5 rx_first)), ([] ++ firstn 5 rx_first). split; [|split].
  - apply (h_run nat Nat.eqb 0 nat (fun k => k = None) (fresh_folder nat nat) [] 7 [1%N] false None rx_rec [CParsed nat nat 1; CParsed nat nat 2] [CPostEnd nat nat] 5);
      [constructor|reflexivity|repeat constructor|repeat constructor].
  - exists (mk_ckpt nat 1 7 [1%N] 0 0 0). cbv. tauto.
  - intros xs. reflexivity.
Qed.
Print Assumptions C30_save_atomic_refuted.

(** Both parties, each given the other's record, agree on whether the online stage is over, and
    it is over only if both have marked its end. *)
Theorem C30_parties_agree_finished :
  forall (Config Key : Type) (a b : ckpt Config) fa fb pa pb qa qb,
  In (OStart Config Key fa pa qa) (snd (mark_online_start Config Key (record_of Config b) a)) ->
  In (OStart Config Key fb pb qb) (snd (mark_online_start Config Key (record_of Config a) b)) ->
  fa = fb /\ (fa = true <-> STAGE_ONLINE_END <= c_stage Config a /\ STAGE_ONLINE_END <= c_stage Config b)
  /\ pa = c_peer Config b /\ qa = c_parsed Config b.
Proof.
  assert (G : forall Config Key (a b : ckpt Config) f p q,
    In (OStart Config Key f p q) (snd (mark_online_start Config Key (record_of Config b) a)) ->
    f = finished (record_of Config a) (record_of Config b) /\ p = c_peer Config b /\ q = c_parsed Config b).
  { intros Config Key a b f p q H. unfold mark_online_start in H.
    destruct (Nat.ltb (c_stage Config a) STAGE_ONLINE_START); cbn [snd save app In] in H;
      repeat (destruct H as [H|H]; [try discriminate H; injection H as <- <- <-; auto|]); contradiction. }
  intros Config Key a b fa fb pa pb qa qb Ha Hb. apply G in Ha as (-> & -> & ->). apply G in Hb as (-> & _ & _).
  unfold finished, record_of. cbn [r_stage r_peer r_parsed].
  rewrite andb_true_iff, !Nat.leb_le. split; [apply andb_comm|]. tauto.
Qed.
Print Assumptions C30_parties_agree_finished.

(** The counts a later run loads are, for each of the three counters, the last one passed to its
    Update call. *)
Theorem C30_counts_durable :
  forall (Config : Type) (config_eqb : Config -> Config -> bool) (default_config : Config) (Key : Type)
         (ups : list (call Config Key)) (c : ckpt Config) (d : folder Config Key),
  Forall (is_update Config Key) ups -> load Config default_config Key d = Ok c ->
  exists c', load Config default_config Key
               (apply_events Config Key d (run_calls Config config_eqb Key ups c d)) = Ok c'
    /\ c_self Config c' = last_count self_count (c_self Config c) ups
    /\ c_peer Config c' = last_count peer_count (c_peer Config c) ups
    /\ c_parsed Config c' = last_count parsed_count (c_parsed Config c) ups
    /\ c_config Config c' = c_config Config c /\ c_digest Config c' = c_digest Config c.
Proof.
  intros Config config_eqb default_config Key ups. induction ups as [|x ups IH]; intros c d HU HL.
  - exists c. cbn. repeat split; assumption.
  - inversion HU as [|? ? Hx Hr]; subst.
    assert (Hs : forall c', exec Config config_eqb Key d x c = Ok (c', save Config Key c') ->
      exists c'', load Config default_config Key
               (apply_events Config Key d (run_calls Config config_eqb Key (x :: ups) c d)) = Ok c''
        /\ c_self Config c'' = last_count self_count (c_self Config c') ups
        /\ c_peer Config c'' = last_count peer_count (c_peer Config c') ups
        /\ c_parsed Config c'' = last_count parsed_count (c_parsed Config c') ups
        /\ c_config Config c'' = c_config Config c' /\ c_digest Config c'' = c_digest Config c').
    { intros c' E. cbn [run_calls]. rewrite E. unfold apply_events. rewrite fold_left_app.
      apply IH; [exact Hr|reflexivity]. }
    destruct x; cbn [is_update] in Hx; try contradiction; cbn [exec] in Hs;
      destruct (Hs _ eq_refl) as (c'' & A & B & C & D & F & G); exists c''; auto 10.
Qed.
Print Assumptions C30_counts_durable.
Example C30_counts_example :
  let d := mk_folder nat nat (Saved nat (mk_ckpt nat 3 7 [1%N] 5 6 0)) None in
  load nat 0 nat (apply_events nat nat d (run_calls nat Nat.eqb nat
     [CPeer nat nat 8; CSelf nat nat 7; CPeer nat nat 9] (mk_ckpt nat 3 7 [1%N] 5 6 0) d))
  = Ok (mk_ckpt nat 3 7 [1%N] 7 9 0).
Proof. reflexivity. Qed.

(** ** C32 *)
(** Over any number of runs and crashes on one folder, all runs that get past Init have the same
    configuration and digest. *)
Theorem C32_one_task :
  forall (Config : Type) (config_eqb : Config -> Config -> bool) (default_config : Config) (Key : Type) kinds d es,
  (forall a b, config_eqb a b = true <-> a = b) ->
  history Config config_eqb default_config Key kinds d es -> one_task es.
Proof.
  intros Config config_eqb default_config Key kinds d es CE H.
  destruct (history_inv0 Config config_eqb default_config Key CE kinds d es H) as (T & A & _).
  intros c g c' g' I I'. apply A in I, I'. rewrite I in I'. inversion I'. auto.
Qed.
Print Assumptions C32_one_task.
(** A rejected run writes nothing to the checkpoint or the key file. *)
Theorem C32_rejected_run_harmless :
  forall (Config : Type) (config_eqb : Config -> Config -> bool) (default_config : Config) (Key : Type)
    (d : folder Config Key) c cfg dig again k peer ups ends,
  (forall a b, config_eqb a b = true <-> a = b) ->
  load Config default_config Key d = Ok c -> c_stage Config c <> STAGE_UNSPECIFIED ->
  (cfg <> c_config Config c \/ dig <> c_digest Config c) ->
  run Config config_eqb default_config Key (program Config Key cfg dig again k peer ups ends) d = [].
Proof.
  intros Config config_eqb default_config Key d c cfg dig again k peer ups ends CE HL HS HD.
  unfold run. rewrite HL. unfold program. cbn [run_calls exec]. unfold mark_init_end.
  destruct (Nat.eqb_spec (c_stage Config c) STAGE_UNSPECIFIED); [contradiction|]. cbn [negb].
  destruct (config_eqb cfg (c_config Config c)) eqn:E1; cbn [enforce]; [|reflexivity].
  destruct (bytes_eqb dig (c_digest Config c)) eqn:E2; cbn [enforce]; [|reflexivity].
  apply CE in E1. apply bytes_eqb_spec in E2. destruct HD; contradiction.
Qed.
Print Assumptions C32_rejected_run_harmless.

(** ** C56 *)
(** All ECDH runs on one folder that get past PreProcess mask with the same private key. *)
Theorem C56_one_key :
  forall (Config : Type) (config_eqb : Config -> Config -> bool) (default_config : Config) (Key : Type) d es,
  (forall a b, config_eqb a b = true <-> a = b) ->
  history Config config_eqb default_config Key (fun k => k <> None) d es ->
  one_key es /\ forall k, In (OKey Config Key k) es -> k <> None.
Proof.
  intros Config config_eqb default_config Key d es CE H.
  destruct (history_inv Config config_eqb default_config Key CE d es H) as (T & K & _ & B & _). split.
  - intros k k' I I'. apply B in I, I'. destruct I, I'. congruence.
  - intros k I. apply B in I. destruct I as [-> I]. exact I.
Qed.
Print Assumptions C56_one_key.

(** Non-trivial case: two ECDH runs, the first cut off in the online stage; a third one with
    another configuration. *)
Definition rx_prog (cfg key : nat) (ups ends : list (call nat nat)) := program nat nat cfg [1%N] true (Some key) rx_rec ups ends.
Definition rx_e1 := firstn 13 (run nat Nat.eqb 0 nat (rx_prog 7 100 [CSelf nat nat 5; CPeer nat nat 4] [COnlineEnd nat nat]) (fresh_folder nat nat)).
Definition rx_f1 := apply_events nat nat (fresh_folder nat nat) rx_e1.
Definition rx_e2 := firstn 100 (run nat Nat.eqb 0 nat (rx_prog 7 200 [CSelf nat nat 9] [COnlineEnd nat nat]) rx_f1).
Definition rx_f2 := apply_events nat nat rx_f1 rx_e2.
Definition rx_e3 := firstn 100 (run nat Nat.eqb 0 nat (rx_prog 8 300 [] []) rx_f2).
Example C30_C32_example :
  history nat Nat.eqb 0 nat (fun k => k <> None) (apply_events nat nat rx_f2 rx_e3) ((([] ++ rx_e1) ++ rx_e2) ++ rx_e3) /\
  filter (fun e => match e with OKey _ _ _ | OInit _ _ _ _ => true | _ => false end) (rx_e1 ++ rx_e2 ++ rx_e3) =
    [OInit nat nat 7 [1%N]; OInit nat nat 7 [1%N]; OKey nat nat (Some 100); OInit nat nat 7 [1%N]; OInit nat nat 7 [1%N]; OKey nat nat (Some 100)] /\
  stages (rx_e1 ++ rx_e2) = [1; 2; 3; 3; 3; 4] /\ rx_e3 = [] /\
  f_ckpt nat nat rx_f2 = Saved nat (mk_ckpt nat 4 7 [1%N] 9 0 0).
Proof.
  split; [|repeat split; reflexivity].
  assert (P : forall cfg key ups ends, rx_prog cfg key ups ends = program nat nat cfg [1%N] true (Some key) rx_rec ups ends) by reflexivity.
  apply (h_run nat Nat.eqb 0 nat (fun k => k <> None) rx_f2 (([] ++ rx_e1) ++ rx_e2) 8 [1%N] true (Some 300) rx_rec [] [] 100);
    [|discriminate|constructor|constructor].
  apply (h_run nat Nat.eqb 0 nat (fun k => k <> None) rx_f1 ([] ++ rx_e1) 7 [1%N] true (Some 200) rx_rec [CSelf nat nat 9] [COnlineEnd nat nat] 100);
    [|discriminate|repeat constructor|repeat constructor].
  apply (h_run nat Nat.eqb 0 nat (fun k => k <> None) (fresh_folder nat nat) [] 7 [1%N] true (Some 100) rx_rec [CSelf nat nat 5; CPeer nat nat 4] [COnlineEnd nat nat] 13);
    [constructor|discriminate|repeat constructor|repeat constructor].
Qed.
