(** C88: unbalanced PSI run in phases. *)
From Coq Require Import List NArith Bool Arith Lia Permutation.
From Verif Require Import Base BaseProofs Text StoreModel StoreProofs2 ShufModel UbCacheModel UbPsiModel UbPsiSpec UbPsiProofs2 PhModel PhSpec PhProofs.
Import ListNotations.

(** After any sequence of successful runs, an online run gives both parties the common keys of the
    client's input and of the table from which the cache was last built, provided that cache was sent
    to the client afterwards and the run uses the key the cache was built with. *)
Theorem C88_phases :
  forall (Item : Type) (eqb : Item -> Item -> bool) (simple_eval blind : bytes -> Item -> bytes)
    (evaluate finalize : bytes -> bytes -> bytes) (cl pl : nat) rs g r s,
  (forall x y, eqb x y = true <-> x = y) -> 0 < cl < max_cipher -> 0 < pl ->
  Forall (fun t => 0 < pr_bst Item t) rs ->
  ph_steps Item simple_eval evaluate blind finalize cl pl rs (ph_init Item) = Ok s -> ph_served Item rs g ->
  ph_good_build Item g -> ph_good_online Item r -> pr_mode Item r = PhOnline ->
  ph_good_oprf Item simple_eval blind evaluate finalize cl pl (ph_gen_key Item g) (pr_client_key Item r)
    (map fst (ph_table Item g) ++ map fst (concat (pr_client Item r))) ->
  (pr_key_file Item r = None \/ pr_key_file Item r = Some (ph_gen_key Item g)) ->
  exists o, ph_step Item simple_eval evaluate blind finalize cl pl r s = Ok (s, o) /\
    ph_right Item eqb r (ph_table Item g) o.
Proof.
  intros Item eqb simple_eval blind evaluate finalize cl pl rs g r s HE HC HP HB HS HG GB GO GM GK KF.
  destruct (inv_steps _ _ _ _ _ _ _ _ _ HS) as (IA & _ & IC).
  destruct (IC g HG) as (c & t & E1 & I & E2). destruct (IA g (served_last _ _ _ HG)) as (c' & E1' & E3).
  rewrite E1 in E1'. inversion E1'; subst c'. unfold ph_step. rewrite GM. cbn [ph_server_init]. destruct s as [sd cd]. cbn [ps_server ps_client] in *.
  rewrite Forall_forall in HB.
  exact (online_right Item eqb simple_eval blind evaluate finalize cl pl g r (mk_state Item sd cd) c (pr_bst Item t) HE HC HP (HB t I) GB GO GK KF E1 E3 E2).
Qed.
Print Assumptions C88_phases.

(** A run of all phases does not depend on what was on disk: it succeeds and gives the common keys of
    the two inputs. *)
Theorem C88_full :
  forall (Item : Type) (eqb : Item -> Item -> bool) (simple_eval blind : bytes -> Item -> bytes)
    (evaluate finalize : bytes -> bytes -> bytes) (cl pl : nat) rs r s,
  (forall x y, eqb x y = true <-> x = y) -> 0 < cl < max_cipher -> 0 < pl ->
  ph_steps Item simple_eval evaluate blind finalize cl pl rs (ph_init Item) = Ok s ->
  ph_good_build Item r -> ph_good_online Item r -> 0 < pr_bst Item r -> pr_mode Item r = PhFull ->
  ph_good_oprf Item simple_eval blind evaluate finalize cl pl (ph_gen_key Item r) (pr_client_key Item r)
    (map fst (ph_table Item r) ++ map fst (concat (pr_client Item r))) ->
  exists s' o, ph_step Item simple_eval evaluate blind finalize cl pl r s = Ok (s', o) /\
    ph_right Item eqb r (ph_table Item r) o.
Proof.
  intros Item eqb simple_eval blind evaluate finalize cl pl rs r s HE HC HP HS GB GO HB GM GK.
  destruct (inv_steps _ _ _ _ _ _ _ _ _ HS) as (_ & IB & _).
  destruct (built_sent Item eqb simple_eval blind evaluate finalize cl pl r r (pr_bst Item r) HE HC HP HB GB GO GK) as (c & d & E1 & E2).
  destruct (transfer_runs Item cl r (mk_state Item (mk_sdisk Item (Some c) (Some (ph_table Item r))) (ps_client Item s)) c d eq_refl IB E2) as (s1 & T & S1 & S2).
  cbn [ps_server] in S1.
  destruct (online_right Item eqb simple_eval blind evaluate finalize cl pl r r s1 c (pr_bst Item r) HE HC HP HB GB GO GK) as (o & E3 & E4);
    [unfold ph_gen_key; destruct (pr_key_file Item r); auto|exact E1|exact S1|rewrite S2; exact E2|].
  exists s1, o. split; [|exact E4]. unfold ph_step. rewrite GM. unfold ph_gen. rewrite E1. cbn [bind]. rewrite T. cbn [bind]. exact E3.
Qed.
Print Assumptions C88_full.

(** Before any cache was built, sending it and the online phase throw. *)
Theorem C88_nothing_built :
  forall (Item : Type) (simple_eval blind : bytes -> Item -> bytes) (evaluate finalize : bytes -> bytes -> bytes) (cl pl : nat) r rs,
  Forall (fun x => ph_builds (pr_mode Item x) = false) (r :: rs) ->
  ph_steps Item simple_eval evaluate blind finalize cl pl (r :: rs) (ph_init Item) = Throw.
Proof.
  intros Item simple_eval blind evaluate finalize cl pl r rs F. inversion F as [|? ? B _]; subst. cbn [ph_steps]. unfold ph_step.
  destruct (pr_mode Item r); try discriminate; reflexivity.
Qed.
Print Assumptions C88_nothing_built.

(** ** Cases *)
(** A toy OPRF: a value is the item and the first byte of the server's key. *)
Definition t_k (k : bytes) : N := hd 0%N k.
Definition t_eval (k : bytes) (x : N) : bytes := [x; t_k k].
Definition t_blind (ck : bytes) (x : N) : bytes := [x; t_k ck; 4%N].
Definition t_evaluate (k b : bytes) : bytes := firstn 1 b ++ [t_k k; 4%N].
Definition t_finalize (ck b : bytes) : bytes := firstn 2 b.
Definition t_run (m : ph_mode) (kf : option bytes) (fresh : bytes) (src : list (N * N)) (cli : list (N * N)) (shuffle : option (list nat)) : ph_run N :=
  mk_ph N m kf fresh [7%N] [mk_raw N src (seq 0 (length src))] [cli] 0%N 3 2 2 3 2 (fun _ n => serial_schedule n 2) shuffle true.
Notation t_steps := (ph_steps N t_eval t_evaluate t_blind t_finalize 2 3).
Notation t_step := (ph_step N t_eval t_evaluate t_blind t_finalize 2 3).
Definition t_online (rs : list (ph_run N)) (r : ph_run N) : outcome (ph_out N * ph_out N) :=
  do s <- t_steps rs (ph_init N); omap snd (t_step r s).

Definition t_a : list (N * N) := [(5, 0); (6, 2); (9, 0)]%N.
Definition t_b : list (N * N) := [(1, 0); (9, 0); (5, 0)]%N.
Definition t_cli : list (N * N) := [(9, 1); (2, 0); (6, 0)]%N.

(** Build and send, two online runs with different inputs, the table changed and sent again, another
    online run, then everything at once. *)
Example C88_example :
  t_online [t_run PhGen None [1%N] t_a [] None; t_run PhTransfer None [] [] [] None] (t_run PhOnline None [] [] t_cli None)
  = Ok (Some ([(6, 2); (9, 0)], 5), Some ([(6, 0); (9, 1)], 4))%N /\
  t_online [t_run PhOffline None [1%N] t_a [] None; t_run PhOnline None [] [] t_cli None; t_run PhGen None [2%N] t_b [] None; t_run PhTransfer None [] [] [] None]
           (t_run PhOnline None [] [] t_cli None)
  = Ok (Some ([(9, 0)], 3), Some ([(9, 1)], 4))%N /\
  t_online [t_run PhOffline None [1%N] t_a [] None] (t_run PhFull (Some [3%N]) [2%N] t_b t_cli (Some [2; 0; 1]))
  = Ok (None, Some ([(9, 1)], 4))%N.
Proof. repeat split; vm_compute; reflexivity. Qed.

Lemma t_oprf : forall k ck keys, ph_good_oprf N t_eval t_blind t_evaluate t_finalize 2 3 k ck keys.
Proof. intros k ck keys. repeat split. intros x y _ _ E. inversion E. reflexivity. Qed.
Lemma t_good_build : forall m kf fr cli sh, ph_good_build N (t_run m kf fr t_a cli sh) /\ ph_good_build N (t_run m kf fr t_b cli sh).
Proof.
  intros m kf fr cli sh. split; (split; [constructor; [split; [discriminate|reflexivity]|constructor]|];
    split; [reflexivity|]; split; [repeat constructor|]; split; [cbn; repeat constructor; cbn; intuition discriminate|cbn; lia]).
Qed.
Lemma t_good_online : forall m kf fr src, ph_good_online N (t_run m kf fr src t_cli None).
Proof.
  intros m kf fr src. split; [reflexivity|]. split; [cbn; repeat constructor; cbn; intuition discriminate|].
  do 3 (split; [cbn; lia|]). split; [intros i n; apply serial_valid|exact I].
Qed.
(** The hypotheses of C88_phases hold for the first case. *)
Example C88_example_hypotheses :
  let g := t_run PhGen None [1%N] t_a [] None in let t := t_run PhTransfer None [] [] [] None in
  ph_served N [g; t] g /\ ph_good_build N g /\ ph_good_online N (t_run PhOnline None [] [] t_cli None) /\
  ph_good_oprf N t_eval t_blind t_evaluate t_finalize 2 3 [1%N] [7%N] (map fst t_a ++ map fst t_cli).
Proof.
  split; [exists [], [t_run PhTransfer None [] [] [] None]; repeat split; [repeat constructor|right; constructor; reflexivity]|].
  split; [apply t_good_build|]. split; [apply t_good_online|apply t_oprf].
Qed.

(** ** What the conditions are for *)
(** The server builds a new cache (same key file) and does not send it: the online run succeeds,
    the client gets the keys common with the old table, and the server writes out rows whose keys the
    client does not have. *)
Theorem C88_stale_refuted : exists (g1 g2 r : ph_run N) l n lc nc,
  pr_mode N g1 = PhOffline /\ pr_mode N g2 = PhGen /\ pr_mode N r = PhOnline /\
  ph_good_build N g1 /\ ph_good_build N g2 /\ ph_good_online N r /\
  pr_key_file N g1 = pr_key_file N r /\ pr_key_file N g2 = pr_key_file N r /\
  t_online [g1; g2] r = Ok (Some (lc, nc), Some (l, n)) /\
  (exists x, In x (map fst l) /\ ~ In x (map fst (concat (pr_client N r)))) /\
  (exists x, In x (map fst lc) /\ ~ In x (map fst (ph_table N g2))).
Proof.
  exists (t_run PhOffline (Some [1%N]) [] t_a [] None), (t_run PhGen (Some [1%N]) [] t_b [] None), (t_run PhOnline (Some [1%N]) [] [] t_cli None).
  exists [(9, 0); (5, 1)]%N, 4%N, [(6, 2); (9, 0)]%N, 5%N.
  do 3 (split; [reflexivity|]). split; [apply t_good_build|]. split; [apply t_good_build|]. split; [apply t_good_online|].
  do 2 (split; [reflexivity|]). split; [vm_compute; reflexivity|].
  split; [exists 5%N|exists 6%N]; (split; [cbn; auto|cbn; intuition discriminate]).
Qed.
Print Assumptions C88_stale_refuted.

(** The cache was never sent: the online run succeeds with nothing in common. *)
Theorem C88_not_sent_refuted : exists (g r : ph_run N) o,
  pr_mode N g = PhGen /\ pr_mode N r = PhOnline /\ ph_good_build N g /\ ph_good_online N r /\
  t_online [g] r = Ok o /\ fst o = Some ([], 0%N) /\ ph_common N N.eqb (concat (pr_client N r)) (ph_table N g) <> [].
Proof.
  exists (t_run PhGen None [1%N] t_a [] None), (t_run PhOnline None [] [] t_cli None), (Some ([], 0%N), Some ([], 4%N)).
  do 2 (split; [reflexivity|]). split; [apply t_good_build|]. split; [apply t_good_online|].
  split; [vm_compute; reflexivity|]. split; [reflexivity|discriminate].
Qed.
Print Assumptions C88_not_sent_refuted.

(** The key file was replaced between building and the online run: the run succeeds with nothing in common. *)
Theorem C88_other_key_refuted : exists (g r : ph_run N) o,
  pr_mode N g = PhOffline /\ pr_mode N r = PhOnline /\ ph_good_build N g /\ ph_good_online N r /\
  ph_served N [g] g /\ t_online [g] r = Ok o /\ fst o = Some ([], 5%N) /\ snd o = Some ([], 4%N) /\
  ph_common N N.eqb (concat (pr_client N r)) (ph_table N g) <> [].
Proof.
  exists (t_run PhOffline (Some [1%N]) [] t_a [] None), (t_run PhOnline (Some [2%N]) [] [] t_cli None), (Some ([], 5%N), Some ([], 4%N)).
  do 2 (split; [reflexivity|]). split; [apply t_good_build|]. split; [apply t_good_online|].
  split; [exists [], []; repeat split; [constructor|left; reflexivity]|].
  split; [vm_compute; reflexivity|]. do 2 (split; [reflexivity|]). discriminate.
Qed.
Print Assumptions C88_other_key_refuted.
