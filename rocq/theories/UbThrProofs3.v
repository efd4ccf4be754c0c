(** Lemmas for C80. *)
From Coq Require Import List NArith Bool Arith Lia Permutation.
From Verif Require Import Base BaseProofs Text TextProofs StoreModel StoreSpec StoreProofs2 EcdhModel BucketProofs
  ShufModel ShufSpec ShufProofs UbCacheModel UbCacheSpec UbCacheProofs UbCacheProps UbPsiModel UbPsiSpec UbPsiProofs UbPsiProofs2.
From Verif Require Import ThrSpec UbThrModel UbThrSpec UbThrProofs UbThrProofs2.
Import ListNotations.

(** ** Two server tables whose values agree place by place leave the same cache *)
Section Worlds.
Variable Item : Type.
Variables e1 e2 : Item -> bytes.
Variable moved : Item.
Hypothesis moved_same : e1 moved = e2 moved.

Definition same_row (a b : Item * N) : Prop := e1 (fst a) = e2 (fst b) /\ snd a = snd b.
Definition same_raw (a b : raw_batch Item) : Prop :=
  rb_left Item a = rb_left Item b /\ Forall2 same_row (rb_items Item a) (rb_items Item b).
Definition same_sent (a b : sentry Item) : Prop := same_row (fst (fst a)) (fst (fst b)) /\ snd (fst a) = snd (fst b) /\ snd a = snd b.
Definition same_shuf (a b : shuf Item) : Prop :=
  Forall2 same_raw (sh_src Item a) (sh_src Item b) /\ same_raw (sh_buf Item a) (sh_buf Item b) /\
  sh_base Item a = sh_base Item b /\ sh_sbase Item a = sh_sbase Item b /\ sh_end Item a = sh_end Item b.
Definition same_out {A : Type} (R : A -> A -> Prop) (a b : outcome A) : Prop :=
  match a, b with Ok x, Ok y => R x y | Throw, Throw => True | UB, UB => True | Diverge, Diverge => True | _, _ => False end.

Lemma same_nth : forall l m f, Forall2 same_row l m ->
  match nth_error l f, nth_error m f with Some a, Some b => same_row a b | None, None => True | _, _ => False end.
Proof using. clear. intros l m f F. revert f. induction F; intros [|f]; cbn; auto. apply IHF. Qed.
Lemma same_upd : forall l m f, Forall2 same_row l m ->
  Forall2 same_row (upd f (fun p => (moved, snd p)) l) (upd f (fun p => (moved, snd p)) m).
Proof using moved_same.
  intros l m f F. revert f. induction F as [|a b l m H F IH]; intros f; [destruct f; constructor|].
  destruct f; cbn [upd]; constructor; auto. destruct H as (_ & H). split; [exact moved_same|exact H].
Qed.
Lemma same_push : forall n i base sbase a b acc acc', same_raw a b -> Forall2 same_sent acc acc' ->
  same_out (fun x y => same_raw (fst x) (fst y) /\ Forall2 same_sent (snd x) (snd y))
    (push_items Item moved n i base sbase a acc) (push_items Item moved n i base sbase b acc').
Proof using moved_same.
  induction n as [|n IH]; intros i base sbase a b acc acc' (HL & HI) HA; [cbn; repeat split; auto|].
  cbn [push_items]. rewrite <- HL. destruct (rb_left Item a) as [|f fs]; [exact I|].
  assert (H := same_nth _ _ f HI). destruct (nth_error (rb_items Item a) f) as [[x d]|], (nth_error (rb_items Item b) f) as [[y d']|]; try contradiction; [|exact I].
  apply IH.
  - split; [reflexivity|]. cbn [rb_items]. apply same_upd. exact HI.
  - destruct H as (Hx & Hd). cbn in Hx, Hd. subst d'. apply Forall2_app; [exact HA|]. constructor; [|constructor]. repeat split; auto.
Qed.
Lemma f2_len : forall (A B : Type) (R : A -> B -> Prop) l m, Forall2 R l m -> length l = length m.
Proof using. exact forall2_len. Qed.
Lemma same_fill : forall fuel bs a b acc acc', same_shuf a b -> Forall2 same_sent acc acc' ->
  same_out (fun x y => same_shuf (fst x) (fst y) /\ Forall2 same_sent (snd x) (snd y))
    (fill Item moved fuel bs a acc) (fill Item moved fuel bs b acc').
Proof using moved_same.
  induction fuel as [|k IH]; intros bs a b acc acc' HS HA; [exact I|]. cbn [fill].
  rewrite <- (f2_len _ _ _ _ _ HA). destruct (Nat.ltb (length acc) bs); [|cbn; auto].
  destruct a as [sa ba xa ya ea], b as [sb bb xb yb eb]. destruct HS as (HS1 & HS2 & HS3 & HS4 & HS5). cbn [sh_src sh_buf sh_base sh_sbase sh_end] in *. subst xb yb eb.
  assert (HS2' := HS2). destruct HS2' as (HL & HI). rewrite <- HL. destruct (rb_left Item ba) as [|f fs] eqn:EL.
  - rewrite <- (f2_len _ _ _ _ _ HI). destruct HS1 as [|r1 r2 s1 s2 HR HS1]; cbn [read_raw].
    + cbn. repeat split; cbn; auto; constructor.
    + assert (HR' := HR). destruct HR' as (_ & HRi). destruct (rb_items Item r1) as [|i1 l1], (rb_items Item r2) as [|i2 l2]; try (inversion HRi; fail).
      * cbn [same_out fst snd]. repeat split; auto; apply HR.
      * apply IH; [|exact HA]. repeat split; auto; apply HR.
  - assert (HP := same_push (Nat.min (bs - length acc) (length (f :: fs))) 0 xa ya ba bb acc acc' HS2 HA).
    destruct (push_items Item moved _ 0 xa ya ba acc) as [[b1 a1]| | |], (push_items Item moved _ 0 xa ya bb acc') as [[b2 a2]| | |]; try contradiction; try exact I.
    destruct HP as (HP1 & HP2). cbn [bind]. apply IH; [|exact HP2]. repeat split; auto; apply HP1.
Qed.
Lemma same_drain : forall fuel bs a b, same_shuf a b ->
  same_out (fun x y => Forall2 (Forall2 same_sent) x y) (drain_shuffled Item moved fuel bs a) (drain_shuffled Item moved fuel bs b).
Proof using moved_same.
  induction fuel as [|k IH]; intros bs a b HS; [exact I|]. cbn [drain_shuffled]. unfold read_shuffled.
  assert (E := HS). destruct E as (E1 & _ & _ & _ & E5). rewrite <- E5. destruct (sh_end Item a); [cbn; constructor|].
  rewrite <- (f2_len _ _ _ _ _ E1). assert (HF := same_fill (3 + 2 * length (sh_src Item a)) bs a b [] [] HS (Forall2_nil _)).
  destruct (fill Item moved _ bs a []) as [[a' x]| | |], (fill Item moved _ bs b []) as [[b' y]| | |]; try contradiction; try exact I.
  destruct HF as (HF1 & HF2). cbn [fst snd] in *. cbn [bind]. destruct HF2 as [|p q x y HX HF2]; [constructor|].
  specialize (IH bs a' b' HF1). destruct (drain_shuffled Item moved k bs a'), (drain_shuffled Item moved k bs b'); try contradiction; try exact I.
  cbn. constructor; [constructor; assumption|exact IH].
Qed.
Lemma same_recs : forall cl b b', Forall2 same_sent b b' -> batch_recs Item e1 cl b = batch_recs Item e2 cl b'.
Proof using.
  clear. intros cl b b' F. unfold batch_recs.
  assert (EV : map (fun e : sentry Item => e1 (fst (fst (fst e)))) b = map (fun e : sentry Item => e2 (fst (fst (fst e)))) b').
  { induction F as [|x y l m H F IH]; [reflexivity|]. cbn [map]. rewrite IH. destruct H as ((H & _) & _). rewrite H. reflexivity. }
  rewrite EV. clear EV. generalize (concat (map (fun e : sentry Item => e2 (fst (fst (fst e)))) b')) as flat. intros flat. generalize 0 as k.
  induction F as [|x y l m H F IH]; intros k; [reflexivity|]. cbn [number map fst snd]. rewrite IH.
  destruct H as ((_ & H1) & H2 & H3). rewrite H1, H2, H3. reflexivity.
Qed.
Lemma same_cache : forall cl priv bsg s1 s2, Forall2 same_raw s1 s2 ->
  offline_server Item e1 cl priv bsg moved s1 = offline_server Item e2 cl priv bsg moved s2.
Proof using moved_same.
  intros cl priv bsg s1 s2 F. unfold offline_server.
  assert (EL : length (concat (map (rb_items Item) s1)) = length (concat (map (rb_items Item) s2))).
  { induction F as [|a b s1 s2 (_ & H) F IH]; [reflexivity|]. cbn [map concat]. rewrite !app_length, IH. rewrite (f2_len _ _ _ _ _ H). reflexivity. }
  rewrite EL. assert (HS : same_shuf (shuf_open Item s1) (shuf_open Item s2)).
  { unfold shuf_open. destruct F; cbn [read_raw]; repeat split; auto; try apply H; cbn; constructor. }
  assert (HD := same_drain (2 + length (concat (map (rb_items Item) s2))) bsg _ _ HS).
  destruct (drain_shuffled Item moved _ bsg (shuf_open Item s1)) as [x| | |], (drain_shuffled Item moved _ bsg (shuf_open Item s2)) as [y| | |]; try contradiction; try reflexivity.
  cbn [bind same_out] in *. unfold gen_cache. destruct (cache_open cl priv) as [c| | |]; try reflexivity. cbn [bind].
  generalize (Ok c) as oc. induction HD as [|b b' x y H HD IH]; intros oc; [reflexivity|]. cbn [fold_left]. rewrite (same_recs cl b b' H). apply IH.
Qed.
End Worlds.

(** ** Arrangements *)
Lemma pick_inj : forall (A : Type) (l : list A) s t, NoDup l -> Forall (fun i => i < length l) s -> Forall (fun i => i < length l) t ->
  pick l s = pick l t -> s = t.
Proof.
  intros A l s t N HS HT E. assert (G : forall i, nth_error s i = nth_error t i); [|apply nth_error_ext; exact G].
  intros i. assert (P := pick_nth A l s i HS). assert (Q := pick_nth A l t i HT). rewrite E in P. rewrite P in Q. clear P.
  destruct (nth_error s i) as [a|] eqn:Ea, (nth_error t i) as [b|] eqn:Eb; auto.
  - f_equal. rewrite Forall_forall in HS. assert (a < length l) by (apply HS; eapply nth_error_In; exact Ea).
    apply (proj1 (NoDup_nth_error l) N); assumption.
  - rewrite Forall_forall in HS. assert (a < length l) by (apply HS; eapply nth_error_In; exact Ea). apply nth_error_None in Q. lia.
  - rewrite Forall_forall in HT. assert (b < length l) by (apply HT; eapply nth_error_In; exact Eb). symmetry in Q. apply nth_error_None in Q. lia.
Qed.
Lemma pick_cover : forall (A : Type) (l w : list A), Permutation w l -> exists s, Permutation s (seq 0 (length l)) /\ pick l s = w.
Proof.
  intros A l w P. apply Permutation_sym, Permutation_nth_error in P. destruct P as (HL & f & HI & HF).
  exists (map f (seq 0 (length w))).
  assert (B : forall i, i < length w -> f i < length l).
  { intros i Hi. apply nth_error_Some. rewrite <- HF. apply nth_error_Some. exact Hi. }
  assert (FB : Forall (fun i => i < length l) (map f (seq 0 (length w)))).
  { apply Forall_map. apply Forall_forall. intros i I. apply in_seq in I. apply B. lia. }
  split.
  - apply NoDup_Permutation_bis.
    + apply FinFun.Injective_map_NoDup; [intros a b; apply HI|apply seq_NoDup].
    + rewrite map_length, !seq_length. lia.
    + intros i I. rewrite Forall_forall in FB. apply in_seq. specialize (FB i I). lia.
  - apply nth_error_ext. intros i. rewrite pick_nth by exact FB. rewrite nth_error_map.
    destruct (nth_error (seq 0 (length w)) i) as [k|] eqn:E.
    + assert (i < length w) by (rewrite <- (seq_length (length w) 0); apply nth_error_Some; congruence).
      rewrite (nth_error_nth' _ 0) in E by (rewrite seq_length; assumption). rewrite seq_nth in E by assumption. inversion E; subst. cbn. symmetry. apply HF.
    + apply nth_error_None in E. rewrite seq_length in E. symmetry. apply nth_error_None. exact E.
Qed.
Lemma count_one : forall (A B : Type) (dec : forall x y : B, {x = y} + {x <> y}) (f : A -> B) P v, NoDup P ->
  (forall s t, In s P -> In t P -> f s = v -> f t = v -> s = t) -> count_occ dec (map f P) v <= 1.
Proof.
  intros A B dec f P v N. induction N as [|x P NI N IH]; intros H; [cbn; lia|]. cbn [map count_occ].
  assert (IH' : count_occ dec (map f P) v <= 1) by (apply IH; intros s t I J; apply H; right; assumption).
  destruct (dec (f x) v) as [E|_]; [|exact IH'].
  assert (Z : count_occ dec (map f P) v = 0); [|lia].
  apply count_occ_not_In. intros I. apply in_map_iff in I. destruct I as (t & Et & It).
  assert (x = t) by (apply (H x t); [left; reflexivity|right; exact It|exact E|exact Et]). subst t. contradiction.
Qed.
Lemma count_same : forall (A B : Type) (dec : forall x y : B, {x = y} + {x <> y}) (f g : A -> B) P v, NoDup P ->
  (forall s t, In s P -> In t P -> f s = v -> f t = v -> s = t) -> (forall s t, In s P -> In t P -> g s = v -> g t = v -> s = t) ->
  ((exists s, In s P /\ f s = v) <-> (exists s, In s P /\ g s = v)) ->
  count_occ dec (map f P) v = count_occ dec (map g P) v.
Proof.
  intros A B dec f g P v N HF HG HE. assert (CF := count_one A B dec f P v N HF). assert (CG := count_one A B dec g P v N HG).
  assert (IF := count_occ_In dec (map f P) v). assert (IG := count_occ_In dec (map g P) v). rewrite in_map_iff in IF, IG.
  assert (count_occ dec (map f P) v > 0 <-> count_occ dec (map g P) v > 0); [|lia].
  rewrite <- IF, <- IG. split; intros (s & E & I).
  - destruct (proj1 HE (ex_intro _ s (conj I E))) as (t & It & Et). eauto.
  - destruct (proj2 HE (ex_intro _ s (conj I E))) as (t & It & Et). eauto.
Qed.

(** ** The client's view *)
Section View.
Variable Item : Type.
Variables (blind : Item -> bytes) (finalize : bytes -> bytes) (cl pl : nat).
Hypothesis pl_pos : 0 < pl.
Hypothesis blind_len : forall x, length (blind x) = pl.

Definition client_view (evaluate : bytes -> bytes) bso bsc threads sched cg sg th d client (s : list nat) : outcome (list pmsg * list N) :=
  omap (fun t => (snd (fst (fst t)), snd t))
    (ubt_exchange Item blind evaluate finalize cl pl bso bsc threads sched (fun _ => s) cg sg th d client).

(** What it is a function of. *)
Definition view_of bso bsc threads sched (cg : bool) th d (cnt : nat) (w : list bytes) (s : list nat) : outcome (list pmsg * list N) :=
  let ev := map (fun b => (concat b, [])) (chunks bso w) in
  do (pr, q) <- ubt_match finalize cl pl bsc threads sched th d ev;
  do r <- if cg then ubt_restore s (map (fun q : quad => fst (fst (fst q))) q) else Ok [];
  Ok (ev, r).

Lemma view_spec : forall evaluate bso bsc threads sched cg sg th d (client : list (list (Item * N))) s,
  let cli := concat client in
  Permutation s (seq 0 (length cli)) ->
  client_view evaluate bso bsc threads sched cg sg th d client s =
  view_of bso bsc threads sched cg th d (length cli) (pick (map (fun e => evaluate (blind (fst e))) cli) s) s.
Proof using pl_pos blind_len.
  intros evaluate bso bsc threads sched cg sg th d client s cli HS.
  assert (HP : Forall (fun i => i < length cli) s).
  { apply Forall_forall. intros i I. apply (Permutation_in _ HS) in I. apply in_seq in I. lia. }
  unfold client_view, ubt_exchange, ubt_serve.
  destruct (serve_collect_spec Item blind evaluate pl pl_pos blind_len sg client [] (mk_pinfo 0 0 [])) as (c0 & E & _).
  rewrite E. cbn [bind]. unfold serve_shuffled. rewrite E. cbn [bind]. fold cli.
  set (w := map (fun e => evaluate (blind (fst e))) cli).
  assert (EW : map (fun i => nth i w []) s = pick w s).
  { assert (Q := pick_map bytes bytes (fun x => x) w [] s ltac:(unfold w; rewrite map_length; exact HP)). rewrite !map_id in Q. exact Q. }
  rewrite EW. unfold view_of. destruct (ubt_match finalize cl pl bsc threads sched th d _) as [[pr q]| | |]; try reflexivity. cbn [bind].
  destruct cg; [|reflexivity]. destruct (ubt_restore s _); reflexivity.
Qed.

Lemma chunks_inj : forall (bs : nat) (a b : list bytes), 0 < bs -> Forall (fun x => length x = pl) a -> Forall (fun x => length x = pl) b ->
  map (fun c => (concat c, @nil (nat * N))) (chunks bs a) = map (fun c => (concat c, [])) (chunks bs b) -> a = b.
Proof using pl_pos.
  intros bs a b HB HA HB' E.
  assert (F : forall l, Forall (fun x : bytes => length x = pl) l -> recv_into pl (fun x => x) (map (fun c => (concat c, [])) (chunks bs l)) = Ok (map (fun x => (x, 0%N)) l)).
  { intros l Hl. rewrite recv_plain; [|exact pl_pos|].
    - rewrite chunks_concat by exact HB. reflexivity.
    - apply Forall_forall. intros c Ic. apply Forall_forall. intros x Ix.
      assert (I : In x (concat (chunks bs l))) by (apply in_concat; eauto). rewrite chunks_concat in I by exact HB. rewrite Forall_forall in Hl. apply Hl. exact I. }
  assert (FA := F a HA). assert (FB := F b HB'). rewrite E in FA. rewrite FA in FB. inversion FB as [Q].
  assert (G : forall l : list bytes, map fst (map (fun x => (x, 0%N)) l) = l) by (intros l; rewrite map_map; apply map_id).
  rewrite <- (G a), Q, G. reflexivity.
Qed.

Lemma restore_len : forall s idx r, ubt_restore s idx = Ok r -> Forall2 (fun i x => exists j, nth_error s (N.to_nat i) = Some j /\ x = u32 (N.of_nat j)) idx r.
Proof using.
  clear. intros s idx. induction idx as [|i idx IH]; intros r E; [cbn in E; inversion E; constructor|]. cbn [ubt_restore] in E.
  destruct (nth_error s (N.to_nat i)) as [j|] eqn:Ej; [|discriminate]. destruct (ubt_restore s idx) as [r'| | |]; try discriminate. cbn in E. inversion E; subst.
  constructor; [eauto|apply IH; reflexivity].
Qed.
Lemma restore_from : forall s idx r, Forall2 (fun i x => exists j, nth_error s (N.to_nat i) = Some j /\ x = u32 (N.of_nat j)) idx r -> ubt_restore s idx = Ok r.
Proof using.
  clear. intros s idx r F. induction F as [|i x idx r (j & E & ->) F IH]; [reflexivity|]. cbn [ubt_restore]. rewrite E, IH. reflexivity.
Qed.

Lemma hidden_one : forall (G1 G2 : list bytes) bso bsc threads sched cg th d v s,
  0 < bso -> (N.of_nat (length G1) < max32)%N -> NoDup G1 -> Permutation G1 G2 ->
  (forall i, In i (snd v) -> nth_error G1 (N.to_nat i) = nth_error G2 (N.to_nat i)) ->
  Permutation s (seq 0 (length G1)) -> view_of bso bsc threads sched cg th d (length G1) (pick G1 s) s = Ok v ->
  exists t, Permutation t (seq 0 (length G1)) /\ view_of bso bsc threads sched cg th d (length G1) (pick G2 t) t = Ok v.
Proof using.
  clear. intros G1 G2 bso bsc threads sched cg th d v s HB HL N HP HA HS E.
  assert (LG := Permutation_length HP).
  assert (FS : Forall (fun i => i < length G1) s).
  { apply Forall_forall. intros i I. apply (Permutation_in _ HS) in I. apply in_seq in I. lia. }
  destruct (pick_cover _ G2 (pick G1 s)) as (t & HT & ET); [transitivity G1; [apply pick_perm; exact HS|exact HP]|].
  rewrite <- LG in HT. exists t. split; [exact HT|]. rewrite ET.
  assert (FT : Forall (fun i => i < length G2) t).
  { apply Forall_forall. intros i I. apply (Permutation_in _ HT) in I. apply in_seq in I. lia. }
  unfold view_of in *. set (ev := map _ _) in *. destruct (ubt_match finalize cl pl bsc threads sched th d ev) as [[pr q]| | |]; try discriminate. cbn [bind] in *.
  destruct cg; [|exact E]. destruct (ubt_restore s _) as [r| | |] eqn:ER; try discriminate. cbn [bind] in E. inversion E; subst v. cbn [snd] in HA.
  apply restore_len in ER. rewrite (restore_from t _ r); [reflexivity|].
  assert (N2 : NoDup G2) by (apply (Permutation_NoDup HP); exact N).
  clear E. revert ER. generalize (map (fun q0 : quad => fst (fst (fst q0))) q) as idx. intros idx ER. revert HA.
  induction ER as [|i x idx r (j & Ej & ->) ER IH]; intros HA; [constructor|]. constructor; [|apply IH; intros k I; apply HA; right; exact I].
  exists j. split; [|reflexivity].
  rewrite Forall_forall in FS. assert (Hj : j < length G1) by (apply FS; eapply nth_error_In; exact Ej).
  assert (A := HA (u32 (N.of_nat j)) (or_introl eq_refl)). rewrite u32_small, Nat2N.id in A by lia.
  assert (P1 := pick_nth _ G1 s (N.to_nat i) (proj2 (Forall_forall _ _) FS)). rewrite Ej in P1.
  assert (P2 := pick_nth _ G2 t (N.to_nat i) FT). rewrite ET, P1 in P2. destruct (nth_error t (N.to_nat i)) as [j'|] eqn:Et.
  - f_equal. rewrite Forall_forall in FT. assert (j' < length G2) by (apply FT; eapply nth_error_In; exact Et).
    apply (proj1 (NoDup_nth_error G2) N2); [assumption|]. congruence.
  - apply nth_error_None in P2. lia.
Qed.

Lemma view_inj : forall (G : list bytes) bso bsc threads sched cg th d v s t,
  0 < bso -> NoDup G -> Forall (fun x => length x = pl) G ->
  Permutation s (seq 0 (length G)) -> Permutation t (seq 0 (length G)) ->
  view_of bso bsc threads sched cg th d (length G) (pick G s) s = Ok v ->
  view_of bso bsc threads sched cg th d (length G) (pick G t) t = Ok v -> s = t.
Proof using pl_pos.
  intros G bso bsc threads sched cg th d v s t HB N HG HS HT E1 E2.
  assert (FS : forall u, Permutation u (seq 0 (length G)) -> Forall (fun i => i < length G) u).
  { intros u HU. apply Forall_forall. intros i I. apply (Permutation_in _ HU) in I. apply in_seq in I. lia. }
  assert (EF : forall u, view_of bso bsc threads sched cg th d (length G) (pick G u) u = Ok v -> fst v = map (fun b => (concat b, [])) (chunks bso (pick G u))).
  { intros u E. unfold view_of in E. set (ev := map _ _) in *. destruct (ubt_match finalize cl pl bsc threads sched th d ev) as [[pr q]| | |]; try discriminate. cbn [bind] in E.
    destruct (if cg then _ else _) as [r| | |]; try discriminate. cbn [bind] in E. inversion E. reflexivity. }
  apply (pick_inj _ G); [exact N|apply FS; exact HS|apply FS; exact HT|].
  apply (chunks_inj bso); [exact HB| | |exact (eq_trans (eq_sym (EF s E1)) (EF t E2))].
  - apply (Permutation_Forall (Permutation_sym (pick_perm _ G s HS))). exact HG.
  - apply (Permutation_Forall (Permutation_sym (pick_perm _ G t HT))). exact HG.
Qed.

Lemma hidden_count : forall ev1 ev2 bso bsc threads sched cg sg th d (client : list (list (Item * N))) P
    (dec : forall x y : outcome (list pmsg * list N), {x = y} + {x <> y}) v,
  let cli := concat client in
  let g1 (x : Item) : bytes := ev1 (blind x) in
  let g2 (x : Item) : bytes := ev2 (blind x) in
  (forall x, length (g1 x) = pl) -> (forall x, length (g2 x) = pl) ->
  0 < bso -> (N.of_nat (length cli) < max32)%N ->
  NoDup (map (fun e => g1 (fst e)) cli) -> Permutation (map (fun e => g1 (fst e)) cli) (map (fun e => g2 (fst e)) cli) ->
  all_arrangements (length cli) P ->
  (forall i e, In i (snd v) -> nth_error cli (N.to_nat i) = Some e -> g1 (fst e) = g2 (fst e)) ->
  count_occ dec (map (client_view ev1 bso bsc threads sched cg sg th d client) P) (Ok v) =
  count_occ dec (map (client_view ev2 bso bsc threads sched cg sg th d client) P) (Ok v).
Proof using pl_pos blind_len.
  intros ev1 ev2 bso bsc threads sched cg sg th d client P dec v cli g1 g2 L1 L2 HB HL N HP (NP & AP) HA.
  set (G1 := map (fun e => g1 (fst e)) cli) in *. set (G2 := map (fun e => g2 (fst e)) cli) in *.
  assert (LG1 : length G1 = length cli) by apply map_length. assert (LG2 : length G2 = length cli) by apply map_length.
  assert (V1 : forall s, In s P -> client_view ev1 bso bsc threads sched cg sg th d client s = view_of bso bsc threads sched cg th d (length G1) (pick G1 s) s).
  { intros s I. rewrite LG1. apply view_spec. apply AP. exact I. }
  assert (V2 : forall s, In s P -> client_view ev2 bso bsc threads sched cg sg th d client s = view_of bso bsc threads sched cg th d (length G2) (pick G2 s) s).
  { intros s I. rewrite LG2. apply view_spec. apply AP. exact I. }
  assert (N2 : NoDup G2) by (apply (Permutation_NoDup HP); exact N).
  assert (A1 : forall i, In i (snd v) -> nth_error G1 (N.to_nat i) = nth_error G2 (N.to_nat i)).
  { intros i I. unfold G1, G2. rewrite !nth_error_map. destruct (nth_error cli (N.to_nat i)) as [e|] eqn:E; [|reflexivity]. cbn. f_equal. exact (HA i e I E). }
  apply count_same; [exact NP| | |].
  - intros s t Is It E1 E2. rewrite V1 in E1, E2 by assumption. apply (view_inj G1 bso bsc threads sched cg th d v); try assumption.
    + apply Forall_map. apply Forall_forall. intros e _. apply L1.
    + rewrite LG1. apply AP. exact Is.
    + rewrite LG1. apply AP. exact It.
  - intros s t Is It E1 E2. rewrite V2 in E1, E2 by assumption. apply (view_inj G2 bso bsc threads sched cg th d v); try assumption.
    + apply Forall_map. apply Forall_forall. intros e _. apply L2.
    + rewrite LG2. apply AP. exact Is.
    + rewrite LG2. apply AP. exact It.
  - split; intros (s & I & E).
    + rewrite V1 in E by exact I. destruct (hidden_one G1 G2 bso bsc threads sched cg th d v s) as (t & HT & ET); try assumption;
        try (rewrite LG1; first [exact HL|apply AP; exact I]).
      rewrite LG1 in HT. assert (J : In t P) by (apply AP; exact HT). exists t. split; [exact J|]. rewrite V2 by exact J. rewrite LG2, <- LG1. exact ET.
    + rewrite V2 in E by exact I. destruct (hidden_one G2 G1 bso bsc threads sched cg th d v s) as (t & HT & ET); try assumption;
        try (rewrite LG2; first [exact HL|apply AP; exact I]).
      * apply Permutation_sym. exact HP.
      * intros i Ii. symmetry. apply A1. exact Ii.
      * rewrite LG2 in HT. assert (J : In t P) by (apply AP; exact HT). exists t. split; [exact J|]. rewrite V1 by exact J. rewrite LG1, <- LG2. exact ET.
Qed.
End View.
