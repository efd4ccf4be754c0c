(** Lemmas for C79. *)
From Coq Require Import List NArith Bool Arith Lia Permutation.
From Verif Require Import Base BaseProofs Text TextProofs StoreModel StoreSpec StoreProofs2 EcdhModel BucketProofs
  ShufModel ShufSpec ShufProofs UbCacheModel UbCacheSpec UbCacheProofs UbCacheProps UbPsiModel UbPsiSpec UbPsiProofs UbPsiProofs2.
From Verif Require Import UbThrModel UbThrSpec.
Import ListNotations.

Lemma forall2_choose : forall (A B : Type) (R : A -> B -> Prop) l, (forall a, In a l -> exists b, R a b) -> exists m, Forall2 R l m.
Proof.
  intros A B R l. induction l as [|a l IH]; intros H; [exists []; constructor|].
  destruct (H a (or_introl eq_refl)) as (b & Hb). destruct IH as (m & Hm); [intros x I; apply H; right; exact I|].
  exists (b :: m). constructor; assumption.
Qed.
Lemma forall2_in_r : forall (A B : Type) (R : A -> B -> Prop) l m b, Forall2 R l m -> In b m -> exists a, In a l /\ R a b.
Proof.
  intros A B R l m b F. induction F as [|x y l m H F IH]; intros I; [destruct I|].
  destruct I as [->|I]; [exists x; split; [left; reflexivity|exact H]|]. destruct (IH I) as (a & Ia & Ra). exists a. split; [right; exact Ia|exact Ra].
Qed.
Lemma forall2_in_l : forall (A B : Type) (R : A -> B -> Prop) l m a, Forall2 R l m -> In a l -> exists b, In b m /\ R a b.
Proof.
  intros A B R l m a F. induction F as [|x y l m H F IH]; intros I; [destruct I|].
  destruct I as [->|I]; [exists y; split; [left; reflexivity|exact H]|]. destruct (IH I) as (b & Ib & Rb). exists b. split; [right; exact Ib|exact Rb].
Qed.
Lemma forall2_nodup : forall (A B : Type) (R : A -> B -> Prop) l m, Forall2 R l m -> NoDup l ->
  (forall a a' b, In a l -> In a' l -> R a b -> R a' b -> a = a') -> NoDup m.
Proof.
  intros A B R l m F. induction F as [|x y l m H F IH]; intros N HI; [constructor|]. inversion N; subst. constructor.
  - intros I. destruct (forall2_in_r _ _ _ _ _ _ F I) as (a & Ia & Ra).
    assert (x = a) by (apply (HI x a y); [left; reflexivity|right; exact Ia|exact H|exact Ra]). subst a. contradiction.
  - apply IH; [assumption|]. intros a a' b I I'. apply HI; right; assumption.
Qed.
Lemma forall2_firstn : forall (A B : Type) (R : A -> B -> Prop) l m n, Forall2 R l m -> Forall2 R (firstn n l) (firstn n m).
Proof. intros A B R l m n F. revert n. induction F; intros [|n]; cbn; constructor; auto. Qed.
Lemma nodup_firstn : forall (A : Type) (l : list A) n, NoDup l -> NoDup (firstn n l).
Proof.
  intros A l n H. revert n. induction H as [|x l NI N IH]; intros [|n]; cbn; try constructor; auto.
  intros I. apply NI. rewrite <- (firstn_skipn n l). apply in_or_app. left. exact I.
Qed.
Lemma in_firstn' : forall (A : Type) (l : list A) n x, In x (firstn n l) -> In x l.
Proof. intros A l n x I. rewrite <- (firstn_skipn n l). apply in_or_app. left. exact I. Qed.

Lemma pick_perm : forall (A : Type) (l : list A) perm, Permutation perm (seq 0 (length l)) -> Permutation (pick l perm) l.
Proof. intros A l perm H. rewrite <- (pick_all _ l) at 2. unfold pick. apply Permutation_flat_map. exact H. Qed.

Lemma restore_spec : forall perm idx, (forall i, In i idx -> N.to_nat i < length perm) ->
  exists r, ubt_restore perm idx = Ok r /\ Forall2 (fun i x => exists j, nth_error perm (N.to_nat i) = Some j /\ x = u32 (N.of_nat j)) idx r.
Proof.
  intros perm idx. induction idx as [|i r IH]; intros H; [exists []; split; [reflexivity|constructor]|].
  cbn [ubt_restore]. destruct (nth_error perm (N.to_nat i)) as [j|] eqn:E.
  - destruct IH as (r' & E' & F); [intros k I; apply H; right; exact I|]. rewrite E'. cbn [omap]. eexists. split; [reflexivity|].
    constructor; [exists j; auto|exact F].
  - exfalso. apply nth_error_None in E. specialize (H i (or_introl eq_refl)). lia.
Qed.

Lemma count_batch_unique : forall c n dup, pi_unique (count_batch c n dup) = u32 (pi_unique c + N.of_nat n).
Proof. intros c n dup. unfold count_batch. rewrite count_fold. reflexivity. Qed.

Section Run.
Variable Item : Type.
Variable eqb : Item -> Item -> bool.
Variables (simple_eval blind : Item -> bytes) (evaluate finalize : bytes -> bytes) (cl pl : nat).
Hypothesis eqb_spec : forall x y, eqb x y = true <-> x = y.
Hypothesis cl_pos : 0 < cl.
Hypothesis cl_max : cl < max_cipher.
Hypothesis pl_pos : 0 < pl.
Hypothesis eval_len : forall x, length (simple_eval x) = cl.
Hypothesis blind_len : forall x, length (blind x) = pl.
Hypothesis evaluate_len : forall x, length (evaluate (blind x)) = pl.
Hypothesis oprf : forall x, finalize (evaluate (blind x)) = simple_eval x.

Lemma collect_unique : forall sg (client : list (list (Item * N))) c c' items,
  serve_collect evaluate pl c (map (blind_msg Item blind sg) client) = Ok (c', items) ->
  pi_unique c = u32 (pi_unique c) -> pi_unique c' = u32 (pi_unique c + N.of_nat (length (concat client))).
Proof using pl_pos blind_len.
  clear - pl_pos blind_len. intros sg. induction client as [|b client IH]; intros c c' items E HU.
  - cbn in E. inversion E; subst. cbn [count_end pi_unique concat length]. rewrite N.add_0_r. exact HU.
  - cbn [map serve_collect] in E. unfold blind_msg at 1 in E. rewrite (blinded_cut Item blind pl pl_pos blind_len) in E. cbn [bind] in E.
    rewrite map_length in E. destruct (serve_collect _ _ _ _) as [[c1 out]| | |] eqn:E1; try discriminate. cbn [bind] in E. inversion E; subst.
    apply IH in E1; rewrite count_batch_unique in *.
    + rewrite E1. rewrite u32_u32_add. f_equal. cbn [concat]. rewrite app_length. lia.
    + rewrite <- (N.add_0_r (u32 (pi_unique c + N.of_nat (length b)))) at 2. rewrite u32_u32_add, N.add_0_r. reflexivity.
Qed.

Lemma served_shuf : forall bs shuf sg (client : list (list (Item * N))),
  let cli := concat client in
  let cli' := pick cli (shuf (length cli)) in
  0 < bs -> good_shuf shuf -> (N.of_nat (length cli) < max32)%N ->
  exists info,
    ubt_serve evaluate pl bs shuf (map (blind_msg Item blind sg) client) =
      Ok (info, map (fun b => (concat b, [])) (chunks bs (map (fun e => evaluate (blind (fst e))) cli'))) /\
    recv_into pl finalize (map (fun b => (concat b, [])) (chunks bs (map (fun e => evaluate (blind (fst e))) cli')))
      = Ok (map (fun e => (simple_eval (fst e), 0%N)) cli') /\
    Permutation cli' cli /\ pi_unique info = N.of_nat (length cli) /\
    (sg = true -> pi_total info = total_rows Item cli /\
       forall i e, nth_error cli' i = Some e -> map_at (pi_dup info) (N.of_nat i) = snd e).
Proof using pl_pos blind_len evaluate_len oprf.
  clear - pl_pos blind_len evaluate_len oprf. intros bs shuf sg client cli cli' HB HS HL.
  destruct (serve_collect_spec Item blind evaluate pl pl_pos blind_len sg client [] (mk_pinfo 0 0 [])) as (c0 & E & _).
  unfold ubt_serve. rewrite E. cbn [bind]. rewrite map_length. fold cli.
  assert (HP : Forall (fun i => i < length cli) (shuf (length cli))).
  { apply Forall_forall. intros i I. apply (Permutation_in _ (HS _)) in I. apply in_seq in I. lia. }
  destruct (served Item simple_eval blind evaluate finalize pl pl_pos blind_len evaluate_len oprf bs (Some (shuf (length cli))) sg client HB (HS _) HL)
    as (info & ev & cl' & F1 & F2 & F3 & _ & F5).
  assert (EV : ev = map (fun b => (concat b, [])) (chunks bs (map (fun e => evaluate (blind (fst e))) cli'))
               /\ pi_unique info = N.of_nat (length cli)).
  { unfold serve_shuffled in F1. rewrite E in F1. cbn [bind] in F1. inversion F1; subst. split.
    - f_equal. f_equal. fold cli. apply (pick_map _ _ (fun e => evaluate (blind (fst e))) cli). exact HP.
    - apply collect_unique in E; [|reflexivity]. change (pi_unique (count_end c0) = N.of_nat (length cli)). rewrite E. cbn [pi_unique]. fold cli. rewrite N.add_0_l, u32_small by exact HL. reflexivity. }
  destruct EV as (-> & EU).
  assert (EC : forall A (g : bytes -> A), map (fun e : Item * N => g (simple_eval (fst e))) cl' = map (fun e => g (simple_eval (fst e))) cli').
  { assert (RC : recv_into pl finalize (map (fun b => (concat b, [])) (chunks bs (map (fun e => evaluate (blind (fst e))) cli'))) =
                 Ok (map (fun e => (simple_eval (fst e), 0%N)) cli')).
    { rewrite recv_plain; [|exact pl_pos|].
      - rewrite chunks_concat by exact HB. rewrite map_map. f_equal. apply map_ext. intros e. rewrite oprf. reflexivity.
      - apply Forall_forall. intros b Ib. apply Forall_forall. intros x Ix.
        assert (I : In x (concat (chunks bs (map (fun e => evaluate (blind (fst e))) cli')))) by (apply in_concat; eauto).
        rewrite chunks_concat in I by exact HB. apply in_map_iff in I. destruct I as (e & <- & _). apply evaluate_len. }
    rewrite RC in F2. inversion F2 as [Q]. intros A g.
    assert (Q' := f_equal (map (fun p : bytes * N => g (fst p))) Q). rewrite !map_map in Q'. cbn [fst] in Q'. symmetry. exact Q'. }
  exists info. split; [exact F1|]. split.
  { rewrite F2. f_equal. apply (EC _ (fun b => (b, 0%N))). }
  split; [apply pick_perm; apply HS|]. split; [exact EU|].
  intros ->. destruct (F5 eq_refl) as (T1 & _). split; [exact T1|].
  destruct (serve_collect_spec Item blind evaluate pl pl_pos blind_len true client [] (mk_pinfo 0 0 [])) as (c' & E' & HC). cbn [app] in HC.
  specialize (HC eq_refl (counted_start Item) HL). unfold serve_shuffled in F1. rewrite E' in F1. cbn [bind] in F1. inversion F1 as [[Q1 Q2]].
  cbn [pi_dup]. try change (pi_dup (count_end c')) with (pi_dup c'). clear F1 F2 F5 Q1 Q2. specialize (HS (length cli)). fold cli in HC.
  intros i e Ei. unfold cli' in Ei. rewrite pick_nth in Ei by exact HP. destruct (nth_error (shuf (length cli)) i) as [j|] eqn:Ej; [|discriminate].
  assert (Hj : j < length cli) by (apply nth_error_Some; congruence).
  assert (Hi : i < length cli). { rewrite <- (seq_length (length cli) 0), <- (Permutation_length HS). apply nth_error_Some. congruence. }
  assert (EJ : map_at (pi_dup c') (u32 (N.of_nat j)) = snd e).
  { rewrite u32_small by lia. destruct e as [x d]. apply (counted_at Item cli c' j x d HC Ei). }
  unfold map_at at 1. rewrite (map_find_in _ (snd e)); [reflexivity| |].
  - intros w I. apply in_rev in I. apply in_map_iff in I. destruct I as ([i' j'] & Q & I). cbn [fst snd] in Q.
    apply number_in in I. destruct I as (_ & I). rewrite Nat.sub_0_r in I.
    assert (i' < length cli). { rewrite <- (seq_length (length cli) 0), <- (Permutation_length HS). apply nth_error_Some. congruence. }
    inversion Q as [[Q1 Q2]]. rewrite u32_small in Q1 by lia. apply Nat2N.inj in Q1. subst i'. rewrite Ej in I. inversion I; subst j'. exact EJ.
  - apply -> in_rev. apply in_map_iff. exists (i, j). cbn [fst snd]. split; [rewrite EJ, u32_small by lia; reflexivity|].
    apply number_in. split; [lia|]. rewrite Nat.sub_0_r. exact Ej.
Qed.

(** ** The selection *)
Section Tables.
Variable src : list (raw_batch Item).
Let srv := concat (map (rb_items Item) src).
Variable cli cli' : list (Item * N).
Variable es : list (sentry Item).
Hypothesis pass : shuffled_pass srv es.
Hypothesis perm' : Permutation cli' cli.
Hypothesis srv_nodup : NoDup (map fst srv).
Hypothesis cli_nodup : NoDup (map fst cli).
Hypothesis inj : forall x y, In x (map fst srv ++ map fst cli) -> In y (map fst srv ++ map fst cli) -> simple_eval x = simple_eval y -> x = y.
Let saved := map (fun e => (simple_eval (fst e), 0%N)) cli'.
Let rec := rec_of Item simple_eval.
Let peer := map (fun r => (cr_data r, cr_dup r)) (map rec es).

(** The key a quadruple stands for. *)
Definition quad_key (q : quad) (x : Item) : Prop :=
  exists j l c d e, q = (N.of_nat j, N.of_nat l, 0%N, d) /\ nth_error cli' j = Some (x, c) /\ nth_error es l = Some e /\ fst (fst e) = (x, d).

Lemma in_quads : forall q, In q (all_pairs saved peer) <-> exists x, quad_key q x.
Proof using pass perm' cli_nodup inj.
  intros [[[i k] sd] d]. unfold saved, peer, rec. rewrite (pairs_in Item simple_eval src cli cli' es pass perm' cli_nodup inj). split.
  - intros (-> & j & l & x & c & e & -> & -> & E & F & G). exists x, j, l, c, d, e. auto.
  - intros (x & j & l & c & d' & e & Q & E & F & G). inversion Q; subst. split; [reflexivity|]. exists j, l, x, c, e. auto.
Qed.
Lemma quad_key_inj : forall q q' x, quad_key q x -> quad_key q' x -> q = q'.
Proof using pass perm' cli_nodup srv_nodup.
  intros q q' x (j & l & c & d & e & -> & E & F & G) (j' & l' & c' & d' & e' & -> & E' & F' & G').
  assert (j = j') by (eapply nodup_pos; [exact (cli'_nodup Item cli cli' perm' cli_nodup)|exact E|exact E']). subst j'.
  assert (l = l') by (eapply (es_same Item src es pass srv_nodup); [exact F|exact F'|rewrite G, G'; reflexivity]). subst l'.
  rewrite F in F'. inversion F'; subst e'. rewrite G in G'. inversion G'. reflexivity.
Qed.
Lemma existsb_in : forall x l, existsb (eqb x) l = true <-> In x l.
Proof using eqb_spec.
  clear - eqb_spec. intros x l. rewrite existsb_exists. split; [intros (y & I & E); apply eqb_spec in E; subst; exact I|].
  intros I. exists x. split; [exact I|]. apply eqb_spec. reflexivity.
Qed.
Lemma key_of_quad : forall x, (exists q, quad_key q x) <-> In x (map fst (rows_with Item eqb (map fst srv) cli)).
Proof using pass perm' eqb_spec.
  intros x. unfold rows_with. rewrite in_map_iff. split.
  - intros (q & j & l & c & d & e & -> & E & F & G). exists (x, c). split; [reflexivity|]. apply filter_In. split.
    + apply (Permutation_in _ perm'). eapply nth_error_In. exact E.
    + apply existsb_in. apply in_map_iff. exists (x, d). split; [reflexivity|]. rewrite <- G. eapply nth_error_In.
      apply (es_srv Item src es pass). eapply nth_error_In. exact F.
  - intros ([y c] & Q & I). cbn in Q. subst y. apply filter_In in I. destruct I as (I & J). apply existsb_in in J. cbn [fst] in J.
    apply in_map_iff in J. destruct J as ([y d] & Q & J). cbn in Q. subst y.
    apply (Permutation_in _ (Permutation_sym perm')) in I. apply In_nth_error in I. destruct I as (j & I).
    apply In_nth_error in J. destruct J as (o & J). destruct (es_all Item src es pass o _ J) as (l & e & F1 & _ & _ & F4).
    exists (N.of_nat j, N.of_nat l, 0%N, d), j, l, c, d, e. auto.
Qed.
Lemma rows_with_nodup : forall ks (t : list (Item * N)), NoDup (map fst t) -> NoDup (map fst (rows_with Item eqb ks t)).
Proof using.
  clear. intros ks t. unfold rows_with. induction t as [|e t IH]; intros N; [constructor|]. cbn [filter map] in *. inversion N; subst.
  destruct (existsb _ ks); [|auto]. cbn [map]. constructor; [|auto]. intros I. apply H1. apply in_map_iff in I. destruct I as (e' & Q & I).
  apply filter_In in I. destruct I as (I & _). rewrite <- Q. apply in_map. exact I.
Qed.
Lemma full_selection : forall quads, Permutation quads (all_pairs saved peer) ->
  exists ks, Forall2 quad_key quads ks /\ NoDup quads /\ NoDup ks /\ Permutation ks (map fst (rows_with Item eqb (map fst srv) cli)).
Proof using pass perm' cli_nodup srv_nodup inj eqb_spec.
  intros quads PQ. destruct (forall2_choose _ _ quad_key quads) as (ks & F).
  { intros q I. apply in_quads. exact (Permutation_in _ PQ I). }
  assert (NQ : NoDup quads) by (apply (Permutation_NoDup (Permutation_sym PQ)); apply quads_nodup).
  assert (NK : NoDup ks) by (apply (forall2_nodup _ _ _ _ _ F NQ); intros a b x _ _; apply quad_key_inj).
  exists ks. split; [exact F|]. split; [exact NQ|]. split; [exact NK|].
  apply NoDup_Permutation; [exact NK|apply rows_with_nodup; exact cli_nodup|]. intros x. rewrite <- key_of_quad. split.
  - intros I. destruct (forall2_in_r _ _ _ _ _ _ F I) as (q & _ & K). eauto.
  - intros (q & K). assert (I : In q quads) by (apply (Permutation_in _ (Permutation_sym PQ)); apply in_quads; eauto).
    destruct (forall2_in_l _ _ _ _ _ _ F I) as (y & Iy & Ky).
    destruct K as (j & l & c & d & e & -> & E & _). destruct Ky as (j' & l' & c' & d' & e' & Q & E' & _). inversion Q as [[Q1 Q2 Q3]].
    apply Nat2N.inj in Q1. subst j'. rewrite E in E'. inversion E'; subst. exact Iy.
Qed.

(** The server's rows for the quadruples kept. *)
Lemma server_rows : forall q ks info, Forall2 quad_key q ks ->
  (forall i e, nth_error cli' i = Some e -> map_at (pi_dup info) (N.of_nat i) = snd e) ->
  Permutation (rows_of_cache (index_map info (map (fun q : quad => snd (fst (fst q))) q) (map (fun q : quad => fst (fst (fst q))) q)) (map rec es))
              (joined Item eqb srv (rows_with Item eqb ks cli)).
Proof using eqb_spec cli_nodup perm' inj pass srv_nodup.
  clear cl_pos cl_max pl_pos evaluate_len blind_len eval_len pl cl. intros quads ks info FK HI. set (m := index_map _ _ _).
  assert (EQ : combine (map (fun q : quad => snd (fst (fst q))) quads) (map (fun q : quad => fst (fst (fst q))) quads) =
               map (fun q : quad => (snd (fst (fst q)), fst (fst (fst q)))) quads).
  { clear. induction quads as [|q r IH]; [reflexivity|]. cbn. rewrite IH. reflexivity. }
  assert (HM : forall l v, In (N.of_nat l, v) m <-> exists x d e, nth_error es l = Some e /\ fst (fst e) = (x, d) /\ In (x, v) cli' /\ In x ks).
  { intros l v. unfold m, index_map. rewrite <- in_rev, EQ, map_map, in_map_iff. cbn [fst snd]. split.
    - intros (q & Q & I). destruct (forall2_in_l _ _ _ _ _ _ FK I) as (x & Ix & j & l' & c & d & e & -> & E3 & E4 & E5).
      cbn [fst snd] in Q. rewrite (HI _ _ E3) in Q. cbn in Q. inversion Q as [[Q1 Q2]].
      apply Nat2N.inj in Q1. subst l'. exists x, d, e. split; [exact E4|]. split; [exact E5|]. subst v. split; [eapply nth_error_In; exact E3|exact Ix].
    - intros (x & d & e & E & F & I & Ix). destruct (forall2_in_r _ _ _ _ _ _ FK Ix) as (q & Iq & K). exists q. split; [|exact Iq].
      destruct K as (j & l' & c & d' & e' & -> & E3 & E4 & E5). cbn [fst snd]. rewrite (HI _ _ E3). cbn [snd].
      assert (l' = l) by (eapply (es_same Item src es pass srv_nodup); [exact E4|exact E|rewrite E5, F; reflexivity]). subst l'. f_equal.
      apply In_nth_error in I. destruct I as (j' & I).
      assert (j = j') by (eapply nodup_pos; [exact (cli'_nodup Item cli cli' perm' cli_nodup)|exact E3|exact I]). subst j'. congruence. }
  assert (HF : forall l v, map_find (N.of_nat l) m = Some v <-> exists x d e, nth_error es l = Some e /\ fst (fst e) = (x, d) /\ In (x, v) cli' /\ In x ks).
  { intros l v. split; [intros H; apply HM; apply map_find_some; exact H|]. intros H. apply map_find_in; [|apply HM; exact H].
    intros w I. apply HM in I. destruct H as (x & d & e & E & F & I1 & _). destruct I as (x' & d' & e' & E' & F' & I2 & _).
    rewrite E in E'. inversion E'; subst e'. rewrite F in F'. inversion F'; subst x' d'.
    apply In_nth_error in I1. apply In_nth_error in I2. destruct I1 as (p & I1). destruct I2 as (q & I2).
    assert (p = q) by (eapply nodup_pos; [exact (cli'_nodup Item cli cli' perm' cli_nodup)|exact I1|exact I2]). subst q. congruence. }
  assert (HS : forall x v, In (x, v) (rows_with Item eqb ks cli) <-> In (x, v) cli' /\ In x ks).
  { intros x v. unfold rows_with. rewrite filter_In, existsb_in. cbn [fst]. split; intros (I & J); (split; [|exact J]).
    - exact (Permutation_in _ (Permutation_sym perm') I).
    - exact (Permutation_in _ perm' I). }
  unfold rows_of_cache. apply NoDup_Permutation.
  - apply (NoDup_map_inv fst). apply (nodup_flat_key _ _ _ cr_shuffle).
    + rewrite map_map. unfold rec. cbn [rec_of cr_shuffle]. rewrite <- (map_map (fun e : sentry Item => snd e) N.of_nat). apply nodup_map_inj; [intros a b _ _; lia|].
      destruct pass as (_ & B & _). apply (Permutation_NoDup (Permutation_sym B)). apply seq_NoDup.
    + intros r y I. destruct (map_find (cr_origin r) m); [|destruct I]. destruct I as [<-|[]]. reflexivity.
    + intros r. destruct (map_find (cr_origin r) m); cbn; lia.
  - eapply NoDup_map_inv. apply joined_keys.
  - intros [o v]. rewrite in_flat_map, (joined_in Item eqb eqb_spec) by (apply rows_with_nodup; exact cli_nodup). split.
    + intros (r & I & J). apply in_map_iff in I. destruct I as (e & <- & I). unfold rec in J. cbn [rec_of cr_origin cr_shuffle] in J.
      destruct (map_find (N.of_nat (snd (fst e))) m) as [w|] eqn:E; [|destruct J]. destruct J as [J|[]]. inversion J; subst.
      apply HF in E. destruct E as (x & d & e' & E1 & E2 & E3).
      apply In_nth_error in I. destruct I as (k & I). assert (K := es_index Item src es pass _ _ I). rewrite K in E1. rewrite I in E1. inversion E1; subst e'.
      exists (snd e), x, d. split; [reflexivity|]. split; [rewrite <- E2; apply (es_srv Item src es pass); eapply nth_error_In; exact I|].
      apply HS. exact E3.
    + intros (j & x & a & -> & E & I). destruct (es_all Item src es pass j _ E) as (k & e & F1 & F2 & F3 & F4).
      exists (rec e). split; [apply in_map; eapply nth_error_In; exact F1|]. unfold rec. cbn [rec_of cr_origin cr_shuffle]. rewrite F3.
      assert (Q : map_find (N.of_nat k) m = Some v).
      { apply HF. exists x, a, e. split; [exact F1|]. split; [exact F4|]. apply HS. exact I. }
      rewrite Q, F2. left. reflexivity.
Qed.
End Tables.
End Run.
