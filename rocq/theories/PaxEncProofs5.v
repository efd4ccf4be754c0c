(** Lemmas about the Paxos encoder: the backward pass, and the gap rows. *)
From Coq Require Import List Arith NArith Bool Lia Permutation.
From Verif Require Import Base BaseProofs StoreModel GfModel GfSpec GfProofs GfProofs2 OkvsModel OkvsSpec OkvsProofs OkvsProofs2
  PaxEncModel PaxEncProofs PaxEncProofs2 PaxEncProofs3 PaxEncProofs4.
Import ListNotations.
Local Open Scope nat_scope.

Definition at0 (p : list N) (i : nat) : N := nth i p 0%N.

Lemma ofold_xor : forall p l y z, ofold (fun c y => do v <- vget p c; Ok (N.lxor y v)) l y = Ok z ->
  z = N.lxor y (xsum (at0 p) l) /\ Forall (fun c => c < length p) l.
Proof.
  intros p l. induction l as [|c l IH]; intros y z H; cbn [ofold] in H.
  - injection H as <-. cbn. rewrite N.lxor_0_r. auto.
  - apply bind_ok in H. destruct H as (y1 & E & H). apply bind_ok in E. destruct E as (v & E & E'). injection E' as <-.
    apply (vget_ok _ 0%N) in E. destruct E as [L <-]. destruct (IH _ _ H) as [-> F]. split; [|constructor; assumption].
    rewrite xsum_cons, N.lxor_assoc. reflexivity.
Qed.
Lemma ofold_xor_prog : forall p l y, Forall (fun c => c < length p) l ->
  exists z, ofold (fun c y => do v <- vget p c; Ok (N.lxor y v)) l y = Ok z.
Proof.
  intros p l. induction l as [|c l IH]; intros y F; [cbn; eauto|]. inversion F; subst. cbn [ofold].
  rewrite (vget_in _ 0%N) by assumption. cbn [bind]. apply IH. assumption.
Qed.
Lemma comb_facts : forall values gap fc x, comb_value values gap fc = Ok x ->
  x = xsum (at0 values) (fst gap :: fc) /\ fst gap < length values.
Proof.
  intros values gap fc x H. unfold comb_value in H. apply bind_ok in H. destruct H as (y & E & H).
  apply (vget_ok _ 0%N) in E. destruct E as [L <-]. apply ofold_xor in H. destruct H as [-> _]. split; [reflexivity|assumption].
Qed.
Lemma omapM_facts : forall (A B : Type) (f : A -> outcome B) (da : A) (db : B) l r, omapM f l = Ok r ->
  length r = length l /\ forall i, i < length l -> f (nth i l da) = Ok (nth i r db).
Proof.
  intros A B f da db l. induction l as [|x l IH]; intros r H; cbn [omapM] in H.
  - injection H as <-. split; [reflexivity|]. cbn. lia.
  - apply bind_ok in H. destruct H as (y & E & H). apply bind_ok in H. destruct H as (ys & E' & H). injection H as <-.
    destruct (IH ys E') as [L F]. split; [cbn; lia|]. intros [|i] Hi; [assumption|]. cbn in *. apply F. lia.
Qed.
Lemma omapM_prog : forall (A B : Type) (f : A -> outcome B) l, (forall x, In x l -> exists y, f x = Ok y) -> exists r, omapM f l = Ok r.
Proof.
  intros A B f l. induction l as [|x l IH]; intros H; [cbn; eauto|]. cbn [omapM].
  destruct (H x (or_introl eq_refl)) as [y E]. rewrite E. cbn [bind]. destruct IH as [r E']; [intros; apply H; right; assumption|].
  rewrite E'. cbn [bind]. eauto.
Qed.
Lemma combine_nth2 : forall (A B : Type) (a : list A) (b : list B) i da db, length a = length b ->
  nth i (combine a b) (da, db) = (nth i a da, nth i b db).
Proof. intros. apply combine_nth. assumption. Qed.

Lemma at0_upd : forall p c y i, c < length p -> at0 (upd c (fun _ => y) p) i = if i =? c then y else at0 p i.
Proof. intros. unfold at0. apply upd_get. assumption. Qed.
Lemma lxor_lt : forall m a b, (a < 2 ^ m)%N -> (b < 2 ^ m)%N -> (N.lxor a b < 2 ^ m)%N.
Proof. intros. apply lxor_below; assumption. Qed.
Lemma pow_pos : forall m, (0 < 2 ^ m)%N.
Proof. intros m. apply N.neq_0_lt_0, N.pow_nonzero. discriminate. Qed.
Lemma xsum_lt : forall (A : Type) m (f : A -> N) l, (forall x, In x l -> (f x < 2 ^ m)%N) -> (xsum f l < 2 ^ m)%N.
Proof.
  intros A m f l. induction l as [|x l IH]; intros H; [apply pow_pos|]. rewrite xsum_cons. apply lxor_lt; [apply H; left; reflexivity|].
  apply IH. intros; apply H; right; assumption.
Qed.

(** The backward pass.  D r is what the dense part adds to row r. *)
Section Back.
Variables (s tot : nat) (vw : N) (rows : list (list nat)) (values : list N) (D dz : nat -> N).
Variable step : nat * nat -> list N -> outcome (list N).
Hypothesis Hrows : rows_ok s rows.
Hypothesis Hst : s <= tot.
Hypothesis Hstep : forall rc p p', length p = tot -> (forall i, s <= i -> at0 p i = dz i) -> step rc p = Ok p' ->
  fst rc < length values /\
  p' = upd (snd rc) (fun _ => N.lxor (N.lxor (at0 values (fst rc)) (xsum (at0 p) (rowi rows (fst rc)))) (D (fst rc))) p.

Lemma back_facts : forall main p p', tri_ok rows main -> NoDup (map snd main) -> Forall (fun c => c < s) (map snd main) ->
  length p = tot -> (forall i, s <= i -> at0 p i = dz i) -> (forall c, In c (map snd main) -> at0 p c = 0%N) ->
  ofold step main p = Ok p' ->
  length p' = tot /\ (forall i, ~ In i (map snd main) -> at0 p' i = at0 p i) /\
  (forall r, In r (map fst main) -> r < length values /\ xsum (at0 p') (rowi rows r) = N.lxor (at0 values r) (D r)) /\
  ((forall i, (at0 p i < 2 ^ vw)%N) -> (forall r, (at0 values r < 2 ^ vw)%N) -> (forall r, In r (map fst main) -> (D r < 2 ^ vw)%N) -> forall i, (at0 p' i < 2 ^ vw)%N).
Proof using Hrows Hst Hstep.
  intros main. induction main as [|[r c] old IH]; intros p p' T ND F L HD HZ H.
  - cbn in H. injection H as <-. split; [assumption|]. split; [auto|]. split; [intros r []|auto].
  - cbn [ofold] in H. apply bind_ok in H. destruct H as (p1 & E & H).
    destruct (Hstep _ _ _ L HD E) as (Lr & ->). cbn [fst snd map] in *. inversion ND; inversion F; subst.
    cbn [tri_ok] in T. destruct T as (T1 & T2 & T3 & T4).
    assert (Lc : c < length p) by lia.
    set (y := N.lxor (N.lxor (at0 values r) (xsum (at0 p) (rowi rows r))) (D r)) in *.
    destruct (IH (upd c (fun _ => y) p) p') as (A1 & A2 & A3 & A4); try assumption.
    + rewrite upd_len. reflexivity.
    + intros i Hi. rewrite at0_upd by assumption. destruct (Nat.eqb_spec i c); [lia|]. auto.
    + intros c' I. rewrite at0_upd by assumption. destruct (Nat.eqb_spec c' c); [subst; contradiction|]. apply HZ. right. assumption.
    + split; [assumption|]. split; [|split].
      * intros i Hi. cbn [In] in Hi. rewrite A2 by tauto. rewrite at0_upd by assumption. destruct (Nat.eqb_spec i c); [subst i; tauto|reflexivity].
      * intros r' [<-|I]; [|apply A3; assumption]. split; [assumption|].
        rewrite (xsum_ext _ _ (at0 (upd c (fun _ => y) p))).
        2: { intros x Hx. apply A2. intros X. apply (T3 x X Hx). }
        assert (G : forall l, NoDup l -> In c l -> xsum (at0 (upd c (fun _ => y) p)) l = N.lxor y (xsum (at0 p) l)).
        { intros l. induction l as [|x l IHl]; intros N I; [destruct I|]. inversion N; subst. rewrite !xsum_cons.
          destruct I as [->|I].
          - rewrite at0_upd by assumption. rewrite Nat.eqb_refl. rewrite (HZ c) by (left; reflexivity). rewrite N.lxor_0_l. f_equal.
            apply xsum_ext. intros z Hz. rewrite at0_upd by assumption. destruct (Nat.eqb_spec z c); [subst; contradiction|reflexivity].
          - rewrite IHl by assumption. rewrite at0_upd by assumption. destruct (Nat.eqb_spec x c); [subst; contradiction|]. apply lxor_swap. }
        rewrite G; [|apply Hrows; assumption|assumption]. unfold y.
        set (a := at0 values r). set (b := xsum (at0 p) (rowi rows r)). rewrite !N.lxor_assoc. f_equal.
        rewrite (N.lxor_comm (D r)), lxor_cancel. reflexivity.
      * intros B1 B2 B3. apply A4; [|assumption|intros r' X; apply B3; right; assumption]. intros i. rewrite at0_upd by assumption. destruct (i =? c); [|apply B1].
        unfold y. apply lxor_lt; [apply lxor_lt; [apply B2|apply xsum_lt; intros; apply B1]|apply B3; left; reflexivity].
Qed.
End Back.

(** Every row, once the gap rows are consistent. *)
Lemma all_rows : forall s size rows dense t values D p',
  rows_ok s rows -> s <= size -> inv s rows dense t ->
  (forall r, r < length rows -> In r (map fst (t_main t)) \/ In r (map fst (t_gap t))) ->
  (forall c, c < s -> ~ In c (map snd (t_main t)) -> at0 p' c = 0%N) ->
  (forall r, In r (map fst (t_main t)) -> r < length values /\ xsum (at0 p') (rowi rows r) = N.lxor (at0 values r) (D r)) ->
  (forall g, In g (t_gap t) -> fst g < length values /\ exists fc, fc_inv1 rows size (t_main t) g = Ok fc /\
     xsum (at0 values) (fst g :: fc) = xsum D (fst g :: fc)) ->
  forall r, r < length rows -> r < length values /\ N.lxor (xsum (at0 p') (rowi rows r)) (D r) = at0 values r.
Proof.
  intros s size rows dense t values D p' HR HS I HC HZ HM HG r Hr. destruct (HC r Hr) as [X|X].
  - destruct (HM r X) as [A B]. split; [assumption|]. rewrite B, N.lxor_assoc, N.lxor_nilpotent. apply N.lxor_0_r.
  - apply in_map_iff in X. destruct X as (g & E & X). subst r. destruct (HG g X) as (A & fc & E & B). split; [assumption|].
    destruct (i_set _ _ _ _ I) as (_ & _ & _ & FG). rewrite Forall_forall in FG. destruct (FG g X) as (F1 & F2 & _).
    pose (P := fun c => if in_dec Nat.eq_dec c (map snd (t_main t)) then at0 p' c else 0%N).
    destruct (fc_inv1_facts s size rows (t_main t) HR HS (i_nd _ _ _ _ I) (i_lt _ _ _ _ I) P) with (gap := g) (fc := fc) as (Q1 & Q2); try assumption.
    { intros c Hc. unfold P. destruct (in_dec _ _ _); [contradiction|reflexivity]. }
    assert (RS : forall k, k < length rows -> rsum rows P k = xsum (at0 p') (rowi rows k)).
    { intros k Hk. unfold rsum. apply xsum_ext. intros c Ic. unfold P. destruct (in_dec Nat.eq_dec c (map snd (t_main t))); [reflexivity|].
      symmetry. apply HZ; [|assumption]. destruct (HR k Hk) as [_ FL]. rewrite Forall_forall in FL. auto. }
    rewrite <- (RS (fst g) F1), Q2. rewrite (xsum_ext _ _ (fun j => N.lxor (at0 values j) (D j))).
    + rewrite xsum_add. rewrite !xsum_cons in B. rewrite N.lxor_assoc.
      rewrite (N.lxor_comm (xsum D fc) (D (fst g))), <- B.
      rewrite (N.lxor_comm (at0 values (fst g))), lxor_cancel. reflexivity.
    + intros j Hj. apply Q1 in Hj. destruct (HM j Hj) as [_ M]. rewrite <- M. apply RS.
      apply in_map_iff in Hj. destruct Hj as ([k c] & Ek & Hj). cbn in Ek. subst k. apply In_nth_error in Hj. destruct Hj as [i Hj].
      apply (tri_in _ _ _ _ _ (i_tri _ _ _ _ I) Hj).
Qed.
