(** Lemmas about Progress. *)
From Coq Require Import List NArith Arith Bool Lia.
From Verif Require Import Base StoreModel StoreProofs ProgressModel ProgressSpec.
Import ListNotations.
Local Open Scope N_scope.

Fixpoint dot (ws ps : list N) : N :=
  match ws, ps with w :: ws', p :: ps' => w * p + dot ws' ps' | _, _ => 0 end.
Definition total (ws : list N) : N := fold_right N.add 0 ws.
Fixpoint pctv (t : progress) : N :=
  match t with PNode m p _ ws subs =>
    if is_single m then p else dot ws (map pctv subs) / (if total ws =? 0 then 1 else total ws)
  end.

Lemma dot_bound : forall ws ps, (forall p, In p ps -> p <= 100) -> dot ws ps <= total ws * 100.
Proof.
  induction ws as [|w r IH]; intros [|p ps] H; cbn [dot total fold_right]; try lia.
  specialize (IH ps (fun x I => H x (or_intror I))). specialize (H p (or_introl eq_refl)). unfold total in IH. nia.
Qed.
Lemma dot_mono : forall ws ps ps', Forall2 N.le ps ps' -> dot ws ps <= dot ws ps'.
Proof.
  induction ws as [|w r IH]; intros ps ps' H; cbn [dot]; [lia|].
  destruct H as [|p p' ps ps' H1 H2]; [lia|]. specialize (IH _ _ H2). nia.
Qed.
Lemma dot_app_l : forall ws ps qs, dot ws ps <= dot ws (ps ++ qs).
Proof.
  induction ws as [|w r IH]; intros [|p ps] qs; cbn [dot app]; try lia. specialize (IH ps qs). lia.
Qed.
Lemma dot_100 : forall ws ps, length ps = length ws -> (forall p, In p ps -> p = 100) -> dot ws ps = total ws * 100.
Proof.
  induction ws as [|w r IH]; intros [|p ps] L H; cbn [dot total fold_right length] in *; try lia.
  rewrite (IH ps) by (try lia; intros; apply H; right; assumption). rewrite (H p (or_introl eq_refl)). unfold total. lia.
Qed.
Lemma div_le : forall a b w, a <= b -> a / (if w =? 0 then 1 else w) <= b / (if w =? 0 then 1 else w).
Proof. intros. apply N.div_le_mono; [|exact H]. destruct (N.eqb_spec w 0); lia. Qed.

Lemma fold_weights : forall ws a, a + total ws < 2 ^ 64 ->
  fold_left (fun a w => u64 (a + w)) ws a = a + total ws.
Proof.
  induction ws as [|w r IH]; intros a H; cbn [fold_left total fold_right] in *; [lia|].
  unfold total in IH. assert (E : u64 (a + w) = a + w) by (unfold u64; apply N.mod_small; change 18446744073709551616 with (2 ^ 64); lia).
  rewrite E, IH by lia. lia.
Qed.

Fixpoint go (ws : list N) (ss : list progress) (acc : pacc) {struct ss} : outcome pacc :=
  match ss, ws with
  | [], _ => Ok acc
  | _ :: _, [] => UB
  | s :: ss', w :: ws' =>
      do d <- get s;
      go ws' ss' (mk_pacc (a_total acc - 1 + d_total d) (a_fin acc + d_finished d)
                          (a_run acc + d_running d) (u64 (a_sum acc + u64 (w * d_pct d))))
  end.
Lemma get_multi : forall m p dn ws subs, m <> PSingle ->
  get (PNode m p dn ws subs) =
  do r <- go ws subs (mk_pacc (N.of_nat (length ws)) 0 0 0);
  Ok (mk_pdata (a_total r) (a_fin r) (a_run r)
       (a_sum r / (if fold_left (fun a w => u64 (a + w)) ws 0 =? 0 then 1 else fold_left (fun a w => u64 (a + w)) ws 0))).
Proof.
  intros m p dn ws subs H. cbn [get]. destruct m; [contradiction| |]; cbn [is_single]; cbv zeta;
  match goal with |- bind ?a _ = bind ?b _ => assert (E : a = b); [|rewrite E; reflexivity] end;
  generalize (mk_pacc (N.of_nat (length ws)) 0 0 0); clear; revert ws; induction subs as [|s r IH]; intros [|w ws] acc; cbn [go]; try reflexivity;
  destruct (get s); cbn [bind]; try reflexivity; apply IH.
Qed.

(** What a sane object shows. *)
Definition good (t : progress) : Prop :=
  exists d, get t = Ok d /\ d_pct d = pctv t /\ pctv t <= 100 /\ d_finished d + d_running d <= d_total d.

Lemma go_ok : forall ss ws acc, (length ss <= length ws)%nat -> Forall good ss ->
  a_sum acc + total ws * 100 < 2 ^ 64 -> N.of_nat (length ws) <= a_total acc ->
  a_fin acc + a_run acc + N.of_nat (length ws) <= a_total acc ->
  exists r, go ws ss acc = Ok r /\ a_sum r = a_sum acc + dot ws (map pctv ss) /\ a_fin r + a_run r <= a_total r.
Proof.
  induction ss as [|s r IH]; intros [|w ws] acc HL HF HS HT HC; cbn [length] in *; try lia.
  - exists acc. split; [reflexivity|]. cbn [map dot]. lia.
  - exists acc. split; [reflexivity|]. cbn [map dot]. lia.
  - apply Forall_cons_iff in HF. destruct HF as [(d & Ed & Pd & Bd & Cd) HF].
    cbn [go]. rewrite Ed. cbn [bind]. cbn [total fold_right] in HS. unfold total in IH.
    assert (E1 : u64 (w * d_pct d) = w * d_pct d).
    { unfold u64. apply N.mod_small. change 18446744073709551616 with (2 ^ 64). rewrite Pd. nia. }
    assert (E2 : u64 (a_sum acc + w * d_pct d) = a_sum acc + w * d_pct d).
    { unfold u64. apply N.mod_small. change 18446744073709551616 with (2 ^ 64). rewrite Pd. nia. }
    rewrite E1, E2.
    destruct (IH ws (mk_pacc (a_total acc - 1 + d_total d) (a_fin acc + d_finished d) (a_run acc + d_running d)
                             (a_sum acc + w * d_pct d))) as (x & Ex & Sx & Cx); cbn [a_sum a_total a_fin a_run]; try lia.
    + exact HF.
    + rewrite Pd. nia.
    + exists x. split; [exact Ex|]. split; [|exact Cx]. rewrite Sx. cbn [a_sum map dot]. rewrite Pd. lia.
Qed.

Lemma sane_good : forall h t, sane h t -> good t.
Proof.
  induction h as [|h IH]; intros t H; inversion H; subst; clear H.
  1, 2: eexists; split; [reflexivity|]; cbn [d_pct d_finished d_running d_total pctv is_single];
        split; [reflexivity|]; split; [assumption|]; destruct (N.leb_spec 100 p), (N.ltb_spec 0 p), (N.ltb_spec p 100); cbn [andb]; lia.
  assert (G : Forall good subs).
  { match goal with F : Forall (sane h) subs |- _ => revert F end. apply Forall_impl. exact IH. }
  match goal with S : sane_weights ws |- _ => unfold sane_weights in S; fold (total ws) in S; rename S into HS end.
  destruct (go_ok subs ws (mk_pacc (N.of_nat (length ws)) 0 0 0)) as (r & Er & Sr & Cr); cbn [a_sum a_total a_fin a_run]; auto; try lia.
  unfold good. rewrite get_multi by assumption. rewrite Er. cbn [bind].
  rewrite fold_weights by lia. rewrite N.add_0_l.
  eexists. split; [reflexivity|]. cbn [d_pct d_finished d_running d_total].
  cbn [a_sum] in Sr. rewrite N.add_0_l in Sr. rewrite Sr.
  cbn [pctv]. destruct m; [contradiction| |]; cbn [is_single].
  all: split; [reflexivity|]; split; [|exact Cr];
    assert (B : dot ws (map pctv subs) <= total ws * 100)
      by (apply dot_bound; intros q Iq; apply in_map_iff in Iq; destruct Iq as (s & <- & Is);
          rewrite Forall_forall in G; destruct (G s Is) as (? & _ & _ & X & _); exact X);
    destruct (N.eqb_spec (total ws) 0) as [Z|Z];
    [rewrite N.div_1_r; lia|apply N.div_le_upper_bound; [exact Z|lia]].
Qed.

Lemma sane_up : forall h t, sane h t -> sane (S h) t.
Proof.
  induction h as [|h IH]; intros t H; inversion H; subst; try (constructor; assumption).
  constructor; auto. match goal with F : Forall (sane h) subs |- _ => revert F end. apply Forall_impl. exact IH.
Qed.
Lemma sane_le : forall h h' t, (h <= h')%nat -> sane h t -> sane h' t.
Proof. intros h h' t L. induction L; auto using sane_up. Qed.

(** Done raises the percentage. *)
Lemma done_sane : forall h t, sane h t -> sane h (done t) /\ pctv t <= pctv (done t).
Proof.
  induction h as [|h IH]; intros t H; inversion H; subst; clear H; cbn [done]; destruct dn.
  1, 3: split; [constructor; assumption|lia].
  1, 2: cbn [is_single]; split; [constructor; lia|cbn [pctv is_single]; assumption].
  - split; [constructor; assumption|lia].
  - assert (F : Forall (sane h) subs) by assumption.
    assert (FS : Forall (sane h) (map done subs)).
    { apply Forall_map. revert F. apply Forall_impl. intros; apply IH; assumption. }
    assert (FL : Forall2 N.le (map pctv subs) (map pctv (map done subs))).
    { clear - F IH. induction subs as [|s r IHs]; cbn [map]; constructor; apply Forall_cons_iff in F; [apply IH; apply F|apply IHs; apply F]. }
    destruct m; [contradiction| |]; cbn [is_single]; (split; [constructor; auto; rewrite map_length; assumption|]);
      cbn [pctv is_single]; apply div_le, dot_mono; exact FL.
Qed.

Lemma forall2_refl : forall l, Forall2 N.le l l.
Proof. induction l; constructor; auto; lia. Qed.
Lemma forall2_app' : forall a b c d, Forall2 N.le a b -> Forall2 N.le c d -> Forall2 N.le (a ++ c) (b ++ d).
Proof. intros. apply Forall2_app; assumption. Qed.

Lemma set_empty : forall h m p dn ws nw nm, nm <> PSingle -> sane_weights nw -> (m = PSingle -> p = 0) ->
  sane (S h) (PNode nm p dn nw []) /\ pctv (PNode m p dn ws []) <= pctv (PNode nm p dn nw []).
Proof.
  intros h m p dn ws nw nm Hn Hw Hp. split.
  - constructor; auto. cbn. lia.
  - cbn [pctv map]. assert (E : forall w, dot w [] = 0) by (intros [|? ?]; reflexivity). rewrite !E.
    assert (Z : forall w, 0 / (if w =? 0 then 1 else w) = 0) by (intros w; destruct (N.eqb_spec w 0); [reflexivity|apply N.div_0_l; assumption]).
    destruct m; cbn [is_single]; [rewrite (Hp eq_refl)|rewrite Z|rewrite Z]; apply N.le_0_l.
Qed.

Lemma op_sane : forall h t o, sane h t -> disciplined o t ->
  sane (S h) (apply_op o t) /\ pctv t <= pctv (apply_op o t).
Proof.
  intros h t o H D. destruct o as [q| |nw nm|n nm| |]; cbn [apply_op].
  - inversion H; subst; cbn [disciplined] in D; cbn [update].
    + split; [constructor; lia|]. cbn [pctv is_single]. destruct D as [D|D]; [contradiction|lia].
    + split; [apply sane_up; constructor; assumption|]. cbn [pctv]. destruct m; [contradiction| |]; cbn [is_single]; lia.
  - destruct (done_sane h t H) as [A B]. split; [apply sane_up; exact A|exact B].
  - destruct t as [m p dn ws subs]. cbn [disciplined] in D. destruct D as (-> & D1 & D2 & D3). cbn [set_weights].
    apply set_empty; assumption.
  - destruct t as [m p dn ws subs]. cbn [disciplined] in D. destruct D as (-> & D1 & D2 & D3). cbn [set_sub_job_count].
    apply set_empty; assumption.
  - inversion H; subst; cbn [disciplined] in D; destruct D as [D1 D2]; [contradiction|]. cbn [add_sub]. split.
    + constructor; auto; [rewrite app_length; cbn; lia|]. apply Forall_app. split.
      * match goal with F : Forall _ subs |- _ => revert F end. apply Forall_impl. intros; apply sane_up; assumption.
      * constructor; [|constructor]. unfold new_progress. constructor. lia.
    + cbn [pctv]. destruct m; [contradiction| |]; cbn [is_single]; rewrite map_app; apply div_le, dot_app_l.
  - inversion H; subst; cbn [disciplined] in D; destruct D as [D1 D2]; [contradiction|]. cbn [next_sub].
    assert (NP : sane (S h0) new_progress) by (unfold new_progress; constructor; lia).
    destruct subs as [|s0 r0] eqn:Es.
    + split.
      * constructor; auto; try (cbn [length]; cbn [length] in D2; lia); try (constructor; [exact NP|constructor]).
      * cbn [pctv map]. destruct m; [contradiction| |]; cbn [is_single]; apply div_le; destruct ws; cbn [dot]; lia.
    + rewrite <- Es in *. assert (NE : subs <> []) by (subst subs; discriminate).
      pose proof (app_removelast_last new_progress NE) as SP.
      assert (FA : Forall (sane h0) subs) by assumption.
      rewrite SP in FA. apply Forall_app in FA. destruct FA as [F1 F2]. apply Forall_cons_iff in F2. destruct F2 as [F2 _].
      destruct (done_sane h0 _ F2) as [A B].
      assert (LL : length subs = S (length (removelast subs))).
      { rewrite SP at 1. rewrite app_length. cbn. lia. }
      split.
      * constructor; auto; [rewrite !app_length; cbn [length]; lia|].
        apply Forall_app. split; [revert F1; apply Forall_impl; intros; apply sane_up; assumption|].
        cbn [app]. constructor; [apply sane_up; exact A|]. constructor; [exact NP|constructor].
      * cbn [pctv]. destruct m; [contradiction| |]; cbn [is_single]; apply div_le;
        (eapply N.le_trans; [|rewrite app_assoc, map_app; apply dot_app_l]); apply dot_mono;
        rewrite SP at 1; rewrite !map_app; apply forall2_app'; try apply forall2_refl; cbn [map]; constructor; [exact B|constructor|exact B|constructor].
Qed.

Lemma upd_F2 : forall (f : progress -> progress) i subs s, nth_error subs i = Some s -> pctv s <= pctv (f s) ->
  Forall2 N.le (map pctv subs) (map pctv (upd i f subs)).
Proof.
  intros f i. induction i as [|i IH]; intros [|x r] s H L; try discriminate; cbn [upd map].
  - injection H as ->. constructor; [exact L|apply forall2_refl].
  - constructor; [lia|]. eapply IH; eauto.
Qed.
Lemma upd_Forall : forall (P Q : progress -> Prop) (f : progress -> progress) i subs s, (forall x, P x -> Q x) ->
  nth_error subs i = Some s -> Q (f s) -> Forall P subs -> Forall Q (upd i f subs).
Proof.
  intros P Q f i. induction i as [|i IH]; intros [|x r] s PQ H K F; try discriminate; apply Forall_cons_iff in F; destruct F as [F1 F2]; cbn [upd].
  - injection H as ->. constructor; [exact K|revert F2; apply Forall_impl; exact PQ].
  - constructor; [apply PQ; exact F1|]. eapply IH; eauto.
Qed.

Lemma call_sane : forall path h t o, sane h t -> disciplined_call path o t ->
  sane (S h) (call path o t) /\ pctv t <= pctv (call path o t).
Proof.
  induction path as [|i r IH]; intros h t o H D; [apply op_sane; assumption|].
  destruct t as [m p dn ws subs]. cbn [disciplined_call] in D. destruct D as (Hm & s & Es & D). cbn [call].
  inversion H; subst; [contradiction|].
  assert (FS : sane h0 s).
  { match goal with F : Forall _ subs |- _ => rewrite Forall_forall in F; apply F end. eapply nth_error_In; eauto. }
  destruct (IH h0 s o FS D) as [A B]. split.
  - constructor; auto; [rewrite upd_length; assumption|].
    eapply upd_Forall; [|exact Es|exact A|eassumption]. intros; apply sane_up; assumption.
  - cbn [pctv]. destruct m; [contradiction| |]; cbn [is_single]; apply div_le, dot_mono; eapply upd_F2; eauto.
Qed.

Lemma complete_done_100 : forall h t, sane h t -> complete t -> pctv (done t) = 100.
Proof.
  induction h as [|h IH]; intros t H C; pose proof (sane_good _ _ H) as G; inversion H; subst.
  1, 2: inversion C; subst; try contradiction; cbn [done]; destruct dn; cbn [pctv is_single]; auto.
  inversion C; subst; [contradiction| |].
  - assert (X : forall q, In q (map pctv (map done subs)) -> q = 100).
    { intros q Iq. rewrite map_map in Iq. apply in_map_iff in Iq. destruct Iq as (s & <- & Is).
      repeat match goal with F : Forall _ subs |- _ => rewrite Forall_forall in F; specialize (F s Is) end. apply IH; assumption. }
    assert (Y : dot ws (map pctv (map done subs)) = total ws * 100) by (apply dot_100; [rewrite !map_length; assumption|exact X]).
    assert (Z : total ws * 100 / (if total ws =? 0 then 1 else total ws) = 100).
    { change (fold_right N.add 0 ws) with (total ws) in *. destruct (N.eqb_spec (total ws) 0); [lia|]. rewrite N.mul_comm. apply N.div_mul. assumption. }
    cbn [done]. destruct m; [contradiction| |]; cbn [is_single pctv]; rewrite Y; exact Z.
  - cbn [done]. destruct G as (d' & E & P & _). rewrite <- P. congruence.
Qed.

Lemma states_sane : forall cs h t, sane h t -> disciplined_run t cs ->
  forall i j s s', (i <= j)%nat -> nth_error (states t cs) i = Some s -> nth_error (states t cs) j = Some s' ->
  (exists h', sane h' s) /\ (exists h', sane h' s') /\ pctv s <= pctv s'.
Proof.
  induction cs as [|[p o] r IH]; intros h t H D i j s s' L Ei Ej.
  - cbn [states] in *. destruct i as [|i]; [|destruct i; discriminate]. destruct j as [|j]; [|destruct j; discriminate].
    injection Ei as <-. injection Ej as <-. repeat split; eauto. lia.
  - cbn [states disciplined_run] in *. destruct D as [D DR]. destruct (call_sane p h t o H D) as [A B].
    destruct j as [|j].
    + assert (i = 0%nat) by lia. subst i. injection Ei as <-. injection Ej as <-. repeat split; eauto. lia.
    + cbn [nth_error] in Ej. destruct i as [|i].
      * injection Ei as <-. split; [eauto|].
        destruct (IH (S h) _ A DR 0%nat j (call p o t) s') as (X & Y & Z); [lia|destruct r as [|[? ?] ?]; reflexivity|exact Ej|].
        split; [exact Y|lia].
      * cbn [nth_error] in Ei. apply (IH (S h) _ A DR i j); auto. lia.
Qed.
