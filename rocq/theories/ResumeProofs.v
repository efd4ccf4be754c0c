(** Lemmas for C31. *)
From Coq Require Import List NArith Bool Arith Lia.
From Verif Require Import Base ResumeModel.
Import ListNotations.

Section P.
Variable nbuckets : nat.
Variable res : bool -> nat -> list (N * N).
Variable skip : nat -> bool.

Lemma rapply_app : forall a b p, rapply_all p (a ++ b) = rapply_all (rapply_all p a) b.
Proof using. intros a b p. unfold rapply_all. apply fold_left_app. Qed.
Lemma rapply_lines : forall l p, rapply_all p (map RLine l) = mk_rparty (rp_file p ++ l) (rp_parsed p).
Proof using.
  induction l as [|e l IH]; intros p; cbn [map].
  - rewrite app_nil_r. destruct p. reflexivity.
  - change (rapply_all p (RLine e :: map RLine l)) with (rapply_all (rapply p (RLine e)) (map RLine l)).
    rewrite IH. cbn. rewrite <- app_assoc. reflexivity.
Qed.

Definition cov (p : bool) (n : nat) (f : list (N * N)) : Prop :=
  forall b, b < n -> skip b = false -> incl (res p b) f.
Definition snd' (p : bool) (f : list (N * N)) : Prop :=
  forall e, In e f -> exists b, b < nbuckets /\ skip b = false /\ In e (res p b).
Definition rinv (p : bool) (q : rparty) : Prop :=
  snd' p (rp_file q) /\ cov p (rp_parsed q) (rp_file q) /\ rp_parsed q <= nbuckets.

Lemma cov_app : forall p n f l, cov p n f -> cov p n (f ++ l).
Proof using. intros p n f l H b L S e I. apply in_or_app. left. apply (H b L S e I). Qed.

Lemma run_inv : forall p len i k q, i + len <= nbuckets -> rinv p q -> cov p i (rp_file q) ->
  rinv p (rapply_all q (firstn k (flat_map (bucket_events res skip p) (seq i len)))).
Proof using.
  intros p. induction len as [|len IH]; intros i k q HL HI HC; [cbn; rewrite firstn_nil; exact HI|].
  cbn [seq flat_map]. unfold bucket_events at 1. destruct (skip i) eqn:SK.
  - cbn [app]. apply IH; [lia|exact HI|]. intros b L S. destruct (Nat.eq_dec b i) as [->|]; [congruence|]. apply HC; [lia|exact S].
  - rewrite firstn_app, rapply_app.
    assert (A : forall l1, (forall e, In e l1 -> In e (res p i)) -> rinv p (mk_rparty (rp_file q ++ l1) (rp_parsed q))).
    { intros l1 H1. destruct HI as (S1 & C1 & P1). split; [|split]; cbn; [|apply cov_app; exact C1|exact P1].
      intros e I. apply in_app_or in I. destruct I as [I|I]; [apply S1; exact I|]. exists i. split; [lia|]. split; [exact SK|]. apply H1; exact I. }
    rewrite firstn_app, rapply_app, firstn_map, rapply_lines.
    rewrite map_length.
    destruct (Nat.le_gt_cases k (length (res p i))) as [K|K].
    + replace (k - length (res p i)) with 0 by lia. replace (k - length (map RLine (res p i) ++ [RParsed (S i)])) with 0
        by (rewrite app_length, map_length; cbn; lia). cbn [firstn rapply_all fold_left].
      apply A. intros e I. rewrite <- (firstn_skipn k (res p i)). apply in_or_app. left. exact I.
    + rewrite (firstn_all2 (n := k) (res p i)) by lia.
      replace (k - length (res p i)) with (S (k - length (res p i) - 1)) by lia. cbn [firstn].
      rewrite firstn_nil. cbn [rapply_all fold_left rapply rp_file rp_parsed].
      apply IH; [lia| |].
      * destruct (A (res p i) (fun e H => H)) as (S1 & C1 & P1). split; [exact S1|]. cbn in *. split; [|lia].
        intros b L S. destruct (Nat.eq_dec b i) as [->|]; [apply incl_appr; apply incl_refl|].
        apply incl_appl. apply HC; [lia|exact S].
      * cbn. intros b L S. destruct (Nat.eq_dec b i) as [->|]; [apply incl_appr; apply incl_refl|].
        apply incl_appl. apply HC; [lia|exact S].
Qed.

Lemma run_cov : forall p len i q, i + len <= nbuckets -> cov p i (rp_file q) ->
  cov p (i + len) (rp_file (rapply_all q (flat_map (bucket_events res skip p) (seq i len)))).
Proof using.
  intros p. induction len as [|len IH]; intros i q HL HC; [rewrite Nat.add_0_r; exact HC|].
  cbn [seq flat_map]. unfold bucket_events at 1. replace (i + S len) with (S i + len) by lia. destruct (skip i) eqn:SK.
  - cbn [app]. apply IH; [lia|]. intros b L S. destruct (Nat.eq_dec b i) as [->|]; [congruence|]. apply HC; [lia|exact S].
  - rewrite rapply_app. apply IH; [lia|]. rewrite rapply_app, rapply_lines. cbn.
    intros b L S. destruct (Nat.eq_dec b i) as [->|]; [apply incl_appr; apply incl_refl|].
    apply incl_appl. apply HC; [lia|exact S].
Qed.

Lemma cov_le : forall p m n f, m <= n -> cov p n f -> cov p m f.
Proof using. intros p m n f L H b Lb S. apply H; [lia|exact S]. Qed.

Lemma rstart_le : forall (s : rsystem) p, rstart s <= rp_parsed (s p).
Proof using. intros s []; unfold rstart; cbn; lia. Qed.

Lemma rhistory_inv : forall s, rhistory nbuckets res skip s -> forall p, rinv p (s p).
Proof using.
  intros s H. induction H as [|s cut H IH]; intros p.
  - split; [intros e []|]. cbn. split; [intros b L; lia|lia].
  - destruct (IH p) as (S1 & C1 & P1). pose proof (rstart_le s p). apply run_inv; [lia|apply IH|].
    eapply cov_le; [|exact C1]. assumption.
Qed.

Lemma rcomplete_set : forall s, rhistory nbuckets res skip s -> forall p e,
  In e (rp_file (rcomplete nbuckets res skip s p)) <-> exists b, b < nbuckets /\ skip b = false /\ In e (res p b).
Proof using.
  intros s H p e. pose proof (rhistory_inv s H p) as HI. pose proof HI as (S1 & C1 & P1). pose proof (rstart_le s p).
  assert (C0 : cov p (rstart s) (rp_file (s p))) by (eapply cov_le; [|exact C1]; assumption).
  unfold rcomplete, run_events. split.
  - intros I.
    assert (HR := run_inv p (nbuckets - rstart s) (rstart s)
       (length (flat_map (bucket_events res skip p) (seq (rstart s) (nbuckets - rstart s)))) (s p) ltac:(lia) HI C0).
    rewrite firstn_all in HR. apply HR. exact I.
  - intros (b & L & SK & I). apply (run_cov p (nbuckets - rstart s) (rstart s) (s p) ltac:(lia) C0 b); [lia|exact SK|exact I].
Qed.

(** Crash-free resumption points. *)
Definition eff (p : bool) (b : nat) : list (N * N) := if skip b then [] else res p b.
Lemma run_file : forall p len i q,
  rp_file (rapply_all q (flat_map (bucket_events res skip p) (seq i len))) = rp_file q ++ flat_map (eff p) (seq i len).
Proof using.
  intros p. induction len as [|len IH]; intros i q; [cbn; rewrite app_nil_r; reflexivity|].
  cbn [seq flat_map]. rewrite rapply_app, IH. unfold bucket_events, eff. destruct (skip i); [reflexivity|].
  rewrite rapply_app, rapply_lines. cbn. rewrite app_assoc. reflexivity.
Qed.
Lemma run_parsed : forall p len i q, rp_parsed q <= i -> exists m,
  rp_parsed (rapply_all q (flat_map (bucket_events res skip p) (seq i len))) = m /\ m <= i + len /\
  (forall b, m <= b < i + len -> i <= b -> skip b = true) /\ (rp_parsed q <= m) /\
  (forall p' q', rp_parsed q' = rp_parsed q -> rp_parsed (rapply_all q' (flat_map (bucket_events res skip p') (seq i len))) = m).
Proof using.
  intros p. induction len as [|len IH]; intros i q HP.
  - exists (rp_parsed q). cbn. repeat split; try lia.
  - cbn [seq flat_map]. destruct (skip i) eqn:SK.
    + destruct (IH (S i) q ltac:(lia)) as (m & A & B & C & D & E). exists m. unfold bucket_events at 1. rewrite SK. cbn [app].
      split; [exact A|]. split; [lia|]. split; [|split; [exact D|]].
      * intros b L1 L2. destruct (Nat.eq_dec b i) as [->|]; [exact SK|]. apply C; lia.
      * intros p' q' H. unfold bucket_events at 1. rewrite SK. cbn [app]. apply E. exact H.
    + assert (BE : forall p0, bucket_events res skip p0 i = map RLine (res p0 i) ++ [RParsed (S i)])
        by (intros p0; unfold bucket_events; rewrite SK; reflexivity).
      rewrite rapply_app, BE, rapply_app, rapply_lines.
      destruct (IH (S i) (rapply_all (mk_rparty (rp_file q ++ res p i) (rp_parsed q)) [RParsed (S i)]) ltac:(cbn; lia)) as (m & A & B & C & D & E).
      exists m. split; [exact A|]. cbn in D. split; [lia|]. split; [|split; [lia|]].
      * intros b L1 L2. apply C; lia.
      * intros p' q' H. rewrite rapply_app, BE, rapply_app, rapply_lines. apply E. reflexivity.
Qed.

Lemma rclean_inv : forall s, rclean nbuckets res skip s -> exists n, n <= nbuckets /\
  forall p, rp_parsed (s p) = n /\ rp_file (s p) = flat_map (eff p) (seq 0 n).
Proof using.
  intros s H. induction H as [|s m H IH HM]; [exists 0; split; [lia|]; intros p; split; reflexivity|].
  destruct IH as (n & Ln & HS).
  assert (RS : rstart s = n) by (unfold rstart; rewrite !(proj1 (HS _)); lia).
  rewrite RS in *. destruct (run_parsed true (m - n) n (s true)) as (m' & A & B & C & D & E); [rewrite (proj1 (HS _)); lia|].
  rewrite (proj1 (HS true)) in D, E. exists m'. split; [lia|]. intros p. split.
  - apply E. apply HS.
  - rewrite run_file, (proj2 (HS p)).
    replace (m - n) with ((m' - n) + (m - m')) by lia. rewrite seq_app, flat_map_app.
    replace (n + (m' - n)) with m' by lia.
    assert (Z : flat_map (eff p) (seq m' (m - m')) = []).
    { assert (F : forall b, In b (seq m' (m - m')) -> eff p b = []).
      { intros b I. apply in_seq in I. unfold eff. rewrite C; [reflexivity|lia|lia]. }
      revert F. generalize (seq m' (m - m')). induction l as [|x l IHl]; intros F; [reflexivity|].
      cbn [flat_map]. rewrite F by (left; reflexivity). apply IHl. intros b I. apply F. right; exact I. }
    rewrite Z, app_nil_r. replace (seq 0 m') with (seq 0 n ++ seq n (m' - n)).
    + rewrite flat_map_app. reflexivity.
    + replace m' with (n + (m' - n)) at 2 by lia. rewrite seq_app. reflexivity.
Qed.
Lemma rclean_file : forall s, rclean nbuckets res skip s -> forall p,
  rp_file (rcomplete nbuckets res skip s p) = flat_map (eff p) (seq 0 nbuckets).
Proof using.
  intros s H p. destruct (rclean_inv s H) as (n & Ln & HS). unfold rcomplete, run_events.
  assert (RS : rstart s = n) by (unfold rstart; rewrite !(proj1 (HS _)); lia).
  rewrite run_file, RS, (proj2 (HS p)), <- flat_map_app. f_equal.
  replace nbuckets with (n + (nbuckets - n)) at 2 by lia. rewrite seq_app. reflexivity.
Qed.
End P.
