(** Proofs about SyncModel. *)
From Coq Require Import List NArith Lia Bool Arith.
From Verif Require Import Base BaseProofs Text SyncModel.
Import ListNotations.

(* ------------------------------------------------------------------ *)
(** * SyncWait *)

Section Sync.
Variable n : nat.
Variable func_ok : nat -> bool.
Notation reach := (wreach n func_ok).

Definition all_true (s : wstate) (r : nat) : Prop := forall j, j < n -> flag_at s r j = Some true.

(** Everybody has sent all flags of rounds below r, and none of these rounds was
    unanimous. *)
Definition past (s : wstate) (r : nat) : Prop :=
  (forall j, j < n -> r <= length (w_flags s j)) /\
  (forall r', r' < r -> exists j, j < n /\ flag_at s r' j = Some false).

Definition inv (s : wstate) : Prop := forall i, i < n ->
  match w_phase s i with
  | WTop r d => length (w_flags s i) = r /\ past s r /\
                (d = true -> func_ok i = true) /\ (d = false -> Forall (fun b => b = false) (w_flags s i))
  | WSent r d => length (w_flags s i) = S r /\ past s r /\ flag_at s r i = Some d /\
                (d = true -> func_ok i = true) /\ (d = false -> Forall (fun b => b = false) (w_flags s i))
  | WRet => exists r, length (w_flags s i) = S r /\ past s r /\ all_true s r /\ func_ok i = true
  | WExc => exists r, past s r /\
       ((length (w_flags s i) = r /\ func_ok i = false /\ Forall (fun b => b = false) (w_flags s i)) \/
        (length (w_flags s i) = S r /\ exists j, j < n /\ w_phase s j = WExc /\ flag_at s r j = None)) /\
       exists k, k < n /\ func_ok k = false
  end.

Lemma flag_set : forall s i ph b r j,
  flag_at (w_set s i ph (w_flags s i ++ [b])) r j =
  if Nat.eqb j i then (if Nat.eqb r (length (w_flags s i)) then Some b else flag_at s r j) else flag_at s r j.
Proof.
  intros. unfold flag_at, w_set. cbn [w_flags]. destruct (Nat.eqb_spec j i); [subst|reflexivity].
  destruct (Nat.eqb_spec r (length (w_flags s i))).
  - subst. rewrite nth_error_app2, Nat.sub_diag by lia. reflexivity.
  - destruct (Nat.lt_ge_cases r (length (w_flags s i))).
    + rewrite nth_error_app1 by lia. reflexivity.
    + rewrite !(proj2 (nth_error_None _ _)); auto; rewrite ?app_length; cbn [length]; lia.
Qed.

Lemma flag_same : forall s i ph r j, flag_at (w_set s i ph (w_flags s i)) r j = flag_at s r j.
Proof. intros. unfold flag_at, w_set. cbn [w_flags]. destruct (Nat.eqb_spec j i); subst; auto. Qed.

Lemma flag_some : forall s r j, flag_at s r j <> None <-> r < length (w_flags s j).
Proof. intros. unfold flag_at. apply nth_error_Some. Qed.

(** Flags only grow. *)
Definition grows (s s' : wstate) : Prop :=
  (forall j, exists l, w_flags s' j = w_flags s j ++ l) /\
  (forall r j b, flag_at s r j = Some b -> flag_at s' r j = Some b).

Lemma grows_send : forall s i ph b, grows s (w_set s i ph (w_flags s i ++ [b])).
Proof.
  intros. split.
  - intros j. unfold w_set. cbn [w_flags]. destruct (Nat.eqb_spec j i); subst; eauto.
    exists []. rewrite app_nil_r. reflexivity.
  - intros r j c H. rewrite flag_set. destruct (Nat.eqb_spec j i); auto. subst.
    destruct (Nat.eqb_spec r (length (w_flags s i))); auto.
    exfalso. assert (flag_at s r i <> None) by congruence. rewrite flag_some in *. lia.
Qed.

Lemma grows_same : forall s i ph, grows s (w_set s i ph (w_flags s i)).
Proof.
  intros. split.
  - intros j. exists []. rewrite app_nil_r. unfold w_set. cbn [w_flags]. destruct (Nat.eqb_spec j i); subst; auto.
  - intros. rewrite flag_same. auto.
Qed.

Lemma past_grows : forall s s' r, grows s s' -> past s r -> past s' r.
Proof.
  intros s s' r [G1 G2] [P1 P2]. split.
  - intros j Hj. destruct (G1 j) as [l ->]. rewrite app_length. specialize (P1 j Hj). lia.
  - intros r' Hr. destruct (P2 r' Hr) as (j & Hj & E). exists j. auto.
Qed.

Lemma all_true_grows : forall s s' r, grows s s' -> all_true s r -> all_true s' r.
Proof. intros s s' r [_ G] H j Hj. apply G. auto. Qed.

(** A party that has left never sends again. *)
Lemma exc_kept : forall s s' i ph fl, s' = w_set s i ph fl -> w_phase s i <> WExc ->
  forall j, w_phase s j = WExc -> w_phase s' j = WExc /\ forall r, flag_at s' r j = flag_at s r j.
Proof.
  intros s s' i ph fl -> Hi j Hj. assert (j <> i) by congruence.
  unfold flag_at, w_set. cbn [w_phase w_flags]. destruct (Nat.eqb_spec j i); [congruence|auto].
Qed.

(** Invariant of the other parties is kept by a step of i. *)
Lemma keep_other : forall s s' i ph fl, s' = w_set s i ph fl -> grows s s' -> w_phase s i <> WExc ->
  forall j, j < n -> j <> i ->
  match w_phase s j with
  | WTop r d => length (w_flags s j) = r /\ past s r /\
                (d = true -> func_ok j = true) /\ (d = false -> Forall (fun b => b = false) (w_flags s j))
  | WSent r d => length (w_flags s j) = S r /\ past s r /\ flag_at s r j = Some d /\
                (d = true -> func_ok j = true) /\ (d = false -> Forall (fun b => b = false) (w_flags s j))
  | WRet => exists r, length (w_flags s j) = S r /\ past s r /\ all_true s r /\ func_ok j = true
  | WExc => exists r, past s r /\
       ((length (w_flags s j) = r /\ func_ok j = false /\ Forall (fun b => b = false) (w_flags s j)) \/
        (length (w_flags s j) = S r /\ exists k, k < n /\ w_phase s k = WExc /\ flag_at s r k = None)) /\
       exists k, k < n /\ func_ok k = false
  end ->
  match w_phase s' j with
  | WTop r d => length (w_flags s' j) = r /\ past s' r /\
                (d = true -> func_ok j = true) /\ (d = false -> Forall (fun b => b = false) (w_flags s' j))
  | WSent r d => length (w_flags s' j) = S r /\ past s' r /\ flag_at s' r j = Some d /\
                (d = true -> func_ok j = true) /\ (d = false -> Forall (fun b => b = false) (w_flags s' j))
  | WRet => exists r, length (w_flags s' j) = S r /\ past s' r /\ all_true s' r /\ func_ok j = true
  | WExc => exists r, past s' r /\
       ((length (w_flags s' j) = r /\ func_ok j = false /\ Forall (fun b => b = false) (w_flags s' j)) \/
        (length (w_flags s' j) = S r /\ exists k, k < n /\ w_phase s' k = WExc /\ flag_at s' r k = None)) /\
       exists k, k < n /\ func_ok k = false
  end.
Proof.
  intros s s' i ph fl E G Hi j Hj Hji H.
  assert (Ep : w_phase s' j = w_phase s j) by (subst s'; unfold w_set; cbn [w_phase]; destruct (Nat.eqb_spec j i); congruence).
  assert (Ef : w_flags s' j = w_flags s j) by (subst s'; unfold w_set; cbn [w_flags]; destruct (Nat.eqb_spec j i); congruence).
  rewrite Ep, Ef. destruct (w_phase s j).
  - destruct H as (A & B & C). eauto using past_grows.
  - destruct H as (A & B & C & D). split; auto. split; [eauto using past_grows|]. split; auto.
    apply (proj2 G). auto.
  - destruct H as (r & A & B & C & D). exists r. eauto 6 using past_grows, all_true_grows.
  - destruct H as (r & A & B & C). exists r. split; [eauto using past_grows|]. split; auto.
    destruct B as [B|(B & k & K1 & K2 & K3)]; [left; auto|]. right. split; auto. exists k.
    destruct (exc_kept _ _ _ _ _ E Hi k K2) as [X Y]. rewrite Y. auto.
Qed.

Lemma w_set_phase : forall s i ph fl, w_phase (w_set s i ph fl) i = ph.
Proof. intros. unfold w_set. cbn [w_phase]. rewrite Nat.eqb_refl. reflexivity. Qed.
Lemma w_set_flags : forall s i ph fl, w_flags (w_set s i ph fl) i = fl.
Proof. intros. unfold w_set. cbn [w_flags]. rewrite Nat.eqb_refl. reflexivity. Qed.

Lemma inv_step : forall s s', inv s -> wstep n func_ok s s' -> inv s'.
Proof.
  intros s s' I St. inversion St; subst; clear St.
  - (* not ready *)
    pose proof (grows_send s i (WSent r false) false) as G. intros j Hj.
    destruct (Nat.eq_dec j i) as [->|Hji].
    2: { eapply keep_other; eauto; [congruence|]. exact (I j Hj). }
    specialize (I i Hj). rewrite H0 in I. destruct I as (A & B & C & D).
    rewrite w_set_phase, w_set_flags, app_length. split; [cbn [length]; lia|]. split; [eauto using past_grows|].
    split; [rewrite flag_set, Nat.eqb_refl, A, Nat.eqb_refl; reflexivity|]. split; [discriminate|].
    intros _. apply Forall_app. split; auto.
  - (* ready *)
    pose proof (grows_send s i (WSent r true) true) as G. intros j Hj.
    destruct (Nat.eq_dec j i) as [->|Hji].
    2: { eapply keep_other; eauto; [congruence|]. exact (I j Hj). }
    specialize (I i Hj). rewrite H0 in I. destruct I as (A & B & C & D).
    rewrite w_set_phase, w_set_flags, app_length. split; [cbn [length]; lia|]. split; [eauto using past_grows|].
    split; [rewrite flag_set, Nat.eqb_refl, A, Nat.eqb_refl; reflexivity|]. split; [auto|discriminate].
  - (* exception *)
    pose proof (grows_same s i WExc) as G. intros j Hj.
    destruct (Nat.eq_dec j i) as [->|Hji].
    2: { eapply keep_other; eauto; [congruence|]. exact (I j Hj). }
    specialize (I i Hj). rewrite H0 in I. destruct I as (A & B & C & D).
    rewrite w_set_phase, w_set_flags. exists r. split; [eauto using past_grows|]. split; eauto 6.
  - (* again *)
    pose proof (grows_send s i (WSent r true) true) as G. intros j Hj.
    destruct (Nat.eq_dec j i) as [->|Hji].
    2: { eapply keep_other; eauto; [congruence|]. exact (I j Hj). }
    specialize (I i Hj). rewrite H0 in I. destruct I as (A & B & C & D).
    rewrite w_set_phase, w_set_flags, app_length. split; [cbn [length]; lia|]. split; [eauto using past_grows|].
    split; [rewrite flag_set, Nat.eqb_refl, A, Nat.eqb_refl; reflexivity|]. split; [auto|discriminate].
  - (* break *)
    pose proof (grows_same s i WRet) as G. intros j Hj.
    destruct (Nat.eq_dec j i) as [->|Hji].
    2: { eapply keep_other; eauto; [congruence|]. exact (I j Hj). }
    specialize (I i Hj). rewrite H0 in I. destruct I as (A & B & C & D & E).
    rewrite w_set_phase, w_set_flags. exists r. split; auto. split; [eauto using past_grows|].
    split; [intros k Hk; rewrite flag_same; auto|].
    apply D. specialize (H1 i Hj). congruence.
  - (* next *)
    pose proof (grows_same s i (WTop (S r) d)) as G. intros j Hj.
    destruct (Nat.eq_dec j i) as [->|Hji].
    2: { eapply keep_other; eauto; [congruence|]. exact (I j Hj). }
    specialize (I i Hj). rewrite H0 in I. destruct I as (A & B & C & D & E).
    rewrite w_set_phase, w_set_flags. split; auto. split.
    + apply (past_grows _ _ _ G). destruct B as [B1 B2]. split.
      * intros k Hk. specialize (H1 k Hk). rewrite flag_some in H1. lia.
      * intros r' Hr. destruct (Nat.eq_dec r' r); [subst; auto|apply B2; lia].
    + split; auto.
  - (* lost *)
    pose proof (grows_same s i WExc) as G. intros k Hk.
    pose proof (I j H1) as Ij. rewrite H2 in Ij. destruct Ij as (_ & _ & _ & Bad).
    destruct (Nat.eq_dec k i) as [->|Hki].
    2: { eapply keep_other; eauto; [congruence|]. exact (I k Hk). }
    specialize (I i Hk). rewrite H0 in I. destruct I as (A & B & C & D & E).
    rewrite w_set_phase, w_set_flags. exists r. split; [eauto using past_grows|]. split; [|exact Bad].
    right. split; auto. exists j. split; auto. rewrite flag_same. split; auto.
    unfold w_set. cbn [w_phase]. destruct (Nat.eqb_spec j i); auto.
Qed.

Lemma inv_reach : forall s, reach s -> inv s.
Proof.
  induction 1.
  - intros i Hi. cbn. split; auto. split; [|split; [discriminate|constructor]].
    split; [cbn; lia|]. intros; lia.
  - eauto using inv_step.
Qed.

(** Once a round is unanimous, every party is in it or has returned. *)
Lemma unanimous : forall s r, inv s -> all_true s r -> forall i, i < n ->
  (w_phase s i = WRet \/ exists d, w_phase s i = WSent r d).
Proof.
  intros s r I A i Hi. specialize (I i Hi) as Ii.
  assert (Hp : forall r', past s r' -> r' <= r).
  { intros r' [P1 P2]. destruct (Nat.le_gt_cases r' r); auto.
    destruct (P2 r) as (j & Hj & E); [lia|]. rewrite (A j Hj) in E. discriminate. }
  assert (HL : forall j, j < n -> r < length (w_flags s j)).
  { intros j Hj. apply flag_some. rewrite (A j Hj). discriminate. }
  pose proof (HL i Hi) as Li.
  destruct (w_phase s i) as [r' d|r' d| |]; auto.
  - destruct Ii as (L & P & _). apply Hp in P. lia.
  - destruct Ii as (L & P & _). apply Hp in P. assert (r' = r) by lia. subst. eauto.
  - destruct Ii as (r' & P & [(L & F & Fa)|(L & j & Hj & X & Y)] & _).
    + apply Hp in P. lia.
    + apply Hp in P. assert (r' = r) by lia. subst r'. rewrite (A j Hj) in Y. discriminate.
Qed.

(** Nobody returns unless everybody does. *)
Lemma sync_all_or_none : forall s, reach s ->
  (forall i, i < n -> w_phase s i = WRet ->
     (forall j, j < n -> func_ok j = true) /\ forall j, j < n -> w_phase s j <> WExc) /\
  (forall i, i < n -> w_phase s i = WExc -> exists j, j < n /\ func_ok j = false).
Proof.
  intros s R. pose proof (inv_reach _ R) as I. split.
  - intros i Hi E. pose proof (I i Hi) as Ii. rewrite E in Ii. destruct Ii as (r & L & P & A & F).
    assert (U : forall j, j < n -> w_phase s j = WRet \/ exists d, w_phase s j = WSent r d) by (intros; eapply unanimous; eauto).
    split; intros j Hj.
    + pose proof (I j Hj) as Ij. destruct (U j Hj) as [E'|[d E']]; rewrite E' in Ij.
      * destruct Ij as (_ & _ & _ & _ & X). exact X.
      * destruct Ij as (_ & _ & X & Y & _). apply Y. rewrite (A j Hj) in X. congruence.
    + destruct (U j Hj) as [E'|[d E']]; congruence.
  - intros i Hi E. pose proof (I i Hi) as Ii. rewrite E in Ii. destruct Ii as (_ & _ & _ & X). exact X.
Qed.

Lemma sync_end : forall s, reach s -> w_over n s ->
  ((forall i, i < n -> w_phase s i = WRet /\ func_ok i = true) \/ (forall i, i < n -> w_phase s i = WExc)).
Proof.
  intros s R O. destruct (sync_all_or_none s R) as [A B].
  destruct (Nat.eq_dec n 0) as [Z|Z]; [left; intros; lia|].
  assert (Hd : (exists i, i < n /\ w_phase s i = WRet) \/ forall i, i < n -> w_phase s i = WExc).
  { clear A B R Z. induction n as [|m IH]; [right; intros; lia|].
    destruct IH as [(i & Hi & E)|H].
    - intros i Hi. apply O. lia.
    - left. exists i. split; [lia|auto].
    - destruct (O m) as [E|E]; [lia|left; exists m; auto|].
      right. intros i Hi. destruct (Nat.eq_dec i m); [subst; auto|apply H; lia]. }
  destruct Hd as [(i & Hi & E)|H]; [left|right; auto].
  destruct (A i Hi E) as [F N]. intros j Hj. split; [|auto].
  destruct (O j Hj) as [?|X]; auto. exfalso. eapply N; eauto.
Qed.

(** Choose among finitely many parties. *)
Lemma pick_party : forall (P : nat -> bool) m,
  (exists i, i < m /\ P i = true) \/ (forall i, i < m -> P i = false).
Proof.
  intros P m. induction m as [|m [(i & Hi & E)|H]]; [right; intros; lia|left; exists i; split; [lia|auto]|].
  destruct (P m) eqn:E; [left; exists m; split; [lia|auto]|].
  right. intros i Hi. destruct (Nat.eq_dec i m); [subst; auto|apply H; lia].
Qed.

(** Party in AllGather with the smallest round. *)
Lemma min_round : forall s, (forall i, i < n -> match w_phase s i with WTop _ _ => False | _ => True end) ->
  (exists i r d, i < n /\ w_phase s i = WSent r d /\
     forall j r' d', j < n -> w_phase s j = WSent r' d' -> r <= r') \/ w_over n s.
Proof.
  intros s. generalize n as m. induction m as [|m IH]; intros H; [right; intros i Hi; lia|].
  destruct IH as [(i & r & d & Hi & E & M)|O]; [intros; apply H; lia| |].
  - assert (Hm := H m (Nat.lt_succ_diag_r m)). destruct (w_phase s m) as [|r' d'| |] eqn:Em; [contradiction| | |].
    + destruct (Nat.le_gt_cases r r').
      * left. exists i, r, d. split; [lia|]. split; auto. intros j r2 d2 Hj Ej.
        destruct (Nat.eq_dec j m); [subst j; assert (r2 = r') by congruence; lia|]. apply (M j r2 d2); auto; lia.
      * left. exists m, r', d'. split; [lia|]. split; auto. intros j r2 d2 Hj Ej.
        destruct (Nat.eq_dec j m); [subst j; assert (r2 = r') by congruence; lia|].
        assert (r <= r2) by (apply (M j r2 d2); auto; lia). lia.
    + left. exists i, r, d. split; [lia|]. split; auto. intros j r2 d2 Hj Ej.
      destruct (Nat.eq_dec j m); [subst j; congruence|]. apply (M j r2 d2); auto; lia.
    + left. exists i, r, d. split; [lia|]. split; auto. intros j r2 d2 Hj Ej.
      destruct (Nat.eq_dec j m); [subst j; congruence|]. apply (M j r2 d2); auto; lia.
  - assert (Hm := H m (Nat.lt_succ_diag_r m)). destruct (w_phase s m) as [|r' d'| |] eqn:Em; [contradiction| | |].
    + left. exists m, r', d'. split; [lia|]. split; auto. intros j r2 d2 Hj Ej.
      destruct (Nat.eq_dec j m); [subst j; assert (r2 = r') by congruence; lia|].
      destruct (O j); [lia| |]; congruence.
    + right. intros i Hi. destruct (Nat.eq_dec i m); [subst; auto|apply O; lia].
    + right. intros i Hi. destruct (Nat.eq_dec i m); [subst; auto|apply O; lia].
Qed.

Lemma sync_progress : forall s, reach s -> w_over n s \/ exists s', wstep n func_ok s s'.
Proof.
  intros s R. pose proof (inv_reach _ R) as I.
  destruct (pick_party (fun i => match w_phase s i with WTop _ _ => true | _ => false end) n) as [(i & Hi & E)|H].
  { right. destruct (w_phase s i) as [r d| | |] eqn:Ei; try discriminate. destruct d.
    - eexists. eapply w_again; eauto.
    - eexists. eapply w_not_ready; eauto. }
  destruct (min_round s) as [(i & r & d & Hi & E & M)|O]; [| |left; auto].
  { intros i Hi. specialize (H i Hi). destruct (w_phase s i); auto. discriminate. }
  right.
  destruct (pick_party (fun j => match flag_at s r j with None => true | _ => false end) n) as [(j & Hj & Ej)|Hs].
  - destruct (flag_at s r j) eqn:Ef; [discriminate|].
    assert (Lj : length (w_flags s j) <= r) by (apply nth_error_None; exact Ef).
    pose proof (I j Hj) as Ij. pose proof (I i Hi) as Ii. rewrite E in Ii. destruct Ii as (Li & Pi & _).
    specialize (H j Hj). destruct (w_phase s j) as [r' d'|r' d'| |] eqn:Ep; try discriminate.
    + destruct Ij as (L & _). specialize (M j r' d' Hj Ep). lia.
    + destruct Ij as (r' & L & P & A & _).
      destruct (unanimous s r' I A i Hi) as [X|[d2 X]]; [congruence|].
      assert (r' = r) by congruence. subst r'. lia.
    + eexists. apply (w_lost n func_ok s i r d j); auto.
  - destruct (pick_party (fun j => match flag_at s r j with Some false => true | _ => false end) n) as [(j & Hj & Ej)|Ht].
    + eexists. apply (w_next n func_ok s i r d); auto.
      * intros k Hk X. specialize (Hs k Hk). rewrite X in Hs. discriminate.
      * exists j. split; auto. destruct (flag_at s r j) as [[|]|]; auto; discriminate.
    + eexists. apply (w_break n func_ok s i r d); auto. intros j Hj. specialize (Hs j Hj). specialize (Ht j Hj).
      destruct (flag_at s r j) as [[|]|]; auto; discriminate.
Qed.

(* ------------------------------------------------------------------ *)
(** ** Bound on the number of steps *)

Definition total (f : nat -> nat) : nat := list_sum (map f (seq 0 n)).

Lemma sum_cons : forall (f : nat -> nat) a l, list_sum (map f (a :: l)) = f a + list_sum (map f l).
Proof. reflexivity. Qed.

Lemma sum_le : forall (f g : nat -> nat) l, (forall i, In i l -> f i <= g i) -> list_sum (map f l) <= list_sum (map g l).
Proof.
  induction l as [|a l IH]; intros H; auto. rewrite !sum_cons. pose proof (H a (or_introl eq_refl)).
  assert (list_sum (map f l) <= list_sum (map g l)) by (apply IH; intros; apply H; right; auto). lia.
Qed.

Lemma sum_lt : forall (f g : nat -> nat) l i, (forall j, In j l -> f j <= g j) -> In i l -> f i < g i ->
  list_sum (map f l) < list_sum (map g l).
Proof.
  induction l as [|a l IH]; intros i H Hi Hl; [destruct Hi|]. rewrite !sum_cons.
  pose proof (H a (or_introl eq_refl)).
  assert (Hr : forall j, In j l -> f j <= g j) by (intros; apply H; right; auto).
  destruct Hi as [->|Hi].
  - apply sum_le in Hr. lia.
  - specialize (IH i Hr Hi Hl). lia.
Qed.

Lemma total_upd : forall (f g : nat -> nat) i, i < n -> (forall j, j <> i -> g j = f j) ->
  forall c, g i = f i + c -> total g = total f + c.
Proof.
  intros f g i Hi Ho c Hc. unfold total.
  assert (X : forall l, NoDup l -> list_sum (map g l) = list_sum (map f l) + (if in_dec Nat.eq_dec i l then c else 0)).
  { induction l as [|a l IH]; intros ND; [reflexivity|]. inversion ND; subst. specialize (IH H2). rewrite !sum_cons, IH.
    destruct (in_dec Nat.eq_dec i l); destruct (in_dec Nat.eq_dec i (a :: l)) as [J|J]; cbn in J.
    - assert (a <> i) by congruence. rewrite Ho by auto. lia.
    - exfalso. apply J. auto.
    - destruct J as [->|J]; [lia|contradiction].
    - assert (a <> i) by (intro; apply J; auto). rewrite Ho by auto. lia. }
  rewrite X by apply seq_NoDup. destruct (in_dec Nat.eq_dec i (seq 0 n)) as [|J]; auto.
  exfalso. apply J. apply in_seq. lia.
Qed.

Definition nfalse (l : list bool) : nat := length (filter negb l).

Lemma nfalse_firstn : forall l r, nfalse (firstn r l) <= nfalse (firstn (S r) l).
Proof.
  unfold nfalse. induction l as [|b l IH]; intros r; [rewrite !firstn_nil; auto|].
  destruct r; [cbn; lia|]. rewrite !firstn_cons. cbn [filter]. specialize (IH r).
  destruct (negb b); cbn [length]; lia.
Qed.

Lemma nfalse_firstn_lt : forall l r, nth_error l r = Some false -> nfalse (firstn r l) < nfalse (firstn (S r) l).
Proof.
  unfold nfalse. induction l as [|b l IH]; intros r H; [destruct r; discriminate|].
  destruct r; [cbn in H; injection H as ->; cbn; lia|]. cbn in H. rewrite !firstn_cons. cbn [filter].
  apply IH in H. destruct (negb b); cbn [length] in *; lia.
Qed.

Lemma nfalse_firstn_all : forall l r, nfalse (firstn r l) <= nfalse l.
Proof.
  unfold nfalse. induction l as [|b l IH]; intros r; [rewrite firstn_nil; auto|].
  destruct r; [cbn; lia|]. rewrite firstn_cons. cbn [filter]. specialize (IH r). destruct (negb b); cbn [length]; lia.
Qed.

Lemma past_count : forall s r, past s r -> r <= total (fun j => nfalse (w_flags s j)).
Proof.
  intros s r [_ P].
  assert (X : r <= total (fun j => nfalse (firstn r (w_flags s j)))).
  { induction r as [|r IH]; [lia|].
    assert (r <= total (fun j => nfalse (firstn r (w_flags s j)))) by (apply IH; intros; apply P; lia).
    destruct (P r) as (j & Hj & E); [lia|].
    assert (total (fun j => nfalse (firstn r (w_flags s j))) < total (fun j => nfalse (firstn (S r) (w_flags s j)))).
    { unfold total. apply sum_lt with (i := j).
      - intros. apply nfalse_firstn.
      - apply in_seq. lia.
      - apply nfalse_firstn_lt. exact E. }
    lia. }
  etransitivity; [exact X|]. unfold total. apply sum_le. intros. apply nfalse_firstn_all.
Qed.

Definition cost (s : wstate) (i : nat) : nat :=
  match w_phase s i with
  | WTop r _ => 2 * r
  | WSent r _ => 2 * r + 1
  | _ => 2 * length (w_flags s i) + 1
  end.

Lemma wstepk_step : forall s b s', wstepk n func_ok s b s' -> wstep n func_ok s s'.
Proof. intros s b s' H. inversion H; subst; auto. eapply w_not_ready; eauto. Qed.

Lemma steps_count : forall k m s, wruns n func_ok k m s ->
  reach s /\ total (fun j => nfalse (w_flags s j)) = k /\ m <= total (cost s).
Proof.
  induction 1 as [|k m s s' b R (IR & IF & IC) St].
  - split; [constructor|]. split; [|lia]. unfold total. cbn. induction (seq 0 n); cbn; auto.
  - split; [econstructor; eauto; eapply wstepk_step; eauto|].
    pose proof (inv_reach _ IR) as I.
    assert (nfalse_app : forall l b, nfalse (l ++ [b]) = nfalse l + (if b then 0 else 1)).
    { intros. unfold nfalse. rewrite filter_app, app_length. destruct b0; reflexivity. }
    assert (Hx : exists i, i < n /\ (forall j, j <> i -> w_phase s' j = w_phase s j /\ w_flags s' j = w_flags s j) /\
        cost s i < cost s' i /\ nfalse (w_flags s' i) = nfalse (w_flags s i) + (if b then 1 else 0)).
    { assert (K : forall i ph fl j, j <> i -> w_phase (w_set s i ph fl) j = w_phase s j /\ w_flags (w_set s i ph fl) j = w_flags s j).
      { intros. unfold w_set. cbn [w_phase w_flags]. destruct (Nat.eqb_spec j i); [congruence|auto]. }
      inversion St as [i r Hi E|s2 H Hn]; subst.
      - exists i. split; auto. split; [apply K|]. unfold cost. rewrite w_set_phase, w_set_flags, E, nfalse_app. split; lia.
      - inversion H; subst; match goal with H : ?i < n, E : w_phase s ?i = _ |- context[w_set s ?i _ _] =>
            exists i; split; [exact H|]; split; [apply K|]; unfold cost; rewrite w_set_phase, w_set_flags, E, ?nfalse_app;
            pose proof (I i H) as Ii; rewrite E in Ii; destruct Ii as (LL & _); cbn [negb] end; split; try lia.
        exfalso. apply (Hn i r); auto. }
    destruct Hx as (i & Hi & Ho & Hc & Hf). split.
    + rewrite <- IF. apply total_upd with (i := i); auto. intros j Hj. destruct (Ho j Hj) as [_ ->]. reflexivity.
    + assert (total (cost s) < total (cost s')); [|lia]. unfold total. apply sum_lt with (i := i); auto.
      * intros j _. destruct (Nat.eq_dec j i); [subst; lia|]. unfold cost. destruct (Ho j) as [-> ->]; auto.
      * apply in_seq. lia.
Qed.

Lemma sync_bounded : forall k m s, wruns n func_ok k m s -> m <= n * (2 * k + 3).
Proof.
  intros k m s R. destruct (steps_count _ _ _ R) as (Re & F & C). pose proof (inv_reach _ Re) as I.
  etransitivity; [exact C|]. unfold total.
  assert (X : forall l, (forall i, In i l -> i < n) -> list_sum (map (cost s) l) <= length l * (2 * k + 3)).
  { induction l as [|a l IH]; intros H; [cbn; lia|]. rewrite sum_cons. cbn [length Nat.mul].
    assert (IH' : list_sum (map (cost s) l) <= length l * (2 * k + 3)) by (apply IH; intros; apply H; right; auto).
    cut (cost s a <= 2 * k + 3); [lia|].
    pose proof (I a (H a (or_introl eq_refl))) as Ia. unfold cost. destruct (w_phase s a) as [r d|r d| |].
    - destruct Ia as (_ & P & _). apply past_count in P. lia.
    - destruct Ia as (_ & P & _). apply past_count in P. lia.
    - destruct Ia as (r & L & P & _). apply past_count in P. lia.
    - destruct Ia as (r & P & [(L & _)|(L & _)] & _); apply past_count in P; lia. }
  rewrite <- (seq_length n 0) at 2. apply X. intros i Hi. apply in_seq in Hi. lia.
Qed.

Lemma runs_iff : forall s, reach s <-> exists k m, wruns n func_ok k m s.
Proof.
  intros s. split.
  - induction 1 as [|s s' R (k & m & IH) St]; [exists 0, 0; constructor|].
    assert (D : (exists i r, i < n /\ w_phase s i = WTop r false /\ s' = w_set s i (WSent r false) (w_flags s i ++ [false])) \/
       forall i r, i < n -> w_phase s i = WTop r false -> s' <> w_set s i (WSent r false) (w_flags s i ++ [false])).
    { destruct St as [i r Hi E| i r Hi E F | i r Hi E F| i r Hi E| i r d Hi E F| i r d Hi E F G| i r d j Hi E Hj F G].
      1: left; eauto.
      all: right; intros i' r' Hi' E' X; apply (f_equal (fun s => w_phase s i)) in X; rewrite w_set_phase in X;
        unfold w_set in X; cbn [w_phase] in X; destruct (Nat.eqb_spec i i'); congruence. }
    destruct D as [(i & r & Hi & E & ->)|D].
    + exists (k + 1), (S m). apply (wr_step n func_ok k m s _ true); auto. apply wk_wait; auto.
    + exists (k + 0), (S m). apply (wr_step n func_ok k m s _ false); auto. apply wk_other; auto.
  - intros (k & m & H). apply steps_count in H. tauto.
Qed.
End Sync.

(* ------------------------------------------------------------------ *)
(** * BroadcastResult *)

Lemma pick_rank_none : forall sizes i br, Forall (fun s => s = 0) sizes -> pick_rank sizes i br = Ok br.
Proof.
  induction sizes as [|s l IH]; intros i br H; cbn; auto. inversion H; subst. cbn. auto.
Qed.

Lemma pick_rank_late : forall sizes i br, 0 < br ->
  pick_rank sizes i br = if existsb (Nat.ltb 0) sizes then Throw else Ok br.
Proof.
  induction sizes as [|s l IH]; intros i br H; cbn [pick_rank existsb]; auto.
  destruct (Nat.ltb 0 s); cbn; [destruct (Nat.eqb_spec br 0); [lia|reflexivity]|auto].
Qed.

(** From index i > 0 on with no rank chosen yet. *)
Lemma pick_rank_mid : forall sizes i, 0 < i ->
  pick_rank sizes i 0 =
  match map fst (filter (fun p => Nat.ltb 0 (snd p)) (number i sizes)) with
  | [] => Ok 0
  | [r] => Ok r
  | _ => Throw
  end.
Proof.
  induction sizes as [|s l IH]; intros i H; cbn [pick_rank number filter snd fst map]; auto.
  destruct (Nat.ltb 0 s) eqn:E; cbn [map fst enforce Nat.eqb]; [|apply IH; lia].
  rewrite pick_rank_late by lia.
  assert (X : forall l j, existsb (Nat.ltb 0) l = false <-> map fst (filter (fun p : nat * nat => Nat.ltb 0 (snd p)) (number j l)) = []).
  { induction l0 as [|a l0 IHl]; intros j; cbn [existsb number filter snd map fst]; [tauto|].
    destruct (Nat.ltb 0 a); cbn [orb map]; [split; discriminate|apply IHl]. }
  specialize (X l (S i)). destruct (existsb (Nat.ltb 0) l); destruct (map fst (filter _ (number (S i) l))); auto.
  - destruct X as [_ X]. specialize (X eq_refl). discriminate.
  - destruct X as [X _]. specialize (X eq_refl). discriminate.
Qed.

(** Number of ranks offering something. *)
Definition offering (offers : list (list bytes * dupcnt)) : nat :=
  length (filter (fun o => match fst o with [] => false | _ => true end) offers).

Lemma number_filter_len : forall (l : list nat) i,
  length (filter (fun p => Nat.ltb 0 (snd p)) (number i l)) = length (filter (Nat.ltb 0) l).
Proof.
  induction l as [|a l IH]; intros i; auto. cbn [number filter snd]. destruct (Nat.ltb 0 a); cbn [length]; rewrite IH; auto.
Qed.

Lemma offering_sizes : forall offers,
  length (filter (Nat.ltb 0) (map (fun o : list bytes * dupcnt => length (fst o)) offers)) = offering offers.
Proof.
  induction offers as [|[l d] o IH]; auto. unfold offering in *. cbn [map filter fst].
  destruct l; cbn [length]; [exact IH|]. replace (Nat.ltb 0 (S (length l))) with true by reflexivity.
  cbn [length]. rewrite IH. reflexivity.
Qed.

Lemma pick_rank_throw : forall (o : list bytes * dupcnt) offers,
  pick_rank (map (fun o => length (fst o)) (o :: offers)) 0 0 = Throw <-> 2 <= offering offers.
Proof.
  intros o offers. cbn [map pick_rank].
  assert (E : forall i br, br = 0 -> i = 1 ->
     pick_rank (map (fun o : list bytes * dupcnt => length (fst o)) offers) i br = Throw <-> 2 <= offering offers).
  { intros i br -> ->. rewrite pick_rank_mid by lia. rewrite <- offering_sizes, <- (number_filter_len _ 1).
    rewrite <- (map_length fst). destruct (map fst _) as [|a [|b l]]; cbn [length]; split; intros; try discriminate; try lia; auto. }
  destruct (Nat.ltb 0 (length (fst o))); cbn [enforce Nat.eqb]; apply E; auto.
Qed.

Lemma broadcast_rejects : forall o offers, broadcast_result (o :: offers) = Throw <-> 2 <= offering offers.
Proof.
  intros o offers. rewrite <- (pick_rank_throw o offers). unfold broadcast_result.
  destruct (pick_rank _ 0 0); cbn [bind]; [|tauto|split; discriminate|split; discriminate].
  destruct (Nat.eqb _ 0); split; discriminate.
Qed.

Lemma pick_rank_one : forall pre x post i, Forall (fun s => s = 0) pre -> Forall (fun s => s = 0) post -> 0 < x ->
  pick_rank (pre ++ x :: post) i 0 = Ok (i + length pre).
Proof.
  induction pre as [|a pre IH]; intros x post i Hp Hq Hx; cbn [app pick_rank length].
  - destruct (Nat.ltb_spec 0 x); [|lia]. cbn [enforce Nat.eqb]. rewrite pick_rank_none by auto. f_equal. lia.
  - inversion Hp; subst. cbn [Nat.ltb Nat.leb]. rewrite IH by auto. f_equal. lia.
Qed.

Lemma fold_max_zero : forall l, fold_right Nat.max 0 l = 0 -> Forall (fun s => s = 0) l.
Proof. induction l as [|a l IH]; intros H; constructor; cbn in H; [lia|apply IH; lia]. Qed.

Lemma broadcast_one : forall n m res dup, res <> [] ->
  broadcast_result (repeat ([], []) n ++ (res, dup) :: repeat ([], []) m) = Ok (repeat (res, dup) (n + S m)).
Proof.
  intros n m res dup H. unfold broadcast_result.
  rewrite map_app. cbn [map fst].
  assert (Z : forall k, map (fun o : list bytes * dupcnt => length (fst o)) (repeat ([], []) k) = repeat 0 k)
    by (induction k; cbn; congruence).
  rewrite !Z.
  assert (ZF : forall k, Forall (fun s => s = 0) (repeat 0 k)) by (induction k; cbn; constructor; auto).
  assert (0 < length res) by (destruct res; [congruence|cbn; lia]).
  rewrite pick_rank_one by auto. cbn [bind]. rewrite repeat_length. cbn [Nat.add].
  destruct (Nat.eqb_spec (fold_right Nat.max 0 (repeat 0 n ++ length res :: repeat 0 m)) 0) as [E|_].
  { apply fold_max_zero in E. apply Forall_app in E. destruct E as [_ E]. inversion E. lia. }
  f_equal. rewrite app_nth2 by (rewrite repeat_length; lia). rewrite repeat_length, Nat.sub_diag. cbn [nth].
  rewrite map_app. cbn [map fst].
  assert (R : forall k, map (fun o : list bytes * dupcnt => match fst o with [] => receive_into o (res, dup) | _ :: _ => o end) (repeat ([], []) k) = repeat (res, dup) k)
    by (induction k; cbn; [auto|rewrite IHk; reflexivity]).
  rewrite !R. destruct res as [|r0 res]; [congruence|].
  rewrite repeat_app. reflexivity.
Qed.

Lemma broadcast_none : forall n, broadcast_result (repeat ([], []) n) = Ok (repeat ([], []) n).
Proof.
  intros n. unfold broadcast_result.
  assert (Z : map (fun o : list bytes * dupcnt => length (fst o)) (repeat ([], []) n) = repeat 0 n)
    by (induction n; cbn; congruence).
  rewrite Z, pick_rank_none by (clear Z; induction n; cbn; constructor; auto). cbn [bind].
  replace (fold_right Nat.max 0 (repeat 0 n)) with 0; [reflexivity|]. clear Z. induction n; cbn; auto.
Qed.
