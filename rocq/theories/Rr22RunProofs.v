(** Proofs about the bucket drivers (Rr22RunModel). *)
From Coq Require Import List Arith Bool Lia Permutation.
From Verif Require Import Rr22RunModel Rr22RunSpec.
Import ListNotations.

Lemma done_by_app : forall st a b, done_by st (a ++ b) = done_by st a ++ done_by st b.
Proof. intros st a b. unfold done_by. rewrite filter_app, map_app. reflexivity. Qed.

Lemma done_by_in : forall st l b, In b (done_by st l) <-> In (st, b) l.
Proof.
  intros st l b. unfold done_by. rewrite in_map_iff. split.
  - intros [[st' b'] [E H]]. apply filter_In in H. destruct H as [H1 H2]. simpl in *. subst b'.
    destruct st, st'; simpl in H2; try discriminate; exact H1.
  - intros H. exists (st, b). split; [reflexivity|]. apply filter_In. split; [exact H|].
    destruct st; reflexivity.
Qed.

Lemma snoc_split : forall (A : Type) (l l1 l2 : list A) x y,
  l ++ [x] = l1 ++ y :: l2 -> (l2 = [] /\ l = l1 /\ x = y) \/ (exists l2', l = l1 ++ y :: l2').
Proof.
  intros A l l1 l2 x y H. destruct l2 as [|z l2] using rev_ind.
  - left. apply app_inj_tail in H. destruct H; auto.
  - right. clear IHl2. exists l2. rewrite app_comm_cons, app_assoc in H. apply app_inj_tail in H.
    destruct H; auto.
Qed.

Lemma order_snoc : forall l st b, stages_in_order l ->
  (st = SRun -> In (SPrep, b) l) -> (st = SInt -> In (SRun, b) l) ->
  stages_in_order (l ++ [(st, b)]).
Proof.
  intros l st b [O1 O2] H1 H2. split; intros l1 b' l2 E;
    destruct (snoc_split _ _ _ _ _ _ E) as [[E1 [E2 E3]]|[l2' E1]].
  - injection E3 as -> ->. subst l1. apply H1; reflexivity.
  - eapply O1; eauto.
  - injection E3 as -> ->. subst l1. apply H2; reflexivity.
  - eapply O2; eauto.
Qed.

Definition pushed (p : pthr) : nat := match p with PTop i => i | PPrep i => i | PPush i => i | PDead i => i end.
Definition prepared (p : pthr) : nat := match p with PPush i => S i | _ => pushed p end.
Definition p_max (p : pthr) : nat := match p with PTop i => i | _ => S (pushed p) end.
Definition pushed2 (r : rthr) : nat := match r with RTop i => i | RRun i _ => i | RPush i _ => i | RDead i => i end.
Definition popped (r : rthr) : nat := match r with RTop i => i | _ => S (pushed2 r) end.
Definition ran (r : rthr) : nat := match r with RPush i _ => S i | _ => pushed2 r end.
Definition finished (x : xthr) : nat := match x with XTop i => i | XInt i _ => i | XDead i => i end.
Definition popped2 (x : xthr) : nat := match x with XTop i => i | _ => S (finished x) end.
Definition r_own (r : rthr) : Prop := match r with RRun i b => b = i | RPush i b => b = i | _ => True end.
Definition x_own (x : xthr) : Prop := match x with XInt i b => b = i | _ => True end.

Ltac cnt := cbn [pushed prepared p_max pushed2 popped ran finished popped2 r_own x_own] in *.
Section Proofs.
Variables n start : nat.
Variable throws : bool -> call -> bool.
Variable waits : bool -> call -> bool.
Hypothesis SN : start <= n.

Record inv (s : pstate) : Prop := mk_inv {
  i_r : r_own (s_r s);
  i_x : x_own (s_x s);
  i_1 : start <= finished (s_x s);
  i_2 : popped2 (s_x s) <= pushed2 (s_r s);
  i_3 : popped (s_r s) <= pushed (s_p s);
  i_4 : pushed (s_p s) <= popped (s_r s) + 1;
  i_5 : p_max (s_p s) <= n;
  i_q1 : s_q1 s = seq (popped (s_r s)) (pushed (s_p s) - popped (s_r s));
  i_q2 : s_q2 s = seq (popped2 (s_x s)) (pushed2 (s_r s) - popped2 (s_x s));
  i_lp : done_by SPrep (s_log s) = seq start (prepared (s_p s) - start);
  i_lr : done_by SRun (s_log s) = seq start (ran (s_r s) - start);
  i_lx : done_by SInt (s_log s) = seq start (finished (s_x s) - start);
  i_o : stages_in_order (s_log s) }.

Lemma inv_init : inv (a_init start).
Proof.
  constructor; simpl; try lia; try exact I; rewrite ?Nat.sub_diag; try reflexivity.
  split; intros l1 b l2 E; destruct l1; discriminate E.
Qed.

Lemma seq_snoc : forall a k, seq a (S k) = seq a k ++ [a + k].
Proof. intros a k. rewrite <- (Nat.add_1_r k). apply seq_app. Qed.

Lemma seq_snoc' : forall a i, a <= i -> seq a (S i - a) = seq a (i - a) ++ [i].
Proof.
  intros a i H. replace (S i - a) with (S (i - a)) by lia. rewrite seq_snoc.
  replace (a + (i - a)) with i by lia. reflexivity.
Qed.

Lemma seq_head : forall a k b q, b :: q = seq a k -> b = a /\ k = S (k - 1) /\ q = seq (S a) (k - 1).
Proof.
  intros a k b q H. destruct k as [|k]; [discriminate|]. simpl in H. injection H as -> ->.
  simpl. rewrite Nat.sub_0_r. auto.
Qed.

Lemma log_none : forall st st' b l, st <> st' -> done_by st (l ++ [(st', b)]) = done_by st l.
Proof.
  intros st st' b l H. rewrite done_by_app. destruct st, st'; try contradiction; simpl; rewrite ?app_nil_r; reflexivity.
Qed.
Lemma log_one : forall st b l, done_by st (l ++ [(st, b)]) = done_by st l ++ [b].
Proof. intros st b l. rewrite done_by_app. destruct st; reflexivity. Qed.

Lemma inv_step : forall who peer s s', inv s -> astep n throws waits who peer s s' -> inv s'.
Proof.
  intros who peer s s' I ST. destruct ST; destruct I as [R X H1 H2 H3 H4 H5 Q1 Q2 LP LR LX O];
    cbn [s_p s_r s_x s_q1 s_q2 s_log pushed prepared p_max pushed2 popped ran finished popped2 r_own x_own] in *.
  - constructor; cbn [s_p s_r s_x s_q1 s_q2 s_log pushed prepared p_max]; auto; lia.
  - (* p_return *)
    constructor; cbn [s_p s_r s_x s_q1 s_q2 s_log pushed prepared p_max]; auto.
    + rewrite log_one, LP. rewrite seq_snoc'; [reflexivity|]. destruct r, x; simpl in *; lia.
    + rewrite log_none by discriminate. exact LR.
    + rewrite log_none by discriminate. exact LX.
    + apply order_snoc; auto; discriminate.
  - constructor; cbn [s_p s_r s_x s_q1 s_q2 s_log pushed prepared p_max]; auto.
  - (* p_push *)
    unfold cache_size in H. rewrite Q1, seq_length in H.
    constructor; cbn [s_p s_r s_x s_q1 s_q2 s_log pushed prepared p_max]; auto; try lia.
    rewrite Q1. replace (i - popped r) with 0 by lia. replace (S i - popped r) with 1 by lia.
    simpl. f_equal. lia.
  - (* r_pop *)
    destruct (seq_head _ _ _ _ Q1) as [E1 [E2 E3]]. subst b.
    constructor; cbn [s_p s_r s_x s_q1 s_q2 s_log pushed2 popped ran r_own]; auto; try lia.
    rewrite E3. f_equal. lia.
  - (* r_return *)
    subst b. constructor; cbn [s_p s_r s_x s_q1 s_q2 s_log pushed2 popped ran r_own]; auto.
    + rewrite log_none by discriminate. exact LP.
    + rewrite log_one, LR. rewrite seq_snoc'; [reflexivity|]. destruct x; simpl in *; lia.
    + rewrite log_none by discriminate. exact LX.
    + apply order_snoc; auto; try discriminate. intros _. apply done_by_in. rewrite LP. apply in_seq.
      destruct x, p; cnt; lia.
  - constructor; cbn [s_p s_r s_x s_q1 s_q2 s_log pushed2 popped ran r_own]; auto.
  - (* r_push *)
    subst b. constructor; cbn [s_p s_r s_x s_q1 s_q2 s_log pushed2 popped ran r_own]; auto; try lia.
    rewrite Q2. rewrite <- seq_snoc' by lia. reflexivity.
  - (* x_pop *)
    destruct (seq_head _ _ _ _ Q2) as [E1 [E2 E3]]. subst b.
    constructor; cbn [s_p s_r s_x s_q1 s_q2 s_log popped2 finished x_own]; auto; try lia.
    rewrite E3. f_equal. lia.
  - (* x_return *)
    subst b. constructor; cbn [s_p s_r s_x s_q1 s_q2 s_log popped2 finished x_own]; auto; try lia.
    + rewrite log_none by discriminate. exact LP.
    + rewrite log_none by discriminate. exact LR.
    + rewrite log_one, LX. rewrite seq_snoc'; [reflexivity|]. lia.
    + apply order_snoc; auto; try discriminate. intros _. apply done_by_in. rewrite LR. apply in_seq.
      destruct r; cnt; lia.
  - constructor; cbn [s_p s_r s_x s_q1 s_q2 s_log popped2 finished x_own]; auto.
Qed.

Lemma inv_reach : forall k s, sreach n start throws waits k s -> inv (fst s) /\ inv (snd s).
Proof.
  intros k s R. induction R as [|k s s' R [IA IB] ST].
  - split; apply inv_init.
  - destruct ST as [a b a' ST|a b b' ST]; simpl in *; split; auto; (eapply inv_step; [|exact ST]); assumption.
Qed.

(** ** Length of executions *)
Definition p_cost (p : pthr) : nat :=
  match p with PTop i => 3 * i | PPrep i => 3 * i + 1 | PPush i => 3 * i + 2 | PDead i => 3 * i + 2 end.
Definition r_cost (r : rthr) : nat :=
  match r with RTop i => 3 * i | RRun i _ => 3 * i + 1 | RPush i _ => 3 * i + 2 | RDead i => 3 * i + 2 end.
Definition x_cost (x : xthr) : nat :=
  match x with XTop i => 2 * i | XInt i _ => 2 * i + 1 | XDead i => 2 * i + 2 end.
Definition cost (s : pstate) : nat := p_cost (s_p s) + r_cost (s_r s) + x_cost (s_x s).

Lemma cost_step : forall who peer s s', astep n throws waits who peer s s' -> cost s' = S (cost s).
Proof. intros who peer s s' ST. destruct ST; unfold cost; simpl; lia. Qed.

Lemma cost_reach : forall k s, sreach n start throws waits k s ->
  cost (fst s) + cost (snd s) = 16 * start + k.
Proof.
  intros k s R. induction R as [|k s s' R IH ST].
  - unfold cost. simpl. lia.
  - destruct ST as [a b a' ST|a b b' ST]; simpl in *; apply cost_step in ST; lia.
Qed.

Lemma cost_bound : forall s, inv s -> cost s <= 8 * n.
Proof.
  intros [p r x q1 q2 l] [R X H1 H2 H3 H4 H5 Q1 Q2 LP LR LX O].
  destruct p, r, x; unfold cost; simpl in *; lia.
Qed.

Lemma reach_bound : forall k s, sreach n start throws waits k s -> k <= 16 * (n - start).
Proof.
  intros k s R. pose proof (cost_reach _ _ R) as C. destruct (inv_reach _ _ R) as [IA IB].
  apply cost_bound in IA. apply cost_bound in IB. lia.
Qed.

(** ** A failing Prepare or RunOprf is never reported *)
Lemma dead_hangs : forall k s, sreach n start throws waits k s ->
  forall s0, s0 = fst s \/ s0 = snd s ->
  ((exists i, s_p s0 = PDead i) \/ (exists i, s_r s0 = RDead i)) ->
  (forall i, s_x s0 <> XDead i) ->
  ~ returned n s0.
Proof.
  intros k s R s0 S0 D NX. destruct (inv_reach _ _ R) as [IA IB].
  assert (I : inv s0) by (destruct S0; subst; assumption). clear - I D NX.
  destruct s0 as [p r x q1 q2 l], I as [R X H1 H2 H3 H4 H5 Q1 Q2 LP LR LX O].
  unfold returned. cbn [s_p s_r s_x] in *. intros [HP [HR HX]].
  destruct HX as [->|[i ->]]; [|exfalso; apply (NX i); reflexivity].
  destruct HR as [->|[i ->]]; simpl in *.
  - destruct D as [[i ->]|[i E]]; [simpl in *; lia|discriminate].
  - destruct p; simpl in *; lia.
Qed.

Lemma no_int_throw : (forall w b, throws w (SInt, b) = false) ->
  forall k s, sreach n start throws waits k s ->
  (forall i, s_x (fst s) <> XDead i) /\ (forall i, s_x (snd s) <> XDead i).
Proof.
  intros NT k s R. induction R as [|k s s' R [IA IB] ST].
  - simpl. split; intros; discriminate.
  - destruct ST as [a b a' ST|a b b' ST]; simpl in *; split; auto;
      destruct ST; simpl in *; auto; try (intros; discriminate); try (rewrite NT in H; discriminate).
Qed.

(** ** No failure: no deadlock *)
Section Clean.
Hypothesis NT : forall w c, throws w c = false.

Definition alive (s : pstate) : Prop :=
  (forall i, s_p s <> PDead i) /\ (forall i, s_r s <> RDead i) /\ (forall i, s_x s <> XDead i).

Lemma alive_step : forall who peer s s', alive s -> astep n throws waits who peer s s' -> alive s'.
Proof.
  intros who peer s s' [A1 [A2 A3]] ST.
  destruct ST; unfold alive in *; simpl in *; repeat split; auto; try (intros; discriminate);
    rewrite NT in H; discriminate.
Qed.

Lemma alive_reach : forall k s, sreach n start throws waits k s -> alive (fst s) /\ alive (snd s).
Proof.
  intros k s R. induction R as [|k s s' R [IA IB] ST].
  - split; repeat split; intros; discriminate.
  - destruct ST as [a b a' ST|a b b' ST]; simpl in *; split; auto; (eapply alive_step; [|exact ST]); assumption.
Qed.

(** What the peer has begun, by the counters. *)
Lemma begun_prep : forall s i, inv s -> start <= i -> i < prepared (s_p s) \/ s_p s = PPrep i -> begun s (SPrep, i).
Proof.
  intros s i I L H. destruct H as [H|H].
  - left. apply done_by_in. rewrite (i_lp _ I). apply in_seq. lia.
  - right. left. auto.
Qed.
Lemma begun_run : forall s i, inv s -> start <= i -> i < popped (s_r s) -> (forall j, s_r s <> RDead j) -> begun s (SRun, i).
Proof.
  intros s i I L H ND. destruct (Nat.lt_ge_cases i (ran (s_r s))) as [G|G].
  - left. apply done_by_in. rewrite (i_lr _ I). apply in_seq. lia.
  - right. right. left. pose proof (i_r _ I) as RO.
    destruct (s_r s) as [j|j b|j b|j]; simpl in *; try lia.
    + subst b. exists j. replace i with j by lia. auto.
    + exfalso. apply (ND j). reflexivity.
Qed.
Lemma begun_int : forall s i, inv s -> start <= i -> i < popped2 (s_x s) -> (forall j, s_x s <> XDead j) -> begun s (SInt, i).
Proof.
  intros s i I L H ND. destruct (Nat.lt_ge_cases i (finished (s_x s))) as [G|G].
  - left. apply done_by_in. rewrite (i_lx _ I). apply in_seq. lia.
  - right. right. right. pose proof (i_x _ I) as RO.
    destruct (s_x s) as [j|j b|j]; simpl in *; try lia.
    + subst b. exists j. replace i with j by lia. auto.
    + exfalso. apply (ND j). reflexivity.
Qed.

(** A party without an enabled step: what its threads look like. *)
Definition p_stuck (p : pthr) (r : rthr) (peer : pstate) : Prop :=
  match p with
  | PTop i => i = n
  | PPrep i => ~ begun peer (SPrep, i)
  | PPush i => i = popped r + 1
  | PDead _ => False
  end.
Definition r_stuck (p : pthr) (r : rthr) (peer : pstate) : Prop :=
  match r with
  | RTop i => i = n \/ i = pushed p
  | RRun i b => ~ begun peer (SRun, i)
  | RPush _ _ => False
  | RDead _ => False
  end.
Definition x_stuck (r : rthr) (x : xthr) (peer : pstate) : Prop :=
  match x with
  | XTop i => i = n \/ i = pushed2 r
  | XInt i b => ~ begun peer (SInt, i)
  | XDead _ => False
  end.

Lemma stuck_shape : forall who peer s, inv s -> alive s ->
  (forall s', ~ astep n throws waits who peer s s') ->
  p_stuck (s_p s) (s_r s) peer /\ r_stuck (s_p s) (s_r s) peer /\ x_stuck (s_r s) (s_x s) peer.
Proof.
  intros who peer [p r x q1 q2 l] I [A1 [A2 A3]] ST.
  destruct I as [R X H1 H2 H3 H4 H5 Q1 Q2 LP LR LX O].
  cbn [s_p s_r s_x s_q1 s_q2 s_log] in *. repeat split.
  - destruct p as [i|i|i|i]; simpl in *.
    + destruct (Nat.eq_dec i n) as [E|E]; [exact E|]. exfalso. eapply ST. apply a_p_begin. lia.
    + intros B. eapply ST. apply a_p_return. split; [apply NT|]. intros _. exact B.
    + destruct (Nat.eq_dec i (popped r + 1)) as [E|E]; [exact E|]. exfalso. eapply ST. apply a_p_push.
      rewrite Q1, seq_length. unfold cache_size. lia.
    + apply (A1 i). reflexivity.
  - destruct r as [i|i b|i b|i]; simpl in *.
    + destruct (Nat.eq_dec i n) as [E|E]; [left; exact E|].
      destruct (Nat.eq_dec i (pushed p)) as [F|F]; [right; exact F|]. exfalso.
      destruct (pushed p - i) as [|k] eqn:K; [lia|]. subst q1. eapply ST. simpl. apply a_r_pop.
      destruct p; simpl in *; lia.
    + subst b. intros B. eapply ST. apply a_r_return. split; [apply NT|]. intros _. exact B.
    + eapply ST. apply a_r_push.
    + apply (A2 i). reflexivity.
  - destruct x as [i|i b|i]; simpl in *.
    + destruct (Nat.eq_dec i n) as [E|E]; [left; exact E|].
      destruct (Nat.eq_dec i (pushed2 r)) as [F|F]; [right; exact F|]. exfalso.
      destruct (pushed2 r - i) as [|k] eqn:K; [lia|]. subst q2. eapply ST. simpl. apply a_x_pop.
      destruct r, p; simpl in *; lia.
    + subst b. intros B. eapply ST. apply a_x_return. split; [apply NT|]. intros _. exact B.
    + apply (A3 i). reflexivity.
Qed.

(** The intersection thread of a stuck pair is not waiting for the peer; nor is the
    run thread; nor the prepare thread. *)
Lemma x_not_waiting : forall a b i c, inv a -> inv b -> alive a -> alive b ->
  p_stuck (s_p b) (s_r b) a -> r_stuck (s_p b) (s_r b) a -> x_stuck (s_r b) (s_x b) a ->
  s_x a = XInt i c -> begun b (SInt, i).
Proof.
  intros a b i c Ia Ib [Aa1 [Aa2 Aa3]] [Ab1 [Ab2 Ab3]] SP SR SX EX.
  assert (La : start <= i) by (pose proof (i_1 _ Ia); rewrite EX in H; exact H).
  destruct (Nat.lt_ge_cases i (popped2 (s_x b))) as [G|G].
  - apply begun_int; auto.
  - exfalso. pose proof (i_1 _ Ib) as B1. pose proof (i_2 _ Ib) as B2. pose proof (i_3 _ Ib) as B3.
    pose proof (i_5 _ Ib) as B5. pose proof (i_2 _ Ia) as A2. pose proof (i_3 _ Ia) as A3.
    pose proof (i_5 _ Ia) as A5. rewrite EX in A2. simpl in A2.
    destruct (s_x b) as [j|j e|j]; simpl in *; try contradiction;
      [|apply SX; apply begun_int; auto; rewrite EX; simpl; lia].
    destruct SX as [E|E]; [destruct (s_p a); destruct (s_r a); simpl in *; lia|].
    destruct (s_r b) as [m|m e|m e|m]; simpl in *; try contradiction.
    + subst m. destruct SR as [E|E]; [destruct (s_p a); destruct (s_r a); simpl in *; lia|].
      destruct (s_p b) as [m|m|m|m]; simpl in *; try contradiction.
      * destruct (s_p a), (s_r a); simpl in *; lia.
      * apply SP. apply begun_prep; auto; [lia|]. left.
        destruct (s_p a), (s_r a); simpl in *; lia.
      * lia.
    + apply SR. apply begun_run; auto; [lia|]. destruct (s_r a); simpl in *; lia.
Qed.

Lemma r_not_waiting : forall a b i c, inv a -> inv b -> alive a -> alive b ->
  p_stuck (s_p b) (s_r b) a -> r_stuck (s_p b) (s_r b) a ->
  s_r a = RRun i c -> begun b (SRun, i).
Proof.
  intros a b i c Ia Ib [Aa1 [Aa2 Aa3]] [Ab1 [Ab2 Ab3]] SP SR ER.
  pose proof (i_1 _ Ia) as A1. pose proof (i_2 _ Ia) as A2. pose proof (i_3 _ Ia) as A3.
  pose proof (i_5 _ Ia) as A5. rewrite ER in A2, A3. simpl in A2, A3.
  assert (La : start <= i) by (destruct (s_x a); simpl in *; lia).
  destruct (Nat.lt_ge_cases i (popped (s_r b))) as [G|G].
  - apply begun_run; auto.
  - exfalso. pose proof (i_1 _ Ib) as B1. pose proof (i_2 _ Ib) as B2. pose proof (i_3 _ Ib) as B3.
    pose proof (i_5 _ Ib) as B5.
    destruct (s_r b) as [m|m e|m e|m]; simpl in *; try contradiction.
    + destruct SR as [E|E]; [destruct (s_p a); simpl in *; lia|].
      destruct (s_p b) as [j|j|j|j]; simpl in *; try contradiction.
      * destruct (s_p a); simpl in *; lia.
      * apply SP. apply begun_prep; auto; [destruct (s_x b); simpl in *; lia|]. left.
        destruct (s_p a); simpl in *; lia.
      * lia.
    + apply SR. apply begun_run; auto; [destruct (s_x b); simpl in *; lia|]. rewrite ER. simpl. lia.
Qed.

Lemma p_not_waiting : forall a b i, inv a -> inv b -> alive a -> alive b ->
  p_stuck (s_p b) (s_r b) a -> r_stuck (s_p b) (s_r b) a ->
  (forall j c, s_r b = RRun j c -> begun a (SRun, j)) ->
  s_p a = PPrep i -> begun b (SPrep, i).
Proof.
  intros a b i Ia Ib [Aa1 [Aa2 Aa3]] [Ab1 [Ab2 Ab3]] SP SR NR EP.
  pose proof (i_1 _ Ia) as A1. pose proof (i_2 _ Ia) as A2. pose proof (i_3 _ Ia) as A3.
  pose proof (i_5 _ Ia) as A5. rewrite EP in A3, A5. simpl in A3, A5.
  assert (La : start <= i) by (destruct (s_x a), (s_r a); simpl in *; lia).
  pose proof (i_1 _ Ib) as B1. pose proof (i_2 _ Ib) as B2. pose proof (i_3 _ Ib) as B3.
  pose proof (i_5 _ Ib) as B5.
  destruct (s_p b) as [j|j|j|j] eqn:EB; simpl in *; try contradiction.
  - apply begun_prep; auto. left. rewrite EB. simpl. lia.
  - destruct (Nat.lt_trichotomy i j) as [L|[L|L]].
    + apply begun_prep; auto. left. rewrite EB. simpl. lia.
    + subst j. apply begun_prep; auto.
    + exfalso. apply SP. apply begun_prep; auto.
      * destruct (s_x b), (s_r b); simpl in *; lia.
      * left. rewrite EP. simpl. lia.
  - exfalso. destruct (s_r b) as [m|m e|m e|m] eqn:ERB; simpl in *; try contradiction.
    + lia.
    + apply SR. apply NR with e. reflexivity.
Qed.

Lemma stuck_done : forall k s, sreach n start throws waits k s ->
  (forall s', ~ sstep n throws waits s s') ->
  (s_p (fst s) = PTop n /\ s_r (fst s) = RTop n /\ s_x (fst s) = XTop n) /\
  (s_p (snd s) = PTop n /\ s_r (snd s) = RTop n /\ s_x (snd s) = XTop n).
Proof.
  intros k [a b] R ST. destruct (inv_reach _ _ R) as [Ia Ib]. destruct (alive_reach _ _ R) as [Aa Ab].
  simpl in *.
  destruct (stuck_shape true b a Ia Aa) as [Pa [Ra Xa]].
  { intros a' H. eapply ST. apply s_left. exact H. }
  destruct (stuck_shape false a b Ib Ab) as [Pb [Rb Xb]].
  { intros b' H. eapply ST. apply s_right. exact H. }
  assert (NRa : forall i c, s_r a = RRun i c -> begun b (SRun, i)) by (intros i c E; apply (r_not_waiting a b i c); assumption).
  assert (NRb : forall i c, s_r b = RRun i c -> begun a (SRun, i)) by (intros i c E; apply (r_not_waiting b a i c); assumption).
  assert (NPa : forall i, s_p a = PPrep i -> begun b (SPrep, i)) by (intros i E; apply (p_not_waiting a b i); assumption).
  assert (NPb : forall i, s_p b = PPrep i -> begun a (SPrep, i)) by (intros i E; apply (p_not_waiting b a i); assumption).
  assert (NXa : forall i c, s_x a = XInt i c -> begun b (SInt, i)) by (intros i c E; apply (x_not_waiting a b i c); assumption).
  assert (NXb : forall i c, s_x b = XInt i c -> begun a (SInt, i)) by (intros i c E; apply (x_not_waiting b a i c); assumption).
  assert (F : forall u v, inv u -> p_stuck (s_p u) (s_r u) v -> r_stuck (s_p u) (s_r u) v ->
    x_stuck (s_r u) (s_x u) v ->
    (forall i, s_p u = PPrep i -> begun v (SPrep, i)) ->
    (forall i c, s_r u = RRun i c -> begun v (SRun, i)) ->
    (forall i c, s_x u = XInt i c -> begun v (SInt, i)) ->
    s_p u = PTop n /\ s_r u = RTop n /\ s_x u = XTop n).
  { clear. intros u v I SP SR SX NP NR NX. destruct I as [R X H1 H2 H3 H4 H5 _ _ _ _ _ _].
    destruct (s_p u) as [i|i|i|i]; simpl in *; try contradiction.
    - subst i. split; [reflexivity|].
      destruct (s_r u) as [j|j e|j e|j]; simpl in *; try contradiction.
      + assert (j = n) by lia. subst j. split; [reflexivity|].
        destruct (s_x u) as [m|m e|m]; simpl in *; try contradiction.
        * f_equal. lia.
        * exfalso. apply SX. eapply NX. reflexivity.
      + exfalso. apply SR. eapply NR. reflexivity.
    - exfalso. apply SP. apply NP. reflexivity.
    - exfalso. destruct (s_r u) as [j|j e|j e|j]; simpl in *; try contradiction.
      + lia.
      + apply SR. eapply NR. reflexivity. }
  split; [apply (F a b)|apply (F b a)]; assumption.
Qed.

Lemma done_all : forall s, inv s -> s_p s = PTop n -> s_r s = RTop n -> s_x s = XTop n ->
  all_buckets_done start n (s_log s).
Proof.
  intros s I P R X. split; [apply (i_o _ I)|]. intros [].
  - rewrite (i_lp _ I), P. reflexivity.
  - rewrite (i_lr _ I), R. reflexivity.
  - rewrite (i_lx _ I), X. reflexivity.
Qed.
End Clean.
End Proofs.

(** ** Run *)
Lemma run_bucket_done : forall st b, done_by st (run_bucket b) = [b].
Proof. intros [] b; reflexivity. Qed.
Lemma flat_done : forall st l, done_by st (flat_map run_bucket l) = l.
Proof.
  intros st l. induction l as [|b l IH]; [reflexivity|]. cbn [flat_map].
  rewrite done_by_app, run_bucket_done, IH. reflexivity.
Qed.

Lemma flat_order : forall l, stages_in_order (flat_map run_bucket l).
Proof.
  intros l. induction l as [|b l IH] using rev_ind.
  - split; intros l1 b l2 E; destruct l1; discriminate E.
  - rewrite flat_map_app. cbn [flat_map]. rewrite app_nil_r. unfold run_bucket at 2.
    change ([(SPrep, b); (SRun, b); (SInt, b)]) with ([(SPrep, b)] ++ [(SRun, b)] ++ [(SInt, b)]).
    rewrite !app_assoc. apply order_snoc; [apply order_snoc; [apply order_snoc; [exact IH| |]| |]| |];
      try discriminate; intros _; apply in_or_app; right; left; reflexivity.
Qed.

Lemma run_seq_done : forall start n, all_buckets_done start n (run_seq start n).
Proof.
  intros start n. split; [apply flat_order|]. intros st. unfold run_seq. apply flat_done.
Qed.

(** ** ParallelRun *)
Lemma par_partition : forall p l, 0 < p ->
  Permutation (flat_map (fun t => filter (fun j => Nat.eqb (j mod p) t) l) (seq 0 p)) l.
Proof.
  intros p l P. induction l as [|j l IH].
  - replace (flat_map _ _) with (@nil nat); [constructor|].
    induction (seq 0 p); [reflexivity|exact IHl].
  - assert (IN : In (j mod p) (seq 0 p)) by (apply in_seq; pose proof (Nat.mod_upper_bound j p); lia).
    assert (ND : NoDup (seq 0 p)) by apply seq_NoDup.
    apply in_split in IN. destruct IN as [l1 [l2 E]]. rewrite E in *.
    rewrite flat_map_app in *. cbn [flat_map filter] in *. rewrite Nat.eqb_refl in *.
    assert (NI : ~ In (j mod p) l1 /\ ~ In (j mod p) l2).
    { apply NoDup_remove_2 in ND. split; intros H; apply ND; apply in_or_app; auto. }
    assert (FM : forall ts, ~ In (j mod p) ts ->
      flat_map (fun t => if j mod p =? t then j :: filter (fun k => k mod p =? t) l else filter (fun k => k mod p =? t) l) ts
      = flat_map (fun t => filter (fun k => k mod p =? t) l) ts).
    { clear. intros ts. induction ts as [|t ts IH]; intros NI; [reflexivity|]. cbn [flat_map].
      rewrite IH by (intros H; apply NI; right; exact H).
      destruct (Nat.eqb_spec (j mod p) t) as [F|F]; [|reflexivity]. exfalso. apply NI. left. auto. }
    destruct NI as [N1 N2]. rewrite (FM l1 N1), (FM l2 N2).
    cbn [app]; rewrite <- Permutation_middle. constructor. exact IH.
Qed.

Lemma par_thread_done : forall st n p t, done_by st (par_thread n p t) = filter (fun j => Nat.eqb (j mod p) t) (seq 0 n).
Proof. intros. apply flat_done. Qed.

Lemma done_by_concat : forall st ls, done_by st (concat ls) = concat (map (done_by st) ls).
Proof.
  intros st ls. induction ls as [|l ls IH]; [reflexivity|]. simpl. rewrite done_by_app, IH. reflexivity.
Qed.

Lemma parallel_from_zero : forall st n p, 0 < p ->
  Permutation (concat (map (done_by st) (parallel_run 0 n p))) (seq 0 n).
Proof.
  intros st n p P. unfold parallel_run. destruct (Nat.leb n p).
  - cbn [map concat]. rewrite app_nil_r. rewrite (proj2 (run_seq_done 0 n)), Nat.sub_0_r. apply Permutation_refl.
  - rewrite map_map. rewrite (map_ext _ _ (fun t => par_thread_done st n p t)).
    rewrite <- flat_map_concat_map. apply par_partition. exact P.
Qed.
