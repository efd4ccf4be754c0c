From Coq Require Import List NArith Lia Bool Permutation Sorted Arith.
From Verif Require Import Base BaseProofs IndexModel IndexSpec.
Import ListNotations.

Definition rowf (p : N * N) : fline := FRow (fst p) (snd p).
Definition file_of (d : option (list (N * N))) : option (list fline) :=
  option_map (fun x => FHead :: map rowf x) d.

Definition wrel (bound : nat) (w : wst) (t : bool * list (N * N) * nat) : Prop :=
  let '(o, p, n) := t in
  w_closed w = negb o /\ combine (w_ib w) (w_cb w) = p /\ length (w_ib w) = length (w_cb w) /\
  w_cache w = N.of_nat (length p) /\ w_cnt w = N.of_nat n /\
  length p <= n /\ (N.of_nat (n + bound) < max64)%N /\ (o = false -> p = []).

Definition rel (bound : nat) (st : ist) (l : log) : Prop :=
  i_file st = file_of (durable l) /\
  match i_wr st, tail l with
  | None, None => (N.of_nat bound < max64)%N
  | Some w, Some t => wrel bound w t /\ durable l <> None
  | _, _ => False
  end.

Definition orel (bound : nat) (a : outcome ist) (b : outcome log) : Prop :=
  match a, b with
  | Ok st, Ok l => rel bound st l
  | Throw, Throw => True
  | UB, UB => True
  | _, _ => False
  end.

Lemma file_append : forall d p, d <> None ->
  append (file_of d) (map rowf p) = file_of (log_flush d p).
Proof.
  intros [x|] p H; [|congruence]. simpl. rewrite map_app. reflexivity.
Qed.

Lemma rows_of_eq : forall is cs, rows_of is cs = map rowf (combine is cs).
Proof. reflexivity. Qed.

Lemma wrel_mono : forall b b' w t, b' <= b -> wrel b w t -> wrel b' w t.
Proof. intros b b' w [[o p] n] Hle H. unfold wrel in *. intuition lia. Qed.

Lemma rel_mono : forall b b' st l, b' <= b -> rel b st l -> rel b' st l.
Proof.
  intros b b' st l Hle [H1 H2]. split; auto.
  destruct (i_wr st), (tail l); auto; [destruct H2; split; auto; eapply wrel_mono; eauto|lia].
Qed.

Lemma write1_rel : forall b w p n i c, wrel (S b) w (true, p, n) ->
  exists w', w_write1 w i c = Ok w' /\ wrel b w' (true, p ++ [(i, c)], n + 1).
Proof.
  intros b w p n i c (H1 & H2 & H3 & H4 & H5 & H6 & H7 & H8).
  unfold w_write1. rewrite H1. cbn [negb enforce].
  eexists; split; [reflexivity|]. unfold wrel. cbn [w_closed w_ib w_cb w_cache w_cnt negb].
  rewrite !app_length. cbn [length].
  assert (Hc : combine (w_ib w ++ [i]) (w_cb w ++ [c]) = p ++ [(i, c)]).
  { rewrite <- H2. clear -H3. revert H3. generalize (w_cb w). induction (w_ib w) as [|x l IH]; intros [|y m] H; try discriminate; auto.
    simpl. f_equal. apply IH. inversion H. auto. }
  rewrite !u64_small by lia.
  repeat split; auto; try lia.
Qed.

Lemma writev_rel : forall is cs b w p n, wrel (length is + b) w (true, p, n) ->
  match w_writev_loop w is cs with
  | Ok w' => length is <= length cs /\ wrel b w' (true, p ++ combine is cs, n + length is)
  | UB => length cs < length is
  | _ => False
  end.
Proof.
  induction is as [|i is IH]; intros cs b w p n H; cbn [w_writev_loop].
  - simpl. rewrite app_nil_r, Nat.add_0_r. split; [lia|exact H].
  - destruct cs as [|c cs]; [simpl; lia|].
    destruct (write1_rel (length is + b) w p n i c H) as (w' & E & H').
    rewrite E. cbn [bind]. specialize (IH cs b w' _ _ H').
    destruct (w_writev_loop w' is cs); simpl; try lia; auto.
    destruct IH as [I1 I2]. split; [lia|]. rewrite <- app_assoc in I2. simpl in I2.
    replace (n + S (length is)) with (n + 1 + length is) by lia. exact I2.
Qed.

Lemma writes_rel : forall is b w p n, wrel (length is + b) w (true, p, n) ->
  exists w', w_writes_loop w is = Ok w' /\
     wrel b w' (true, p ++ map (fun i => (i, 0%N)) is, n + length is).
Proof.
  induction is as [|i is IH]; intros b w p n H; cbn [w_writes_loop].
  - exists w. simpl. rewrite app_nil_r, Nat.add_0_r. split; auto.
  - destruct (write1_rel (length is + b) w p n i 0 H) as (w' & E & H').
    rewrite E. cbn [bind]. destruct (IH b w' _ _ H') as (w2 & E2 & H2).
    exists w2. split; auto. rewrite <- app_assoc in H2. simpl in *.
    replace (n + S (length is)) with (n + 1 + length is) by lia. exact H2.
Qed.

Lemma commit_rel : forall b d w p n, d <> None -> wrel b w (true, p, n) ->
  exists w', w_commit (file_of d) w = Ok (file_of (log_flush d p), w') /\ wrel b w' (true, [], n).
Proof.
  intros b d w p n Hd (H1 & H2 & H3 & H4 & H5 & H6 & H7 & H8).
  unfold w_commit. rewrite H1. cbn [negb enforce].
  destruct (w_cache w =? 0)%N eqn:E.
  - apply N.eqb_eq in E. exists w. 
    assert (p = []) as -> by (destruct p; auto; simpl in H4; lia).
    split.
    + destruct d as [x|]; [|congruence]. simpl. rewrite app_nil_r. reflexivity.
    + unfold wrel. simpl in *. intuition.
  - eexists. split.
    + rewrite rows_of_eq, H2, file_append by auto. reflexivity.
    + unfold wrel. cbn [w_closed w_ib w_cb w_cache w_cnt negb combine length]. simpl. intuition; lia.
Qed.

Lemma istep_rel : forall o b st l, rel (op_size o + b) st l -> orel b (istep st o) (log_step l o).
Proof.
  intros o b st l [Hf Hw]. destruct st as [f w]; destruct l as [d t]; cbn [i_file i_wr durable tail] in *.
  subst f.
  destruct o as [tr|i c|is cs|is| | |]; cbn [op_size] in Hw; cbn [istep log_step with_writer i_wr i_file durable tail].
  - (* open *)
    assert (Hfresh : forall d', (N.of_nat b < max64)%N ->
      orel b (Ok (w_open tr (file_of d')))
        (Ok (mk_log (Some (if tr then [] else match d' with Some x => x | None => [] end)) (Some (true, [], 0))))).
    { intros d' Hb. unfold orel, rel, w_open. cbn [i_file i_wr durable tail].
      split.
      - destruct tr, d'; reflexivity.
      - split; [|discriminate]. unfold wrel. simpl. repeat split; auto. }
    destruct w as [w|], t as [[[o p] n]|]; try contradiction.
    + destruct Hw as [Hw Hd]. unfold w_close. pose proof Hw as (H1 & H2 & _ & _ & _ & _ & H7 & _).
      rewrite H1. destruct o; cbn [negb].
      * destruct (commit_rel b d w p n Hd Hw) as (w' & E & _). rewrite E. cbn [bind].
        apply Hfresh. lia.
      * cbn [bind]. apply Hfresh. lia.
    + apply Hfresh. auto.
  - destruct w as [w|], t as [[[o p] n]|]; try contradiction; [|exact I].
    destruct Hw as [Hw Hd]. unfold with_writer. cbn [i_wr i_file]. destruct o; cbn [log_add tail].
    + destruct (write1_rel b w p n i c Hw) as (w' & E & H'). rewrite E. cbn [bind]. split; [reflexivity|]. split; [exact H'|exact Hd].
    + unfold w_write1. destruct Hw as (H1 & _). rewrite H1. exact I.
  - destruct w as [w|], t as [[[o p] n]|]; try contradiction; [|exact I].
    destruct Hw as [Hw Hd]. unfold with_writer. cbn [i_wr i_file]. unfold log_add. cbn [tail durable].
    unfold w_writev. pose proof Hw as (H1 & _). rewrite H1. destruct o; cbn [negb enforce]; [|exact I].
    pose proof (writev_rel is cs b w p n Hw) as HV.
    destruct (w_writev_loop w is cs) as [w'| | |]; try contradiction; cbn [bind].
    + destruct HV as [V1 V2]. rewrite (proj2 (Nat.leb_le _ _) V1). split; [reflexivity|].
      split; [|exact Hd]. rewrite combine_length, Nat.min_l by auto. auto.
    + destruct (Nat.leb_spec (length is) (length cs)); [lia|exact I].
  - destruct w as [w|], t as [[[o p] n]|]; try contradiction; [|exact I].
    destruct Hw as [Hw Hd]. unfold with_writer. cbn [i_wr i_file]. unfold log_add. cbn [tail durable].
    unfold w_writes. pose proof Hw as (H1 & _). rewrite H1. destruct o; cbn [negb enforce]; [|exact I].
    destruct (writes_rel is b w p n Hw) as (w' & E & H'). rewrite E. cbn [bind].
    split; [reflexivity|]. split; [|exact Hd]. rewrite map_length. auto.
  - destruct w as [w|], t as [[[o p] n]|]; try contradiction; [|exact I].
    destruct Hw as [Hw Hd]. unfold with_writer. cbn [i_wr i_file]. destruct o.
    + destruct (commit_rel b d w p n Hd Hw) as (w' & E & H'). rewrite E. cbn [bind].
      split; [reflexivity|]. split; [exact H'|]. destruct d; [discriminate|congruence].
    + unfold w_commit. destruct Hw as (H1 & _). rewrite H1. exact I.
  - destruct w as [w|], t as [[[o p] n]|]; try contradiction; [|exact I].
    destruct Hw as [Hw Hd]. unfold with_writer. cbn [i_wr i_file]. unfold w_close. pose proof Hw as (H1 & _). rewrite H1. destruct o; cbn [negb].
    + destruct (commit_rel b d w p n Hd Hw) as (w' & E & H'). rewrite E. cbn [bind].
      split; [reflexivity|]. split; [|destruct d; [discriminate|congruence]].
      unfold wrel in *. cbn [w_closed w_ib w_cb w_cache w_cnt]. intuition.
    + cbn [bind]. split; [reflexivity|]. split; [exact Hw|exact Hd].
  - split; [reflexivity|]. cbn [i_wr tail].
    destruct w as [w|], t as [[[o p] n]|]; try contradiction; auto.
    destruct Hw as [(_ & _ & _ & _ & _ & _ & H7 & _) _]. lia.
Qed.

Lemma irun_rel : forall ops b st l, rel (ops_size ops + b) st l -> orel b (irun st ops) (log_run l ops).
Proof.
  induction ops as [|o ops IH]; intros b st l H; cbn [irun log_run]; [exact H|].
  cbn [ops_size fold_right] in H. rewrite <- Nat.add_assoc in H.
  pose proof (istep_rel o _ st l H) as HS.
  destruct (istep st o), (log_step l o); try contradiction; cbn [bind]; auto.
Qed.

Lemma parse_file_of : forall x, parse_file (file_of (Some x)) = Ok x.
Proof.
  intros x. simpl. induction x as [|[i c] x IH]; simpl; auto. rewrite IH. reflexivity.
Qed.

(** Reader *)
Definition r_rest (st : rst) : list (N * N) :=
  match r_batch st with Some b => skipn (r_idx st) b | None => [] end ++ concat (r_src st).

Lemma stream_nil : forall (A : Type) n, stream (@nil A) n = repeat None n.
Proof.
  intros A n. unfold stream. generalize 0. induction n as [|n IH]; intros s; simpl; auto.
  rewrite IH. destruct s; auto.
Qed.

Lemma stream_cons : forall (A : Type) (x : A) l n, stream (x :: l) (S n) = Some x :: stream l n.
Proof.
  intros A x l n. unfold stream. simpl. f_equal. rewrite <- seq_shift, map_map. reflexivity.
Qed.

Lemma skipn_cons : forall (A : Type) (b : list A) i, i < length b ->
  exists x, nth_error b i = Some x /\ skipn i b = x :: skipn (S i) b.
Proof.
  induction b as [|a b IH]; intros i Hi; simpl in Hi; [lia|].
  destruct i as [|i].
  - exists a. auto.
  - destruct (IH i ltac:(lia)) as (x & H1 & H2). exists x. split; auto.
Qed.

Lemma r_next_spec : forall st,
  Forall (fun b => b <> []) (r_src st) ->
  let '(x, st') := r_next st in
  x = hd_error (r_rest st) /\ r_rest st' = tl (r_rest st) /\
  Forall (fun b => b <> []) (r_src st') /\
  r_cnt st' = (match r_rest st with [] => r_cnt st | _ => u64 (r_cnt st + 1) end).
Proof.
  intros st Hne. unfold r_next, r_has_next, r_rest.
  destruct st as [bt i c src]. cbn [r_batch r_idx r_src r_cnt] in *.
  destruct bt as [b|].
  - destruct (Nat.leb_spec (length b) i) as [Hl|Hl].
    + rewrite (skipn_all2 b Hl).
      destruct src as [|[|a b'] s]; [simpl; auto| |].
      * inversion Hne; congruence.
      * inversion Hne; subst. simpl. auto.
    + cbn [r_batch r_idx r_src r_cnt]. rewrite (proj2 (Nat.ltb_lt _ _) Hl).
      cbn [r_batch r_idx r_src r_cnt].
      destruct (skipn_cons _ b i Hl) as (x & E1 & E2). rewrite E1, E2. simpl. auto.
  - destruct src as [|[|a b'] s]; [simpl; auto| |].
    + inversion Hne; congruence.
    + inversion Hne; subst. simpl. auto.
Qed.

Lemma r_reads_spec : forall n st, Forall (fun b => b <> []) (r_src st) ->
  fst (r_reads n st) = stream (r_rest st) n /\
  ((r_cnt st + N.of_nat n < max64)%N ->
   r_cnt (snd (r_reads n st)) = (r_cnt st + N.of_nat (Nat.min n (length (r_rest st))))%N).
Proof.
  induction n as [|n IH]; intros st Hne; cbn [r_reads].
  - simpl. split; auto. intros. lia.
  - pose proof (r_next_spec st Hne) as HS. destruct (r_next st) as [x st1].
    destruct HS as (S1 & S2 & S3 & S4). specialize (IH st1 S3).
    destruct (r_reads n st1) as [l st2]. cbn [fst snd] in *. destruct IH as [IH1 IH2].
    rewrite S2 in IH1, IH2. subst x.
    destruct (r_rest st) as [|y rr]; cbn [hd_error tl] in *.
    + split; [rewrite IH1, !stream_nil; reflexivity|].
      intros Hb. rewrite IH2 by lia. simpl. lia.
    + split; [rewrite IH1, stream_cons; reflexivity|].
      intros Hb. rewrite IH2; rewrite S4, u64_small by lia; [|lia]. cbn [length Nat.min]. lia.
Qed.

(** What C08 says. *)
Lemma index_history : forall ops, (N.of_nat (ops_size ops) < max64)%N ->
  match irun (mk_ist None None) ops, log_run (mk_log None None) ops with
  | Ok st, Ok l =>
      (forall d, durable l = Some d -> parse_file (i_file st) = Ok d) /\
      (durable l = None -> i_file st = None) /\
      match i_wr st, tail l with
      | Some w, Some (o, p, n) =>
          w_closed w = negb o /\ w_cache w = N.of_nat (length p) /\ w_cnt w = N.of_nat n
      | None, None => True
      | _, _ => False
      end
  | Throw, Throw => True
  | UB, UB => True
  | _, _ => False
  end.
Proof.
  intros ops Hb.
  assert (H : rel (ops_size ops + 0) (mk_ist None None) (mk_log None None)).
  { split; auto. cbn [i_wr tail]. lia. }
  apply irun_rel in H.
  destruct (irun (mk_ist None None) ops), (log_run (mk_log None None) ops); auto.
  destruct H as [H1 H2]. rewrite H1. split; [|split].
  - intros d E. rewrite E. apply parse_file_of.
  - intros E. rewrite E. reflexivity.
  - destruct (i_wr a), (tail a0) as [[[o p] n]|]; auto. destruct H2 as [(W1 & W2 & W3 & W4 & W5 & _) _]. auto.
Qed.

Lemma file_reads : forall l src n,
  concat src = l -> Forall (fun b => b <> []) src -> (N.of_nat n < max64)%N ->
  fst (r_reads n (r_init src)) = stream l n /\
  r_cnt (snd (r_reads n (r_init src))) = N.of_nat (Nat.min n (length l)).
Proof.
  intros l src n <- Hne Hb. destruct (r_reads_spec n (r_init src) Hne) as [H1 H2].
  unfold r_init, r_rest in *. cbn [r_batch r_src r_cnt app] in *. split; auto.
Qed.

(** Memory reader *)
Section Mem.
Variable srt : list (N * N) -> list (N * N).
Hypothesis srt_perm : forall l, Permutation (srt l) l.
Hypothesis srt_sorted : forall l, StronglySorted (fun a b => (fst a <= fst b)%N) (srt l).

Lemma m_reads_spec : forall n st,
  fst (m_reads n st) = stream (skipn (m_cnt st) (m_items st)) n.
Proof.
  induction n as [|n IH]; intros st; cbn [m_reads]; auto.
  unfold m_next, m_has_next. destruct (Nat.ltb_spec (m_cnt st) (length (m_items st))) as [H|H].
  - specialize (IH (mk_mst (m_items st) (S (m_cnt st)))).
    destruct (m_reads n _) as [l st2]. cbn [fst m_cnt m_items] in *.
    destruct (skipn_cons _ (m_items st) (m_cnt st) H) as (x & E1 & E2).
    rewrite E1, E2, stream_cons, IH. reflexivity.
  - specialize (IH st). destruct (m_reads n st) as [l st2]. cbn [fst] in *.
    rewrite IH. rewrite (skipn_all2 _ H), !stream_nil. reflexivity.
Qed.

Lemma mem_reader : forall index dup n,
  (length index = length dup ->
   exists st items, m_make srt index dup = Ok st /\
     Permutation items (combine index dup) /\
     StronglySorted (fun a b => (fst a <= fst b)%N) items /\
     fst (m_reads n st) = stream items n) /\
  (length index <> length dup -> m_make srt index dup = Throw).
Proof.
  intros index dup n. unfold m_make. split; intros H.
  - rewrite (proj2 (Nat.eqb_eq _ _) H). cbn [enforce]. eexists _, (srt (combine index dup)).
    split; [reflexivity|]. split; [apply srt_perm|]. split; [apply srt_sorted|].
    rewrite m_reads_spec. reflexivity.
  - rewrite (proj2 (Nat.eqb_neq _ _) H). reflexivity.
Qed.
End Mem.
