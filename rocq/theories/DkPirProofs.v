(** Lemmas for C45, C60 and C61. *)
From Coq Require Import List NArith ZArith Lia Bool Arith Permutation.
From Verif Require Import Base Text TextProofs StoreModel StoreProofs PirPackModel PirPackProofs2 DkPirModel DkPirSpec.
Import ListNotations.

(** * Merging rows *)
Lemma join_front : forall sep v w l, join_with sep ((v ++ sep :: w) :: l) = join_with sep (v :: w :: l).
Proof.
  intros sep v w [|x l]; [reflexivity|]. cbn [join_with]. rewrite <- app_assoc. reflexivity.
Qed.

Lemma merge_row_find : forall k v m q,
  find_key q (merge_row k v m) =
  if beqb k q then Some (match find_key k m with Some (v', c) => (v' ++ row_delim :: v, c + 1)%N | None => (v, 1%N) end)
  else find_key q m.
Proof.
  intros k v m q. induction m as [|[k' [v' c]] m IH]; cbn [merge_row find_key].
  - reflexivity.
  - destruct (beqb k' k) eqn:E; cbn [find_key].
    + apply beqb_spec in E as ->. destruct (beqb k q); reflexivity.
    + rewrite IH. destruct (beqb k' q) eqn:E2; [|reflexivity].
      apply beqb_spec in E2 as ->. destruct (beqb k q) eqn:E3; [|reflexivity].
      apply beqb_spec in E3 as ->. rewrite (proj2 (beqb_spec q q) eq_refl) in E. discriminate.
Qed.

Lemma merge_row_keys : forall k v m q, In q (map fst (merge_row k v m)) <-> q = k \/ In q (map fst m).
Proof.
  intros k v m q. induction m as [|[k' [v' c]] m IH]; cbn [merge_row map fst In].
  - intuition.
  - destruct (beqb k' k) eqn:E; cbn [map fst In].
    + apply beqb_spec in E as ->. intuition.
    + rewrite IH. intuition.
Qed.

Lemma merge_row_nodup : forall k v m, NoDup (map fst m) -> NoDup (map fst (merge_row k v m)).
Proof.
  intros k v m. induction m as [|[k' [v' c]] m IH]; intros H; cbn [merge_row map fst].
  - repeat constructor. intros [].
  - cbn [map fst] in H. inversion H; subst. destruct (beqb k' k) eqn:E; cbn [map fst]; constructor; auto.
    rewrite merge_row_keys. intros [->|]; [|contradiction]. rewrite (proj2 (beqb_spec k k) eq_refl) in E. discriminate.
Qed.

Definition values_of (rs : list drow) : list bytes := map (fun r => join_with col_delim (snd r)) rs.

Lemma merge_fold : forall rows m q,
  find_key q (fold_left (fun m r => merge_row (fst r) (join_with col_delim (snd r)) m) rows m) =
  match find_key q m with
  | Some (v, c) => Some (join_with row_delim (v :: values_of (rows_with rows q)), c + N.of_nat (length (rows_with rows q)))%N
  | None => match rows_with rows q with
            | [] => None
            | rs => Some (join_with row_delim (values_of rs), N.of_nat (length rs))
            end
  end.
Proof.
  induction rows as [|[k ls] rows IH]; intros m q.
  - cbn. destruct (find_key q m) as [[v c]|]; [rewrite N.add_0_r|]; reflexivity.
  - cbn [fold_left fst snd]. rewrite IH, merge_row_find. unfold rows_with. cbn [filter fst].
    fold (rows_with rows q). destruct (beqb k q) eqn:E.
    + apply beqb_spec in E as ->. destruct (find_key q m) as [[v c]|].
      * rewrite join_front. cbn [values_of map snd length]. f_equal. f_equal. lia.
      * cbn [values_of map snd length]. f_equal. f_equal. lia.
    + reflexivity.
Qed.

Lemma merge_all_find : forall rows q,
  find_key q (merge_all rows) =
  match rows_with rows q with [] => None | rs => Some (join_with row_delim (values_of rs), N.of_nat (length rs)) end.
Proof. intros rows q. unfold merge_all. rewrite merge_fold. reflexivity. Qed.

Lemma merge_all_nodup : forall rows, NoDup (map fst (merge_all rows)).
Proof.
  intros rows. unfold merge_all. assert (G : forall m, NoDup (map fst m) ->
    NoDup (map fst (fold_left (fun m r => merge_row (fst r) (join_with col_delim (snd r)) m) rows m))).
  { induction rows as [|r rows IH]; intros m H; [exact H|]. cbn [fold_left]. apply IH. apply merge_row_nodup. exact H. }
  apply G. constructor.
Qed.

Lemma find_key_in : forall (V : Type) (m : list (bytes * V)) q v, NoDup (map fst m) -> (find_key q m = Some v <-> In (q, v) m).
Proof.
  intros V m q v. induction m as [|[k x] m IH]; intros H; cbn [find_key]; [split; [discriminate|intros []]|].
  cbn [map fst] in H. inversion H as [|? ? H1 H2]; subst. destruct (beqb k q) eqn:E.
  - apply beqb_spec in E as ->. split; [intros X; injection X as ->; left; reflexivity|].
    intros [X|I]; [injection X as ->; reflexivity|]. exfalso. apply H1. apply (in_map fst) in I. exact I.
  - rewrite (IH H2). split; [intros I; right; exact I|]. intros [X|I]; [|exact I].
    injection X as -> ->. rewrite (proj2 (beqb_spec q q) eq_refl) in E. discriminate.
Qed.

Lemma find_key_perm : forall (V : Type) (m m' : list (bytes * V)) q,
  NoDup (map fst m) -> Permutation m m' -> find_key q m' = find_key q m.
Proof.
  intros V m m' q H P. assert (H' : NoDup (map fst m')) by (apply (Permutation_NoDup (Permutation_map fst P) H)).
  destruct (find_key q m) as [v|] eqn:E.
  - apply (find_key_in _ m' q v H'). apply (Permutation_in _ P). apply (find_key_in _ m q v H). exact E.
  - destruct (find_key q m') as [v|] eqn:E'; [|reflexivity]. exfalso.
    apply (find_key_in _ m' q v H') in E'. apply (Permutation_in _ (Permutation_sym P)) in E'.
    apply (find_key_in _ m q v H) in E'. congruence.
Qed.

Lemma find_key_map : forall (V W : Type) (f : bytes -> V -> W) m q,
  find_key q (map (fun p => (fst p, f (fst p) (snd p))) m) = option_map (f q) (find_key q m).
Proof.
  intros V W f m q. induction m as [|[k v] m IH]; [reflexivity|]. cbn [map fst snd find_key].
  destruct (beqb k q) eqn:E; [apply beqb_spec in E as ->; reflexivity|exact IH].
Qed.

(** * Thread tasks *)
Lemma stride_in : forall fuel s t n i, In i (stride fuel s t n) -> i < n /\ exists j, i = s + j * t.
Proof.
  induction fuel as [|f IH]; intros s t n i H; [destruct H|]. cbn [stride] in H.
  destruct (Nat.ltb_spec s n); [|destruct H]. destruct H as [<-|H]; [split; [assumption|exists 0; lia]|].
  destruct (IH _ _ _ _ H) as [A (j & ->)]. split; [exact A|]. exists (S j). lia.
Qed.

Lemma stride_complete : forall j fuel s t n, j < fuel -> s + j * t < n -> In (s + j * t) (stride fuel s t n).
Proof.
  induction j as [|j IH]; intros [|fuel] s t n Hf Hn; try lia; cbn [stride].
  - destruct (Nat.ltb_spec s n); [left; lia|lia].
  - destruct (Nat.ltb_spec s n); [|lia]. right. replace (s + S j * t) with (s + t + j * t) by lia. apply IH; lia.
Qed.

Lemma stride_nodup : forall fuel s t n, 0 < t -> NoDup (stride fuel s t n).
Proof.
  induction fuel as [|f IH]; intros s t n Ht; [constructor|]. cbn [stride]. destruct (Nat.ltb_spec s n); [|constructor].
  constructor; [|apply IH; exact Ht]. intros I. apply stride_in in I as [_ (j & E)]. nia.
Qed.

Lemma nodup_concat_class : forall (f : nat -> list nat) (cls : nat -> nat) l, NoDup l ->
  (forall s, In s l -> NoDup (f s)) -> (forall s i, In s l -> In i (f s) -> cls i = s) -> NoDup (concat (map f l)).
Proof.
  intros f cls l. induction l as [|s l IH]; intros H1 H2 H3; [constructor|].
  inversion H1; subst. cbn [map concat].
  assert (N : NoDup (concat (map f l))).
  { apply IH; [assumption| |]; intros; [apply H2|apply H3]; try (right; assumption); assumption. }
  assert (D : forall i, In i (f s) -> ~ In i (concat (map f l))).
  { intros i I J. apply in_concat in J as (fs & J1 & J2). apply in_map_iff in J1 as (s' & <- & J1).
    pose proof (H3 s i (or_introl eq_refl) I). pose proof (H3 s' i (or_intror J1) J2). congruence. }
  assert (Ns : NoDup (f s)) by (apply H2; left; reflexivity).
  clear - N D Ns. induction (f s) as [|x r IHr]; [exact N|]. cbn [app]. inversion Ns; subst. constructor.
  - rewrite in_app_iff. intros [I|I]; [contradiction|]. exact (D x (or_introl eq_refl) I).
  - apply IHr; [|assumption]. intros i I. apply D. right. exact I.
Qed.

Lemma tasks_perm : forall threads n, 1 <= threads -> Permutation (concat (task_indices threads n)) (seq 0 n).
Proof.
  intros threads n Ht. unfold task_indices. set (t := Nat.min threads n).
  destruct (Nat.eq_dec n 0) as [->|Hn]; [subst t; rewrite Nat.min_0_r; reflexivity|].
  assert (T : 1 <= t) by (subst t; lia). clearbody t.
  apply NoDup_Permutation; [|apply seq_NoDup|].
  - apply nodup_concat_class with (cls := fun i => i mod t); [apply seq_NoDup| |].
    + intros s _. apply stride_nodup. lia.
    + intros s i Hs I. apply in_seq in Hs. apply stride_in in I as [_ (j & ->)].
      rewrite Nat.mod_add by lia. apply Nat.mod_small. lia.
  - intros i. split.
    + intros I. apply in_concat in I as (l & I1 & I2). apply in_map_iff in I1 as (s & <- & _).
      apply stride_in in I2 as [A _]. apply in_seq. lia.
    + intros I. apply in_seq in I. apply in_concat. exists (stride n (i mod t) t n).
      pose proof (Nat.mod_upper_bound i t ltac:(lia)) as U. split.
      * apply (in_map (fun s => stride n s t n)). apply in_seq. lia.
      * pose proof (Nat.div_mod i t ltac:(lia)) as D.
        replace i with (i mod t + i / t * t) at 1 by lia. apply stride_complete; [|lia].
        assert (i / t <= i) by (apply Nat.div_le_upper_bound; nia). lia.
Qed.

(** * The shuffle *)
Section Sh.
Variable Point Hashed : Type.
Variable smul : Z -> Point -> Point.
Variable to_point : bytes -> Point.
Variable to_hash : Point -> Hashed.
Variable hashed_eqb : Hashed -> Hashed -> bool.
Hypothesis heq : forall a b, hashed_eqb a b = true <-> a = b.

Lemma steps_spec : forall k qs shuffle, length shuffle = length qs -> NoDup shuffle ->
  (forall j, In j shuffle -> j < length qs) ->
  forall sched resp, length resp = length qs -> (forall i, In i sched -> i < length qs) ->
  exists resp', sender_steps Point smul k qs shuffle sched resp = Ok resp' /\ length resp' = length qs /\
    forall i q, nth_error qs i = Some q ->
      (In i sched -> nth_error resp' (nth i shuffle 0) = Some (smul k q)) /\
      (~ In i sched -> nth_error resp' (nth i shuffle 0) = nth_error resp (nth i shuffle 0)).
Proof using.
  clear heq hashed_eqb to_hash to_point Hashed. intros k qs shuffle Hl ND Hb. induction sched as [|a sched IH]; intros resp Hr Hs.
  - exists resp. cbn. split; [reflexivity|]. split; [exact Hr|]. intros i q _. split; [intros []|reflexivity].
  - cbn [sender_steps]. unfold sender_step.
    assert (Ha : a < length qs) by (apply Hs; left; reflexivity).
    destruct (nth_error qs a) as [qa|] eqn:Ea; [|apply nth_error_None in Ea; lia].
    rewrite (nth_error_nth' shuffle 0) by lia.
    assert (Hj : nth a shuffle 0 < length resp) by (rewrite Hr; apply Hb; apply nth_In; lia).
    destruct (Nat.ltb_spec (nth a shuffle 0) (length resp)); [|lia]. cbn [bind].
    destruct (IH (upd (nth a shuffle 0) (fun _ => smul k qa) resp)) as (resp' & E & L & P).
    { rewrite upd_length. exact Hr. } { intros i I. apply Hs. right. exact I. }
    exists resp'. split; [exact E|]. split; [exact L|]. intros i q Hi. destruct (P i q Hi) as [P1 P2].
    assert (Li : i < length qs) by (apply nth_error_Some; congruence).
    assert (X : nth_error (upd (nth a shuffle 0) (fun _ => smul k qa) resp) (nth i shuffle 0) =
                if Nat.eq_dec a i then Some (smul k qa) else nth_error resp (nth i shuffle 0)).
    { rewrite upd_nth. destruct (Nat.eq_dec a i) as [->|N].
      - rewrite Nat.eqb_refl. rewrite (nth_error_nth' resp (smul k qa)) by exact Hj. reflexivity.
      - destruct (Nat.eqb_spec (nth a shuffle 0) (nth i shuffle 0)) as [X|X]; [|reflexivity].
        exfalso. apply N. apply (proj1 (NoDup_nth shuffle 0) ND); lia. }
    split.
    + intros J. destruct (in_dec Nat.eq_dec i sched) as [I|I]; [exact (P1 I)|].
      rewrite (P2 I), X. destruct (Nat.eq_dec a i) as [->|N]; [congruence|].
      destruct J as [J|J]; contradiction.
    + intros I. rewrite P2 by (intros J; apply I; right; exact J). rewrite X.
      destruct (Nat.eq_dec a i) as [->|N]; [exfalso; apply I; left; reflexivity|reflexivity].
Qed.

(** Position [shuffle i] of a shuffled list belongs to query [i]. *)
Definition placed {A B : Type} (shuffle : list nat) (f : A -> B) (qs : list A) (l : list B) : Prop :=
  length l = length qs /\ forall i q, nth_error qs i = Some q -> nth_error l (nth i shuffle 0) = Some (f q).

Lemma perm_facts : forall n shuffle, Permutation shuffle (seq 0 n) ->
  length shuffle = n /\ NoDup shuffle /\ forall j, In j shuffle -> j < n.
Proof using.
  clear. intros n shuffle P. split; [rewrite (Permutation_length P); apply seq_length|]. split.
  - apply (Permutation_NoDup (Permutation_sym P)). apply seq_NoDup.
  - intros j I. apply (Permutation_in _ P) in I. apply in_seq in I. lia.
Qed.

Lemma process_placed : forall k zero shuffle sched threads qs,
  Permutation shuffle (seq 0 (length qs)) -> 1 <= threads ->
  Permutation sched (concat (task_indices threads (length qs))) ->
  exists resp, process_queries Point smul k zero shuffle sched qs = Ok resp /\ placed shuffle (smul k) qs resp.
Proof using.
  clear heq hashed_eqb to_hash to_point Hashed. intros k zero shuffle sched threads qs P Ht S. rewrite (tasks_perm _ _ Ht) in S.
  destruct (perm_facts _ _ P) as (L & ND & B). unfold process_queries.
  destruct (steps_spec k qs shuffle L ND B sched (repeat zero (length qs))) as (resp & E & Lr & H).
  { apply repeat_length. } { intros i I. apply (Permutation_in _ S) in I. apply in_seq in I. lia. }
  exists resp. split; [exact E|]. split; [exact Lr|]. intros i q Hq. apply (proj1 (H i q Hq)).
  apply (Permutation_in _ (Permutation_sym S)). apply in_seq.
  assert (i < length qs) by (apply nth_error_Some; congruence). lia.
Qed.

Lemma placed_perm : forall (A B : Type) shuffle (f : A -> B) qs l,
  Permutation shuffle (seq 0 (length qs)) -> placed shuffle f qs l -> Permutation l (map f qs).
Proof using.
  clear. intros A B shuffle f qs l P [L H]. destruct (perm_facts _ _ P) as (Ls & _ & _).
  destruct qs as [|q0 qs']; [destruct l; [reflexivity|discriminate]|]. set (qs := q0 :: qs') in *.
  pose (d := f q0).
  assert (E1 : l = map (fun j => nth j l d) (seq 0 (length qs))).
  { rewrite <- L. clear. induction l as [|x l IH]; [reflexivity|]. cbn [length seq map nth]. f_equal.
    rewrite <- seq_shift, map_map. exact IH. }
  assert (E2 : map f qs = map (fun j => nth j l d) shuffle).
  { apply nth_ext with (d := d) (d' := nth 0 l d); [rewrite !map_length; lia|]. rewrite map_length. intros i Hi.
    subst d. rewrite (map_nth f). rewrite (map_nth (fun j => nth j l (f q0)) shuffle 0).
    symmetry. apply nth_error_nth. apply H. apply nth_error_nth'. exact Hi. }
  rewrite E1, E2. apply Permutation_map. symmetry. exact P.
Qed.

Lemma placed_map : forall (A B C : Type) shuffle (f : A -> B) (g : B -> C) qs l,
  placed shuffle f qs l -> placed shuffle (fun q => g (f q)) qs (map g l).
Proof using.
  clear. intros A B C shuffle f g qs l [L H]. split; [rewrite map_length; exact L|].
  intros i q Hq. rewrite nth_error_map, (H i q Hq). reflexivity.
Qed.

Lemma placed_ext : forall (A B : Type) shuffle (f g : A -> B) qs l,
  (forall q, In q qs -> f q = g q) -> placed shuffle f qs l -> placed shuffle g qs l.
Proof using.
  clear. intros A B shuffle f g qs l E [L H]. split; [exact L|]. intros i q Hq. rewrite <- E; [apply H; exact Hq|].
  apply nth_error_In in Hq. exact Hq.
Qed.

Lemma placed_pre : forall (A B C : Type) shuffle (h : A -> B) (f : B -> C) qs l,
  placed shuffle f (map h qs) l -> placed shuffle (fun q => f (h q)) qs l.
Proof using.
  clear. intros A B C shuffle h f qs l [L H]. rewrite map_length in L. split; [exact L|]. intros i q Hq.
  apply H. rewrite nth_error_map, Hq. reflexivity.
Qed.

Lemma placed_id : forall (A B : Type) (f : A -> B) qs, placed (seq 0 (length qs)) f qs (map f qs).
Proof using.
  clear. intros A B f qs. split; [apply map_length|]. intros i q Hq.
  assert (i < length qs) by (apply nth_error_Some; congruence).
  rewrite seq_nth by assumption. rewrite nth_error_map. cbn. rewrite Hq. reflexivity.
Qed.

(** Lookup by hashed item is lookup by key if nothing collides. *)
Lemma find_hash_key : forall (V : Type) (m : list (bytes * V)) k q,
  (forall x, In x (map fst m) -> to_hash (smul k (to_point x)) = to_hash (smul k (to_point q)) -> x = q) ->
  find_hash Hashed hashed_eqb (to_hash (smul k (to_point q))) (make_db Point Hashed smul to_point to_hash k m) = find_key q m.
Proof using heq.
  intros V m k q. induction m as [|[x v] m IH]; intros H; [reflexivity|]. cbn [make_db map fst snd find_hash find_key].
  destruct (hashed_eqb _ _) eqn:E.
  - apply heq in E. rewrite (proj2 (beqb_spec x q)); [reflexivity|]. apply H; [left; reflexivity|exact E].
  - destruct (beqb x q) eqn:E2.
    + apply beqb_spec in E2 as ->. rewrite (proj2 (heq _ _) eq_refl) in E. discriminate.
    + apply IH. intros y I. apply H. right. exact I.
Qed.
End Sh.

(** * Writing and extracting results *)
Definition found_rows (f : bytes -> option bytes) (qs : list bytes) : list (bytes * bytes) :=
  flat_map (fun q => match f q with Some v => [(q, v)] | None => [] end) qs.
Lemma write_placed : forall (skip : bool) shuffle (f : bytes -> option bytes) (qs : list bytes) inter,
  length shuffle = length qs -> placed (if skip then seq 0 (length qs) else shuffle) f qs inter ->
  write_results skip shuffle qs inter = Ok (found_rows f qs).
Proof.
  intros skip shuffle f qs inter Ls [L H]. unfold write_results.
  rewrite (map_out_ok _ _ _ (fun i => match nth_error qs i with Some q => match f q with Some v => [(q, v)] | None => [] end | None => [] end)).
  - cbn [bind]. f_equal. unfold found_rows. rewrite flat_map_concat_map. f_equal.
    clear. induction qs as [|q qs IH]; [reflexivity|]. cbn [length seq map nth_error]. f_equal.
    rewrite <- seq_shift, map_map. exact IH.
  - intros i I. apply in_seq in I. destruct (nth_error qs i) as [q|] eqn:E; [|apply nth_error_None in E; lia].
    assert (X : (if skip then Some i else nth_error shuffle i) = Some (nth i (if skip then seq 0 (length qs) else shuffle) 0)).
    { destruct skip; [rewrite seq_nth by lia; reflexivity|]. apply nth_error_nth'. lia. }
    rewrite X, (H i q E). destruct (f q); reflexivity.
Qed.

Lemma in_join : forall sep l x, In x (join_with sep l) -> x = sep \/ exists s, In s l /\ In x s.
Proof.
  induction l as [|s l IH]; intros x I; [destruct I|]. cbn [join_with] in I. destruct l as [|s' l].
  - right. exists s. split; [left; reflexivity|exact I].
  - apply in_app_iff in I as [I|[I|I]].
    + right. exists s. split; [left; reflexivity|exact I].
    + left. congruence.
    + destruct (IH x I) as [->|(s2 & A & B)]; [left; reflexivity|]. right. exists s2. split; [right; exact A|exact B].
Qed.

Lemma rows_with_in : forall table q k ls, In (k, ls) (rows_with table q) -> k = q /\ In (k, ls) table.
Proof. intros table q k ls I. apply filter_In in I as [I E]. apply beqb_spec in E. cbn in E. split; assumption. Qed.

Lemma split_values : forall n table rs, mergeable n table -> (forall r, In r rs -> In r table) -> rs <> [] ->
  split_on row_delim (join_with row_delim (values_of rs)) = values_of rs.
Proof.
  intros n table rs [_ M] I N. apply split_join; [destruct rs; [contradiction|discriminate]|].
  apply Forall_forall. intros v Hv. apply in_map_iff in Hv as ([k ls] & <- & Hr). cbn [snd].
  intros J. apply in_join in J as [J|(l & J1 & J2)]; [discriminate|].
  exact (proj2 (proj2 (M k ls l (I _ Hr)) J1) J2).
Qed.

Lemma extract_one_ok : forall n table q rs, mergeable n table -> (forall r, In r rs -> In r table /\ fst r = q) -> rs <> [] ->
  extract_one n (q, join_with row_delim (values_of rs)) = Ok rs.
Proof.
  intros n table q rs M I N. unfold extract_one, enforce. cbv zeta. cbn [fst snd].
  rewrite (split_values n table rs M (fun r H => proj1 (I r H)) N).
  clear N. unfold values_of. induction rs as [|[k ls] rs IH]; [reflexivity|].
  cbn [map snd map_out]. destruct (I _ (or_introl eq_refl)) as [I1 I2]. cbn [fst] in I2. subst k.
  destruct M as [M0 M].
  assert (E : split_on col_delim (join_with col_delim ls) = ls).
  { apply split_join; [intros ->; apply M0; symmetry; exact (proj1 (M q [] [] I1))|].
    apply Forall_forall. intros l Hl. exact (proj1 (proj2 (M q ls l I1) Hl)). }
  rewrite E. rewrite (proj1 (M q ls [] I1)), Nat.eqb_refl. cbn [bind].
  rewrite IH; [reflexivity|]. intros r Hr. apply I. right. exact Hr.
Qed.

Definition value_for (table : list drow) (q : bytes) : option bytes :=
  match rows_with table q with [] => None | rs => Some (join_with row_delim (values_of rs)) end.
Definition count_for (table : list drow) (q : bytes) : option N :=
  match rows_with table q with [] => None | rs => Some (N.of_nat (length rs)) end.

Lemma extract_found : forall n table qs, mergeable n table -> rows_of table qs <> [] ->
  extract_result n (found_rows (value_for table) qs) = Ok (rows_of table qs, N.of_nat (length (rows_of table qs))).
Proof.
  intros n table qs M N. unfold extract_result, enforce.
  assert (Hn : Nat.eqb n 0 = false) by (destruct M as [M0 _]; apply Nat.eqb_neq; exact M0). rewrite Hn. cbn [negb].
  assert (G : forall qs, exists rs, map_out (extract_one n) (found_rows (value_for table) qs) = Ok rs /\ concat rs = rows_of table qs /\
                (found_rows (value_for table) qs = [] -> rows_of table qs = [])).
  { clear qs N. induction qs as [|q qs IH]; [exists []; repeat split|].
    destruct IH as (rs & E1 & E2 & E3). unfold found_rows, rows_of in *. cbn [flat_map]. unfold value_for at 1 3.
    destruct (rows_with table q) as [|r0 rr] eqn:E.
    - exists rs. cbn [app]. split; [exact E1|]. split; [exact E2|exact E3].
    - exists ((r0 :: rr) :: rs). cbn [app map_out].
      rewrite (extract_one_ok n table q (r0 :: rr) M); [|rewrite <- E|discriminate].
      + cbn [bind]. rewrite E1. cbn [bind concat]. rewrite E2. split; [reflexivity|]. split; [reflexivity|discriminate].
      + intros [k ls] I. apply rows_with_in in I as [-> I]. split; [exact I|reflexivity]. }
  destruct (G qs) as (rs & E1 & E2 & E3). destruct (found_rows (value_for table) qs) as [|kv kvs] eqn:F; [exfalso; auto|].
  rewrite E1. cbn [bind]. rewrite E2. reflexivity.
Qed.

Lemma extract_nothing : forall n table qs, n <> 0 -> rows_of table qs = [] ->
  extract_result n (found_rows (value_for table) qs) = Throw.
Proof.
  intros n table qs Hn N. unfold extract_result, enforce. rewrite (proj2 (Nat.eqb_neq n 0) Hn). cbn [negb].
  assert (F : found_rows (value_for table) qs = []); [|rewrite F; reflexivity].
  induction qs as [|q qs IH]; [reflexivity|]. unfold found_rows, rows_of in *. cbn [flat_map] in *.
  apply app_eq_nil in N as [N1 N2]. unfold value_for at 1. rewrite N1. apply IH. exact N2.
Qed.

(** * Row counts *)
Lemma row_count_acc : forall inter c,
  fold_left (fun c m => match m with Some v => c + N.of_nat (length (split_on row_delim v)) | None => c end)%N inter c =
  (c + compute_row_count inter)%N.
Proof.
  unfold compute_row_count. induction inter as [|m inter IH]; intros c; [cbn; lia|]. cbn [fold_left].
  rewrite IH. rewrite (IH (match m with Some _ => _ | None => _ end)). destruct m; lia.
Qed.

Lemma row_count_cons : forall m inter, compute_row_count (m :: inter) =
  (match m with Some v => N.of_nat (length (split_on row_delim v)) | None => 0 end + compute_row_count inter)%N.
Proof. intros m inter. unfold compute_row_count at 1. cbn [fold_left]. rewrite row_count_acc. destruct m; lia. Qed.

Lemma row_count_perm : forall a b, Permutation a b -> compute_row_count a = compute_row_count b.
Proof. induction 1; rewrite ?row_count_cons; lia. Qed.

Lemma row_count_total : forall n table qs, mergeable n table ->
  compute_row_count (map (value_for table) qs) = N.of_nat (length (rows_of table qs)).
Proof.
  intros n table qs M. induction qs as [|q qs IH]; [reflexivity|]. cbn [map]. rewrite row_count_cons, IH.
  unfold rows_of. cbn [flat_map]. rewrite app_length. unfold value_for.
  destruct (rows_with table q) as [|r rs] eqn:E; [cbn [length]; lia|].
  rewrite (split_values n table (r :: rs) M); [|rewrite <- E; intros x I; apply filter_In in I as [I _]; exact I|discriminate].
  unfold values_of. rewrite map_length. lia.
Qed.

Section Cnt.
Variable order : Z.
Hypothesis Hord : (0 < order)%Z.
Local Open Scope Z_scope.

Definition osum {A : Type} (f : A -> Z) (l : list (option A)) : Z :=
  fold_right (fun m s => match m with Some c => f c + s | None => s end) 0 l.

Lemma osum_perm : forall (A : Type) (f : A -> Z) a b, Permutation a b -> osum f a = osum f b.
Proof using.
  clear. intros A f a b P. induction P; cbn [osum fold_right]; fold (@osum A f).
  - reflexivity.
  - destruct x; unfold osum in *; lia.
  - destruct x, y; unfold osum; lia.
  - congruence.
Qed.

Lemma ct_some : forall inter s, exists ct,
  fold_left (fun acc m =>
    match m, acc with
    | Some c, Some s => Some (ct_add order s c)
    | Some c, None => Some c
    | None, _ => acc
    end) inter (Some s) = Some ct /\
  (fst ct) mod order = (fst s + osum fst inter) mod order /\ (snd ct) mod order = (snd s + osum snd inter) mod order.
Proof using Hord.
  induction inter as [|[c|] inter IH]; intros s; cbn [fold_left].
  - exists s. cbn. rewrite !Z.add_0_r. repeat split.
  - destruct (IH (ct_add order s c)) as (ct & E & A & B). exists ct. split; [exact E|].
    rewrite A, B. unfold ct_add. cbn [fst snd osum fold_right]. fold (osum (@fst Z Z) inter) (osum (@snd Z Z) inter).
    rewrite !Z.add_mod_idemp_l by lia. split; f_equal; unfold osum; lia.
  - apply IH.
Qed.

Lemma ct_sum : forall inter, (exists c, In (Some c) inter) -> exists ct, compute_ct order inter = Some ct /\
  (fst ct) mod order = (osum fst inter) mod order /\ (snd ct) mod order = (osum snd inter) mod order.
Proof using Hord.
  unfold compute_ct. induction inter as [|[c|] inter IH]; intros [c0 I]; [destruct I| |].
  - cbn [fold_left]. destruct (ct_some inter c) as (ct & E & A & B). exists ct. split; [exact E|]. split; assumption.
  - cbn [fold_left]. destruct I as [I|I]; [discriminate|]. apply IH. exists c0. exact I.
Qed.

Lemma ct_none : forall inter, (forall c, ~ In (Some c) inter) -> compute_ct order inter = None.
Proof using.
  clear. unfold compute_ct. induction inter as [|[c|] inter IH]; intros H; [reflexivity| |].
  - exfalso. apply (H c). left. reflexivity.
  - cbn [fold_left]. apply IH. intros c I. apply (H c). right. exact I.
Qed.

(** Ciphertexts of the queried keys. *)
Definition ct_for (x a b : Z) (rnd : bytes -> Z) (table : list drow) (q : bytes) : option (Z * Z) :=
  option_map (fun c => encrypt order x (rnd q) (poly1 a b (Z.of_N c))) (count_for table q).

Lemma known_count : forall table q, existsb (fun r => beqb (fst r) q) table = match rows_with table q with [] => false | _ => true end.
Proof using.
  clear. intros table q. unfold rows_with. induction table as [|r t IH]; [reflexivity|]. cbn [existsb filter].
  destruct (beqb (fst r) q); [reflexivity|exact IH].
Qed.

Lemma sum_cts : forall x a b rnd table qs, exists R,
  osum fst (map (ct_for x a b rnd table) qs) mod order = R mod order /\
  osum snd (map (ct_for x a b rnd table) qs) mod order =
    (a * Z.of_nat (length (rows_of table qs)) + b * Z.of_nat (length (known table qs)) + R * x) mod order.
Proof using Hord.
  intros x a b rnd table qs. induction qs as [|q qs (R & A & B)].
  - exists 0. cbn. rewrite !Z.mul_0_r. split; reflexivity.
  - unfold rows_of, known in *. cbn [map flat_map filter osum fold_right] in *.
    fold (osum (@fst Z Z) (map (ct_for x a b rnd table) qs)) (osum (@snd Z Z) (map (ct_for x a b rnd table) qs)) in *.
    rewrite known_count.
    assert (Q : ct_for x a b rnd table q = option_map (fun c => encrypt order x (rnd q) (poly1 a b (Z.of_N c)))
      (match rows_with table q with [] => None | l => Some (N.of_nat (length l)) end)).
    { unfold ct_for, count_for. destruct (rows_with table q); reflexivity. }
    rewrite !Q. clear Q. destruct (rows_with table q) as [|r rs]; cbn [option_map].
    + exists R. split; assumption.
    + exists (rnd q + R). unfold encrypt, poly1. cbn [fst snd].
      set (S1 := osum (@fst Z Z) _) in *. set (S2 := osum (@snd Z Z) _) in *.
      rewrite !Z.add_mod_idemp_l by lia. split.
      * rewrite <- Z.add_mod_idemp_r, A, Z.add_mod_idemp_r by lia. reflexivity.
      * rewrite <- Z.add_mod_idemp_r, B, Z.add_mod_idemp_r by lia. f_equal.
        cbn [app length]. rewrite app_length. cbn [length]. rewrite nat_N_Z. lia.
Qed.

Lemma mod_eq_iff : forall u v, u mod order = v mod order <-> (u - v) mod order = 0.
Proof using Hord.
  intros u v. split; intros H.
  - rewrite Zminus_mod, H, Z.sub_diag. apply Z.mod_0_l. lia.
  - apply Z.mod_divide in H; [|lia]. destruct H as [k H]. replace u with (v + k * order) by lia. apply Z.mod_add. lia.
Qed.

Lemma check_iff : forall x a b rnd table qs inter claimed, Permutation inter (map (ct_for x a b rnd table) qs) ->
  known table qs <> [] ->
  exists ct, compute_ct order inter = Some ct /\
    (check_row_count order x a b (N.of_nat (length qs)) ct claimed = true <->
     (a * (Z.of_N claimed - Z.of_nat (length (rows_of table qs))) +
      b * (Z.of_nat (length qs) - Z.of_nat (length (known table qs)))) mod order = 0).
Proof using Hord.
  intros x a b rnd table qs inter claimed P K.
  destruct (ct_sum inter) as (ct & E & A & B).
  { destruct (known table qs) as [|q l] eqn:Eq; [contradiction|].
    assert (I : In q (known table qs)) by (rewrite Eq; left; reflexivity). apply filter_In in I as [I F].
    rewrite known_count in F. destruct (ct_for x a b rnd table q) as [c|] eqn:C.
    - exists c. apply (Permutation_in _ (Permutation_sym P)). rewrite <- C. apply in_map. exact I.
    - exfalso. unfold ct_for, count_for in C. destruct (rows_with table q); discriminate. }
  exists ct. split; [exact E|]. unfold check_row_count, poly2. rewrite Z.eqb_eq.
  rewrite (osum_perm _ fst _ _ P) in A. rewrite (osum_perm _ snd _ _ P) in B. destruct (sum_cts x a b rnd table qs) as (R & C & D).
  rewrite C in A. rewrite D in B. rewrite B. clear B C D E.
  rewrite <- Z.add_mod_idemp_r by lia. rewrite <- Z.mul_mod_idemp_r, A, Z.mul_mod_idemp_r, Z.add_mod_idemp_r by lia.
  rewrite mod_eq_iff. rewrite nat_N_Z.
  match goal with |- ?l mod _ = 0 <-> ?r mod _ = 0 => replace l with r by lia end. reflexivity.
Qed.
End Cnt.

(** * Runs *)
Section Rn.
Variable Point Hashed : Type.
Variable smul : Z -> Point -> Point.
Variable to_point : bytes -> Point.
Variable to_hash : Point -> Hashed.
Variable hashed_eqb : Hashed -> Hashed -> bool.
Variable map_order : kvmap -> kvmap.
Hypothesis heq : forall a b, hashed_eqb a b = true <-> a = b.
Hypothesis hord : forall m, Permutation (map_order m) m.

Definition hash_of (c : choices Point) (q : bytes) : Hashed := to_hash (smul (ch_k _ c) (to_point q)).

Lemma has_dup_spec : forall qs, has_dup qs = false <-> NoDup qs.
Proof using.
  clear. induction qs as [|q qs IH]; [split; [constructor|reflexivity]|]. cbn [has_dup]. rewrite orb_false_iff, IH.
  split.
  - intros [A B]. constructor; [|exact B]. intros I. apply (eq_true_false_abs _ (proj2 (existsb_exists _ _) (ex_intro _ q (conj I (proj2 (beqb_spec q q) eq_refl)))) A).
  - intros N. inversion N as [|? ? N1 N2]; subst. split; [|exact N2]. apply not_true_is_false. intros E.
    apply existsb_exists in E as (y & I & E). apply beqb_spec in E. subst. contradiction.
Qed.

Lemma hashed_placed : forall (skip : bool) c threads qs, NoDup qs -> qs <> [] -> 1 <= threads ->
  (forall p, smul (ch_rinv _ c) (smul (ch_k _ c) (smul (ch_r _ c) p)) = smul (ch_k _ c) p) ->
  Permutation (ch_shuffle _ c) (seq 0 (length qs)) ->
  Permutation (ch_sched _ c) (concat (task_indices threads (length qs))) ->
  exists hs, hashed_items _ _ smul to_point to_hash skip c qs = Ok hs /\
    placed (if skip then seq 0 (length qs) else ch_shuffle _ c) (hash_of c) qs hs.
Proof using.
  clear heq hord hashed_eqb map_order. intros skip c threads qs ND NE Ht Hinv P S. unfold hashed_items, enforce.
  rewrite (proj2 (has_dup_spec qs) ND). destruct qs as [|q0 qs']; [contradiction|]. set (qs := q0 :: qs') in *.
  cbn [negb andb]. set (bl := blind Point smul to_point (ch_r Point c) qs).
  assert (Lb : length bl = length qs) by (unfold bl, blind; apply map_length).
  assert (G : exists resp, (if skip then Ok (plain_queries Point smul (ch_k Point c) bl)
      else process_queries Point smul (ch_k Point c) (ch_zero Point c) (ch_shuffle Point c) (ch_sched Point c) bl) = Ok resp /\
      placed (if skip then seq 0 (length qs) else ch_shuffle _ c) (smul (ch_k _ c)) bl resp).
  { destruct skip.
    - eexists. split; [reflexivity|]. rewrite <- Lb. unfold plain_queries. apply placed_id.
    - apply process_placed with (threads := threads); rewrite ?Lb; assumption. }
  destruct G as (resp & E & Pl). rewrite E. cbn [bind]. eexists. split; [reflexivity|].
  unfold unblind. apply (placed_map _ _ _ _ _ (fun p => to_hash (smul (ch_rinv _ c) p))) in Pl.
  unfold bl, blind in Pl. apply placed_pre in Pl. eapply placed_ext; [|exact Pl].
  intros q _. cbn. unfold hash_of. rewrite Hinv. reflexivity.
Qed.

Lemma merged_keys : forall table q, In q (map fst (map_order (merge_all table))) <-> In q (map fst table).
Proof using hord.
  clear heq hashed_eqb to_hash to_point smul Hashed Point. intros table q. assert (X : In q (map fst (map_order (merge_all table))) <-> In q (map fst (merge_all table))).
  { split; apply Permutation_in; apply Permutation_map; [|symmetry]; apply hord. }
  rewrite X. clear X. unfold merge_all.
  assert (G : forall t m, In q (map fst (fold_left (fun m r => merge_row (fst r) (join_with col_delim (snd r)) m) t m)) <->
              In q (map fst m) \/ In q (map fst t)).
  { clear. induction t as [|r t IH]; intros m; cbn [fold_left map In]; [tauto|]. rewrite IH, merge_row_keys. intuition. }
  rewrite G. cbn. tauto.
Qed.

Lemma merged_find : forall table q, find_key q (map_order (merge_all table)) =
  match rows_with table q with [] => None | rs => Some (join_with row_delim (values_of rs), N.of_nat (length rs)) end.
Proof using hord.
  clear heq hashed_eqb to_hash to_point smul Hashed Point. intros table q. rewrite (find_key_perm _ (merge_all table)); [apply merge_all_find|apply merge_all_nodup|symmetry; apply hord].
Qed.

(** No collision between hashed items of table keys and of queries. *)
Definition distinct_hashes (c : choices Point) (table : list drow) (qs : list bytes) : Prop :=
  forall x q, In x (map fst table) -> In q qs -> hash_of c x = hash_of c q -> x = q.

Lemma values_placed : forall c table qs sh hs, distinct_hashes c table qs -> placed sh (hash_of c) qs hs ->
  placed sh (value_for table) qs (value_answers _ _ smul to_point to_hash hashed_eqb map_order c table hs).
Proof using heq hord.
  intros c table qs sh hs D P. unfold value_answers, query_db.
  match goal with |- placed _ _ _ (map ?f _) => apply (placed_map _ _ _ _ _ f) in P end.
  eapply placed_ext; [|exact P]. intros q Iq. cbn beta. unfold hash_of.
  rewrite (find_hash_key _ _ _ _ _ _ heq).
  - etransitivity; [exact (find_key_map _ _ (fun _ v => fst v) (map_order (merge_all table)) q)|].
    rewrite merged_find. unfold value_for. destruct (rows_with table q); reflexivity.
  - rewrite map_map. cbn [fst]. intros x Ix. apply D; [apply merged_keys; exact Ix|exact Iq].
Qed.

Lemma counts_placed : forall order x a b rnd c table qs sh hs, distinct_hashes c table qs -> placed sh (hash_of c) qs hs ->
  placed sh (ct_for order x a b rnd table) qs (count_answers _ _ smul to_point to_hash hashed_eqb map_order order x a b rnd c table hs).
Proof using heq hord.
  intros order x a b rnd c table qs sh hs D P. unfold count_answers, query_db.
  match goal with |- placed _ _ _ (map ?f _) => apply (placed_map _ _ _ _ _ f) in P end.
  eapply placed_ext; [|exact P]. intros q Iq. cbn beta. unfold hash_of.
  rewrite (find_hash_key _ _ _ _ _ _ heq).
  - rewrite map_map. unfold encrypt_count. cbn [fst snd].
    etransitivity; [exact (find_key_map _ _ (fun k v => encrypt order x (rnd k) (poly1 a b (Z.of_N (snd v)))) (map_order (merge_all table)) q)|].
    rewrite merged_find. unfold ct_for, count_for. destruct (rows_with table q); reflexivity.
  - rewrite !map_map. cbn [fst encrypt_count]. intros y Iy. apply D; [apply merged_keys; exact Iy|exact Iq].
Qed.
End Rn.
