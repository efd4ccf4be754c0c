(** Lemmas about the Paxos encoder: counting and triangulation. *)
From Coq Require Import List Arith NArith Bool Lia Permutation.
From Verif Require Import Base BaseProofs StoreModel OkvsModel PaxEncModel PaxEncProofs.
Import ListNotations.
Local Open Scope nat_scope.

Lemma filter_length_le : forall (A : Type) (f g : A -> bool) l,
  (forall x, In x l -> f x = true -> g x = true) -> length (filter f l) <= length (filter g l).
Proof.
  intros A f g l. induction l as [|x r IH]; intros H; [reflexivity|]. cbn [filter].
  assert (I : length (filter f r) <= length (filter g r)) by (apply IH; intros; apply H; [right|]; assumption).
  destruct (f x) eqn:E; [rewrite (H x) by (try assumption; left; reflexivity); cbn [length]; lia|].
  destruct (g x); cbn [length]; lia.
Qed.
(** Turning the predicate off at one element. *)
Lemma filter_drop1 : forall (A : Type) (f g : A -> bool) l a, NoDup l -> In a l -> f a = true -> g a = false ->
  (forall x, In x l -> x <> a -> g x = f x) -> length (filter f l) = S (length (filter g l)).
Proof.
  intros A f g l a. induction l as [|x r IH]; intros N I Fa Ga H; [destruct I|]. inversion N; subst. cbn [filter].
  destruct I as [->|I].
  - rewrite Fa, Ga. cbn [length]. f_equal.
    assert (E : filter f r = filter g r); [|rewrite E; reflexivity].
    apply filter_ext_in. intros y Hy. symmetry. apply H; [right; assumption|]. intros ->. contradiction.
  - assert (D : x <> a) by (intros ->; contradiction). rewrite (H x) by (auto; left; reflexivity).
    assert (R : length (filter f r) = S (length (filter g r))) by (apply IH; auto; intros; apply H; [right|]; assumption).
    destruct (f x); cbn [length]; lia.
Qed.
Lemma nodup_pigeon : forall (l : list nat) s, length l < s -> exists x, x < s /\ ~ In x l.
Proof.
  intros l s H. destruct (Forall_Exists_dec (fun x => In x l) (fun x => in_dec Nat.eq_dec x l) (seq 0 s)) as [F|E].
  - exfalso. assert (length (seq 0 s) <= length l).
    { apply NoDup_incl_length; [apply seq_NoDup|]. intros x Hx. rewrite Forall_forall in F. auto. }
    rewrite seq_length in H0. lia.
  - apply Exists_exists in E. destruct E as (x & I & N). apply in_seq in I. exists x. split; [lia|assumption].
Qed.

Section Tri.
Variables (s : nat) (rows : list (list nat)) (dense : list N).
Local Notation n := (length rows).
Definition rowi (r : nat) : list nat := nth r rows [].
Definition hasb (c r : nat) : bool := existsb (Nat.eqb c) (rowi r).
Definition rows_ok : Prop := forall r, r < n -> NoDup (rowi r) /\ Forall (fun c => c < s) (rowi r).
Hypothesis Hrows : rows_ok.

Lemma hasb_in : forall c r, hasb c r = true <-> In c (rowi r).
Proof using. intros. apply existsb_in. Qed.

(** Column weights and columns. *)
Definition cnt (st : list bool) (c : nat) : nat :=
  length (filter (fun r => negb (nth r st true) && hasb c r) (seq 0 n)).

Definition incs (cs : list nat) (ws : list nat) : list nat := fold_left (fun ws c => upd c S ws) cs ws.
Lemma incs_len : forall cs ws, length (incs cs ws) = length ws.
Proof using.
  intros cs. induction cs as [|c cs IH]; intros ws; [reflexivity|]. cbn [incs fold_left]. fold (incs cs (upd c S ws)).
  rewrite IH. apply upd_len.
Qed.
Lemma incs_nth : forall cs ws c, Forall (fun c => c < length ws) cs ->
  nth c (incs cs ws) 0 = nth c ws 0 + count_occ Nat.eq_dec cs c.
Proof using.
  intros cs. induction cs as [|x cs IH]; intros ws c F; [cbn; lia|]. inversion F; subst.
  cbn [incs fold_left]. fold (incs cs (upd x S ws)). rewrite IH by (rewrite upd_len; assumption).
  rewrite upd_get by assumption. cbn [count_occ]. destruct (Nat.eq_dec x c) as [->|D].
  - rewrite Nat.eqb_refl. lia.
  - destruct (Nat.eqb_spec c x); [congruence|]. lia.
Qed.
Lemma ofold_incs : forall cs ws, Forall (fun c => c < length ws) cs ->
  ofold (fun c ws => do w <- vget ws c; vset ws c (S w)) cs ws = Ok (incs cs ws).
Proof using.
  intros cs. induction cs as [|x cs IH]; intros ws F; [reflexivity|]. inversion F; subst. cbn [ofold].
  rewrite (vget_in _ 0) by assumption. cbn [bind]. rewrite vset_in by assumption. cbn [bind].
  assert (E : upd x (fun _ => S (nth x ws 0)) ws = upd x S ws).
  { apply (nth_ext _ _ 0 0); [rewrite !upd_len; reflexivity|]. intros k Hk. rewrite !upd_get by assumption. reflexivity. }
  rewrite E. rewrite IH by (rewrite upd_len; assumption). reflexivity.
Qed.
Lemma count_in : forall l (c : nat), NoDup l -> count_occ Nat.eq_dec l c = if existsb (Nat.eqb c) l then 1 else 0.
Proof using.
  intros l c N. destruct (existsb (Nat.eqb c) l) eqn:X.
  - apply existsb_in in X. apply (NoDup_count_occ' Nat.eq_dec l); assumption.
  - apply count_occ_not_In. intros I. apply existsb_in in I. congruence.
Qed.
Lemma seq_shift_nth : forall (A : Type) (l : list A) d, map (fun i => nth i l d) (seq 0 (length l)) = l.
Proof using.
  intros A l d. induction l as [|x r IH]; [reflexivity|]. cbn [length seq map nth]. f_equal.
  rewrite <- seq_shift, map_map. assumption.
Qed.
Lemma concat_rows : concat rows = flat_map rowi (seq 0 n).
Proof using.
  rewrite flat_map_concat_map. f_equal. symmetry. apply (seq_shift_nth _ rows []).
Qed.
Lemma count_flat : forall l c, (forall r, In r l -> r < n) ->
  count_occ Nat.eq_dec (flat_map rowi l) c = length (filter (hasb c) l).
Proof using Hrows.
  intros l c. induction l as [|r l IH]; intros H; [reflexivity|]. cbn [flat_map]. rewrite count_occ_app, IH by (intros; apply H; right; assumption).
  rewrite count_in by (apply Hrows, H; left; reflexivity). cbn [filter]. unfold hasb at 2. destruct (existsb _ _); reflexivity.
Qed.
Lemma count_cols_ok : exists ws, count_cols s rows = Ok ws /\ length ws = s /\
  forall c, nth c ws 0 = length (filter (hasb c) (seq 0 n)).
Proof using Hrows.
  unfold count_cols. exists (incs (concat rows) (repeat 0 s)).
  assert (F : Forall (fun c => c < length (repeat 0 s)) (concat rows)).
  { rewrite repeat_length, concat_rows, Forall_forall. intros c I. apply in_flat_map in I. destruct I as (r & I & J).
    apply in_seq in I. destruct (Hrows r) as [_ B]; [lia|]. rewrite Forall_forall in B. auto. }
  rewrite ofold_incs by assumption. split; [reflexivity|]. split; [rewrite incs_len, repeat_length; reflexivity|].
  intros c. rewrite incs_nth by assumption. rewrite nth_repeat, concat_rows, count_flat; [reflexivity|].
  intros r I. apply in_seq in I. lia.
Qed.

Definition addrow (i : nat) (row : list nat) (cols : list (list nat)) : list (list nat) :=
  fold_left (fun cols c => upd c (fun l => l ++ [i]) cols) row cols.
Lemma addrow_len : forall i row cols, length (addrow i row cols) = length cols.
Proof using.
  intros i row. induction row as [|c row IH]; intros cols; [reflexivity|]. cbn [addrow fold_left].
  fold (addrow i row (upd c (fun l => l ++ [i]) cols)). rewrite IH. apply upd_len.
Qed.
Lemma addrow_nth : forall i row cols c, NoDup row -> Forall (fun c => c < length cols) row ->
  nth c (addrow i row cols) [] = nth c cols [] ++ (if existsb (Nat.eqb c) row then [i] else []).
Proof using.
  intros i row. induction row as [|x row IH]; intros cols c N F; [cbn; rewrite app_nil_r; reflexivity|].
  inversion N; inversion F; subst. cbn [addrow fold_left existsb]. fold (addrow i row (upd x (fun l => l ++ [i]) cols)).
  rewrite IH; [|assumption|rewrite upd_len; assumption]. rewrite upd_get by assumption.
  destruct (Nat.eqb_spec c x) as [->|D]; cbn [orb]; [|reflexivity].
  destruct (existsb (Nat.eqb x) row) eqn:X; [apply existsb_in in X; contradiction|]. rewrite app_nil_r. reflexivity.
Qed.
Lemma ofold_addrow : forall i row cols, Forall (fun c => c < length cols) row ->
  ofold (fun c cols => do l <- vget cols c; vset cols c (l ++ [i])) row cols = Ok (addrow i row cols).
Proof using.
  intros i row. induction row as [|x row IH]; intros cols F; [reflexivity|]. inversion F; subst. cbn [ofold].
  rewrite (vget_in _ []) by assumption. cbn [bind]. rewrite vset_in by assumption. cbn [bind].
  assert (E : upd x (fun _ => nth x cols [] ++ [i]) cols = upd x (fun l => l ++ [i]) cols).
  { apply (nth_ext _ _ [] []); [rewrite !upd_len; reflexivity|]. intros k Hk. rewrite !upd_get by assumption. reflexivity. }
  rewrite E. rewrite IH by (rewrite upd_len; assumption). reflexivity.
Qed.
Lemma number_seq : forall (A : Type) (d : A) l k, number k l = map (fun i => (k + i, nth i l d)) (seq 0 (length l)).
Proof using.
  intros A d l. induction l as [|x r IH]; intros k; [reflexivity|]. cbn [number length seq map nth]. f_equal; [f_equal; lia|].
  rewrite IH, <- seq_shift, map_map. apply map_ext. intros i. f_equal. lia.
Qed.
Lemma build_cols_ok : exists cols, build_cols s rows = Ok cols /\ length cols = s /\
  forall c, nth c cols [] = filter (hasb c) (seq 0 n).
Proof using Hrows.
  unfold build_cols. rewrite (number_seq _ []).
  assert (G : forall l cols0, (forall r, In r l -> r < n) -> length cols0 = s -> exists cols,
    ofold (fun ir cols => ofold (fun c cols => do l <- vget cols c; vset cols c (l ++ [fst ir])) (snd ir) cols)
      (map (fun i => (0 + i, nth i rows [])) l) cols0 = Ok cols /\ length cols = s /\
    forall c, nth c cols [] = nth c cols0 [] ++ filter (hasb c) l).
  { intros l. induction l as [|r l IH]; intros cols0 H L.
    - exists cols0. split; [reflexivity|]. split; [assumption|]. intros c. cbn. rewrite app_nil_r. reflexivity.
    - cbn [map ofold fst snd plus]. destruct (Hrows r (H r (or_introl eq_refl))) as [N B]. unfold rowi in N, B.
      rewrite ofold_addrow by (rewrite L; assumption). cbn [bind].
      destruct (IH (addrow r (nth r rows []) cols0)) as (cols & E & L' & V); [intros; apply H; right; assumption|rewrite addrow_len; assumption|].
      exists cols. split; [exact E|]. split; [assumption|]. intros c. rewrite V, addrow_nth by (try rewrite L; assumption).
      rewrite <- app_assoc. f_equal. cbn [filter]. unfold hasb at 2, rowi. destruct (existsb _ _); reflexivity. }
  destruct (G (seq 0 n) (repeat [] s)) as (cols & E & L & V); [intros r I; apply in_seq in I; lia|apply repeat_length|].
  exists cols. split; [assumption|]. split; [assumption|]. intros c. rewrite V, nth_repeat. reflexivity.
Qed.

(** The triangulation. *)
Fixpoint tri_ok (main : list (nat * nat)) : Prop :=
  match main with
  | [] => True
  | (r, c) :: old => r < n /\ In c (rowi r) /\ (forall c', In c' (map snd old) -> ~ In c' (rowi r)) /\ tri_ok old
  end.
Definition set_iff (t : tri) : Prop :=
  length (t_set t) = n /\
  (forall r, r < n -> (nth r (t_set t) true = true <-> In r (map fst (t_main t)) \/ In r (map fst (t_gap t)))) /\
  NoDup (map fst (t_main t) ++ map fst (t_gap t)) /\
  Forall (fun g => fst g < n /\ In (snd g) (map fst (t_main t)) /\ nth (fst g) dense 0%N <> nth (snd g) dense 0%N) (t_gap t).
Record inv (t : tri) : Prop := {
  i_sets : sets_ok s (map snd (t_main t)) (t_wd t);
  i_trim : trimmed (wd_sets (t_wd t));
  i_cnt : forall c, c < s -> nth c (wd_weight (t_wd t)) 0 = cnt (t_set t) c;
  i_zero : forall c, In c (map snd (t_main t)) -> nth c (wd_weight (t_wd t)) 0 = 0;
  i_tri : tri_ok (t_main t);
  i_set : set_iff t;
  i_nd : NoDup (map snd (t_main t));
  i_lt : Forall (fun c => c < s) (map snd (t_main t)) }.

Lemma cnt_zero : forall st c, cnt st c = 0 <-> forall r, r < n -> nth r st true = false -> ~ In c (rowi r).
Proof using.
  intros st c. unfold cnt. split.
  - intros E r Hr Hs I. apply length_zero_iff_nil in E.
    assert (X : In r (filter (fun r => negb (nth r st true) && hasb c r) (seq 0 n))).
    { apply filter_In. split; [apply in_seq; lia|]. rewrite Hs. cbn. apply hasb_in. assumption. }
    rewrite E in X. destruct X.
  - intros H. destruct (filter _ _) as [|r l] eqn:E; [reflexivity|]. exfalso.
    assert (X : In r (r :: l)) by (left; reflexivity). rewrite <- E in X. apply filter_In in X. destruct X as [A B].
    apply in_seq in A. apply andb_prop in B. destruct B as [B C]. apply hasb_in in C. apply (H r); [lia| |assumption].
    destruct (nth r st true); [discriminate|reflexivity].
Qed.
Lemma cnt_set : forall st r c, r < n -> length st = n -> nth r st true = false ->
  cnt (upd r (fun _ => true) st) c = if hasb c r then pred (cnt st c) else cnt st c.
Proof using.
  intros st r c Hr L Hs. unfold cnt. destruct (hasb c r) eqn:E.
  - rewrite (filter_drop1 _ (fun r => negb (nth r st true) && hasb c r) (fun r0 => negb (nth r0 (upd r (fun _ => true) st) true) && hasb c r0) (seq 0 n) r).
    + reflexivity.
    + apply seq_NoDup.
    + apply in_seq. lia.
    + rewrite Hs, E. reflexivity.
    + rewrite upd_same by lia. reflexivity.
    + intros x _ D. rewrite upd_other by assumption. reflexivity.
  - f_equal. apply filter_ext_in. intros x _. destruct (Nat.eq_dec x r) as [->|D].
    + rewrite E, !andb_false_r. reflexivity.
    + rewrite upd_other by assumption. reflexivity.
Qed.

(** In the middle of a column. *)
Record vinv (old : list (nat * nat)) (gold : list (nat * nat)) (c : nat) (rest : list nat) (tf : tri * bool) : Prop := {
  v_sets : sets_ok s (c :: map snd old) (t_wd (fst tf));
  v_trim : trimmed (wd_sets (t_wd (fst tf)));
  v_cnt : forall x, x < s -> x <> c -> nth x (wd_weight (t_wd (fst tf))) 0 = cnt (t_set (fst tf)) x;
  v_zero : forall x, In x (c :: map snd old) -> nth x (wd_weight (t_wd (fst tf))) 0 = 0;
  v_tri : tri_ok (t_main (fst tf));
  v_set : set_iff (fst tf);
  v_main : if snd tf then t_main (fst tf) = old /\ t_gap (fst tf) = gold else exists r, t_main (fst tf) = (r, c) :: old;
  v_done : forall r, r < n -> In c (rowi r) -> ~ In r rest -> nth r (t_set (fst tf)) true = true;
  v_rest : forall r, In r rest -> r < n /\ In c (rowi r) }.

Lemma visit_facts : forall old gold c row rest tf tf',
  (forall x, In x (map snd old) -> x < s) -> c < s -> ~ In c (map snd old) ->
  vinv old gold c (row :: rest) tf -> visit rows dense c row tf = Ok tf' -> vinv old gold c rest tf'.
Proof using Hrows.
  intros old gold c row rest [t first] tf' Ho Hc Hn V H. destruct V as [VS VT VC VZ VR VI VM VD VX]. cbn [fst snd] in *.
  unfold visit in H. apply bind_ok in H. destruct H as (done & E & H). apply (vget_ok _ true) in E. destruct E as [Lr E].
  destruct VI as (Ls & VI & VN & VG). destruct (VX row (or_introl eq_refl)) as [Hr Hcr].
  destruct done.
  - injection H as <-. constructor; cbn [fst snd]; try assumption.
    + split; [assumption|]. split; [assumption|]. split; assumption.
    + intros r A B C. destruct (Nat.eq_dec r row) as [->|D]; [assumption|]. apply VD; auto. intros [X|X]; [congruence|contradiction].
    + intros r X. apply VX. right. assumption.
  - apply bind_ok in H. destruct H as (rs & E1 & H). apply vset_ok in E1. destruct E1 as [_ ->].
    apply bind_ok in H. destruct H as (cs & E2 & H). apply (vget_ok _ []) in E2. destruct E2 as [_ E2]. fold (rowi row) in E2. subst cs.
    apply bind_ok in H. destruct H as (wd & E3 & H).
    destruct (dec_row_facts s (c :: map snd old) (rowi row) (t_wd t) wd VS VZ E3) as (A & B & T).
    destruct (Hrows row Hr) as [ND FL].
    assert (Lw : length (wd_weight (t_wd t)) = s) by (destruct VS; assumption).
    assert (W : forall x, nth x (wd_weight wd) 0 = if hasb x row then pred (nth x (wd_weight (t_wd t)) 0) else nth x (wd_weight (t_wd t)) 0).
    { intros x. rewrite B. apply dec_all_nth; [assumption|]. rewrite Lw. assumption. }
    assert (C' : forall x, x < s -> x <> c -> nth x (wd_weight wd) 0 = cnt (upd row (fun _ => true) (t_set t)) x).
    { intros x Hx Dx. rewrite W, cnt_set by assumption. rewrite VC by assumption. reflexivity. }
    assert (Z' : forall x, In x (c :: map snd old) -> nth x (wd_weight wd) 0 = 0).
    { intros x I. rewrite W, (VZ x I). destruct (hasb x row); reflexivity. }
    assert (Hold : forall x, In x (map snd old) -> ~ In x (rowi row)).
    { intros x I J. assert (Hx : x < s) by auto. assert (Dx : x <> c) by (intros ->; contradiction).
      pose proof (VZ x (or_intror I)) as Z. rewrite VC in Z by assumption. apply (proj1 (cnt_zero _ _) Z row Hr E J). }
    assert (Nrow : ~ In row (map fst (t_main t)) /\ ~ In row (map fst (t_gap t))).
    { split; intros X; assert (Y : nth row (t_set t) true = true) by (apply VI; auto); congruence. }
    assert (D' : forall r, r < n -> In c (rowi r) -> ~ In r rest -> nth r (upd row (fun _ => true) (t_set t)) true = true).
    { intros r A1 A2 A3. destruct (Nat.eq_dec r row) as [->|D]; [apply upd_same; assumption|]. rewrite upd_other by assumption.
      apply VD; auto. intros [X|X]; [congruence|contradiction]. }
    destruct first.
    + injection H as <-. destruct VM as [VM VM']. constructor; cbn [fst snd t_wd t_set t_main t_gap]; auto.
      * rewrite VM. cbn [tri_ok]. split; [assumption|]. split; [assumption|]. split; [assumption|]. rewrite <- VM. assumption.
      * split; [cbn [t_set]; rewrite upd_len; assumption|]. cbn [t_set t_main t_gap map fst]. split; [|split].
        -- intros r Hr'. destruct (Nat.eq_dec r row) as [->|D].
           ++ rewrite upd_same by assumption. split; [intros _; left; left; reflexivity|reflexivity].
           ++ rewrite upd_other by assumption. rewrite VI by assumption. cbn [In]. split; [intros [X|X]; auto|intros [[X|X]|X]; auto; congruence].
        -- cbn [app]. constructor; [|assumption]. rewrite in_app_iff. tauto.
        -- revert VG. apply Forall_impl. intros g (X & Y & Y'). split; [assumption|]. split; [right; assumption|assumption].
      * exists row. rewrite VM. reflexivity.
      * intros r X. apply VX. right. assumption.
    + destruct VM as [r0 VM]. rewrite VM in H. apply bind_ok in H. destruct H as (dm & E4 & H). apply bind_ok in H. destruct H as (dr & E5 & H).
      apply enf_ok in H. destruct H as [E6 H]. injection H as <-.
      apply (vget_ok _ 0%N) in E4. apply (vget_ok _ 0%N) in E5.
      constructor; cbn [fst snd t_wd t_set t_main t_gap]; auto.
      * rewrite <- VM. assumption.
      * split; [cbn [t_set]; rewrite upd_len; assumption|]. cbn [t_set t_main t_gap]. rewrite map_app. cbn [map fst app]. split; [|split].
        -- intros r Hr'. rewrite in_app_iff. destruct (Nat.eq_dec r row) as [->|D].
           ++ rewrite upd_same by assumption. split; [intros _; right; right; left; reflexivity|reflexivity].
           ++ rewrite upd_other by assumption. rewrite VI by assumption. rewrite VM. cbn [In map fst]. assert (row <> r) by congruence. tauto.
        -- change (r0 :: map fst old ++ map fst (t_gap t) ++ [row]) with ((r0 :: map fst old) ++ map fst (t_gap t) ++ [row]).
           change (r0 :: map fst old) with (map fst ((r0, c) :: old)). rewrite <- VM. rewrite app_assoc.
           eapply Permutation_NoDup; [apply Permutation_app_comm|]. cbn [app]. constructor; [rewrite in_app_iff; tauto|assumption].
        -- apply Forall_app. rewrite VM in VG. split; [exact VG|]. constructor; [|constructor]. cbn [fst snd]. split; [assumption|]. split.
           ++ left. reflexivity.
           ++ destruct E4 as [_ ->], E5 as [_ ->]. apply negb_true_iff in E6. apply N.eqb_neq in E6. auto.
      * exists r0. reflexivity.
      * intros r X. apply VX. right. assumption.
Qed.

Lemma visits_facts : forall old gold c l tf tf',
  (forall x, In x (map snd old) -> x < s) -> c < s -> ~ In c (map snd old) ->
  vinv old gold c l tf -> ofold (visit rows dense c) l tf = Ok tf' -> vinv old gold c [] tf'.
Proof using Hrows.
  intros old gold c l tf tf' Ho Hc Hn V H.
  apply (ofold_inv _ _ (fun l tf => vinv old gold c l tf) (visit rows dense c) l tf tf'); try assumption.
  intros x r st st' V' E. eapply visit_facts; eassumption.
Qed.

Lemma start_vinv : forall t w c sets, inv t -> min_node (wd_sets (t_wd t)) = Ok (w, c) ->
  pop_node w c (wd_sets (t_wd t)) = Ok sets ->
  c < s /\ ~ In c (map snd (t_main t)) /\ w = cnt (t_set t) c /\ 1 <= w /\
  vinv (t_main t) (t_gap t) c (filter (hasb c) (seq 0 n))
       (mk_tri (mk_wd sets (upd c (fun _ => 0) (wd_weight (t_wd t)))) (t_set t) (t_main t) (t_gap t), true).
Proof using.
  intros t w c sets I M P. destruct I as [IS IT IC IZ IR II ID IL].
  destruct (min_facts s _ _ _ _ IS M) as (W1 & (Hc & Hn & Hw) & _).
  destruct (t_wd t) as [sets0 ws0] eqn:Ewd. cbn [wd_sets wd_weight] in *.
  destruct (pop_facts s _ _ _ _ _ _ IS P) as (_ & B & C & D).
  assert (Lw : length ws0 = s) by (destruct IS as (L & _); exact L).
  split; [assumption|]. split; [assumption|]. split; [rewrite <- IC by assumption; auto|]. split; [assumption|].
  constructor; cbn [fst snd t_wd t_set t_main t_gap wd_sets wd_weight]; auto.
  - split; [cbn [wd_weight]; rewrite upd_len; assumption|]. cbn [wd_sets wd_weight]. split; [|assumption].
    intros x v. rewrite B. unfold node_at. cbn [In]. destruct (Nat.eq_dec x c) as [->|Dx].
    + split; [intros [_ X]; contradiction|intros (_ & X & _); tauto].
    + rewrite upd_other by assumption. assert (c <> x) by congruence. tauto.
  - intros x Hx Dx. rewrite upd_other by assumption. auto.
  - intros x [<-|X]; [rewrite upd_same by lia; reflexivity|].
    rewrite upd_other; [auto|]. intros ->. contradiction.
  - intros r Hr Hcr X. exfalso. apply X. apply filter_In. split; [apply in_seq; lia|apply hasb_in; assumption].
  - intros r X. apply filter_In in X. destruct X as [X Y]. apply in_seq in X. apply hasb_in in Y. split; [lia|assumption].
Qed.
Lemma end_inv : forall old gold c t, (forall x, In x (map snd old) -> x < s) -> c < s -> ~ In c (map snd old) -> NoDup (map snd old) ->
  vinv old gold c [] (t, false) -> inv t /\ exists r, t_main t = (r, c) :: old.
Proof using.
  intros old gold c t Ho Hc Hn Hd V. destruct V as [VS VT VC VZ VR VI VM VD VX]. cbn [fst snd] in *.
  destruct VM as [r VM]. split; [|eauto].
  assert (E : map snd (t_main t) = c :: map snd old) by (rewrite VM; reflexivity).
  constructor; auto.
  - rewrite E. assumption.
  - intros x Hx. destruct (Nat.eq_dec x c) as [->|Dx]; [|auto]. rewrite VZ by (left; reflexivity). symmetry.
    apply cnt_zero. intros r' Hr' Hs J. rewrite VD in Hs; auto. discriminate.
  - intros x X. apply VZ. rewrite <- E. assumption.
  - rewrite E. constructor; assumption.
  - rewrite E, Forall_forall. intros x [<-|X]; auto.
Qed.

Lemma inv_lt : forall t, inv t -> forall x, In x (map snd (t_main t)) -> x < s.
Proof using. intros t I x X. destruct I. rewrite Forall_forall in i_lt0. auto. Qed.

Lemma loop_facts : forall cols, length cols = s -> (forall c, nth c cols [] = filter (hasb c) (seq 0 n)) ->
  forall fuel t t', inv t -> tri_loop fuel rows cols dense t = Ok t' -> inv t' /\ length (wd_sets (t_wd t')) <= 1.
Proof using Hrows.
  intros cols Lc Hc fuel. induction fuel as [|f IH]; intros t t' I H; [discriminate|]. cbn [tri_loop] in H.
  destruct (Nat.leb_spec (length (wd_sets (t_wd t))) 1) as [Q|Q]; [injection H as <-; auto|].
  apply bind_ok in H. destruct H as ([w c] & E1 & H). apply bind_ok in H. destruct H as (sets & E2 & H).
  apply bind_ok in H. destruct H as (ws & E3 & H). apply bind_ok in H. destruct H as (col & E4 & H).
  apply bind_ok in H. destruct H as ([t1 first] & E5 & H). apply enf_ok in H. destruct H as [E6 H].
  apply vset_ok in E3. destruct E3 as [_ ->]. apply (vget_ok _ []) in E4. destruct E4 as [_ E4]. rewrite Hc in E4. subst col.
  destruct (start_vinv t w c sets I E1 E2) as (A & B & _ & _ & V).
  pose proof (visits_facts _ _ _ _ _ _ (inv_lt t I) A B V E5) as V'. destruct first; [discriminate|].
  destruct (end_inv _ _ _ _ (inv_lt t I) A B (i_nd t I) V') as (I1 & _). apply (IH t1); assumption.
Qed.

Lemma visit_nodiv : forall c row tf, visit rows dense c row tf <> Diverge.
Proof using.
  intros c row [t first]. unfold visit, vget, vset. destruct (nth_error (t_set t) row) as [[|]|]; cbn [bind]; try discriminate.
  destruct (_ <? _); cbn [bind]; [|discriminate]. destruct (nth_error rows row); cbn [bind]; [|discriminate].
  pose proof (dec_no_diverge l (t_wd t)) as D. destruct (ofold dec_col l (t_wd t)); cbn [bind]; try discriminate; [|contradiction].
  destruct first; [discriminate|]. destruct (t_main t) as [|[m m'] r]; [discriminate|].
  destruct (nth_error dense m); cbn [bind]; [|discriminate]. destruct (nth_error dense row); cbn [bind]; [|discriminate].
  destruct (negb _); discriminate.
Qed.
Lemma visits_nodiv : forall c l tf, ofold (visit rows dense c) l tf <> Diverge.
Proof using.
  intros c l. induction l as [|r l IH]; intros tf; [discriminate|]. cbn [ofold].
  pose proof (visit_nodiv c r tf) as D. destruct (visit rows dense c r tf); cbn [bind]; try discriminate; [apply IH|contradiction].
Qed.
Lemma main_len : forall t, inv t -> length (t_main t) <= s.
Proof using.
  intros t I. rewrite <- (map_length snd). rewrite <- (seq_length s 0). apply NoDup_incl_length; [apply (i_nd t I)|].
  intros x X. apply in_seq. pose proof (inv_lt t I x X). lia.
Qed.
Lemma loop_nodiv : forall cols, length cols = s -> (forall c, nth c cols [] = filter (hasb c) (seq 0 n)) ->
  forall fuel t, inv t -> s < fuel + length (t_main t) -> tri_loop fuel rows cols dense t <> Diverge.
Proof using Hrows.
  intros cols Lc Hc fuel. induction fuel as [|f IH]; intros t I L.
  - pose proof (main_len t I). lia.
  - cbn [tri_loop]. destruct (Nat.leb_spec (length (wd_sets (t_wd t))) 1) as [Q|Q]; [discriminate|].
    pose proof (min_no_diverge (wd_sets (t_wd t))) as D1. destruct (min_node (wd_sets (t_wd t))) as [[w c]| | |] eqn:E1; cbn [bind]; try discriminate; [|contradiction].
    pose proof (pop_no_diverge w c (wd_sets (t_wd t))) as D2. destruct (pop_node w c (wd_sets (t_wd t))) as [sets| | |] eqn:E2; cbn [bind]; try discriminate; [|contradiction].
    unfold vset. destruct (_ <? _); cbn [bind]; [|discriminate].
    destruct (vget cols c) as [col| | |] eqn:E4; cbn [bind]; try discriminate.
    2: { unfold vget in E4. destruct (nth_error cols c); discriminate. }
    apply (vget_ok _ []) in E4. destruct E4 as [_ E4]. rewrite Hc in E4. subst col.
    destruct (start_vinv t w c sets I E1 E2) as (A & B & _ & _ & V).
    match goal with |- bind (ofold ?f ?l ?st) _ <> _ => pose proof (visits_nodiv c l st) as D3; destruct (ofold f l st) as [[t1 first]| | |] eqn:E5 end; cbn [bind]; try discriminate; [|contradiction].
    pose proof (visits_facts _ _ _ _ _ _ (inv_lt t I) A B V E5) as V'. destruct first; [discriminate|]. cbn [negb enforce].
    destruct (end_inv _ _ _ _ (inv_lt t I) A B (i_nd t I) V') as (I1 & r & M). apply IH; [assumption|]. rewrite M. cbn [length]. lia.
Qed.

(** The initial state. *)
Lemma init_inv : forall ws wd, 0 < s -> length ws = s -> (forall c, nth c ws 0 = length (filter (hasb c) (seq 0 n))) ->
  wd_init ws = Ok wd -> inv (mk_tri wd (repeat false n) [] []).
Proof using.
  intros ws wd Hs L C H. destruct (wd_init_facts s ws wd L Hs H) as (A & B & T).
  constructor; cbn [t_wd t_set t_main t_gap map]; auto.
  - intros c Hc. rewrite B, C. unfold cnt. f_equal. apply filter_ext_in. intros r Hr. apply in_seq in Hr.
    replace (nth r (repeat false n) true) with false; [reflexivity|].
    symmetry. assert (X : In (nth r (repeat false n) true) (repeat false n)) by (apply nth_In; rewrite repeat_length; lia).
    apply repeat_spec in X. assumption.
  - intros c [].
  - exact Logic.I.
  - split; [cbn; apply repeat_length|]. cbn [t_set t_main t_gap map app]. split; [|split; constructor].
    intros r Hr. assert (X : In (nth r (repeat false n) true) (repeat false n)) by (apply nth_In; rewrite repeat_length; lia).
    apply repeat_spec in X. rewrite X. cbn [In]. split; [discriminate|tauto].
  - constructor.
Qed.
Lemma map_len_cols : forall cols : list (list nat), length cols = s -> (forall c, nth c cols [] = filter (hasb c) (seq 0 n)) ->
  forall c, nth c (map (@length nat) cols) 0 = length (filter (hasb c) (seq 0 n)).
Proof using.
  intros cols L H c. change 0 with (length (@nil nat)) at 1. rewrite map_nth, H. reflexivity.
Qed.

Lemma all_set : forall t, inv t -> length (wd_sets (t_wd t)) <= 1 -> (forall r, r < n -> rowi r <> []) ->
  forall r, r < n -> nth r (t_set t) true = true.
Proof using Hrows.
  intros t I L Hne r Hr. destruct (nth r (t_set t) true) eqn:E; [reflexivity|exfalso].
  specialize (Hne r Hr). destruct (rowi r) as [|c l] eqn:Er; [contradiction|]. clear Hne.
  destruct (Hrows r Hr) as [_ F]. rewrite Er in F. inversion F; subst.
  pose proof (i_cnt t I c H1) as C. pose proof (i_sets t I) as (L1 & B & _).
  assert (Z : nth c (wd_weight (t_wd t)) 0 = 0).
  { destruct (in_dec Nat.eq_dec c (map snd (t_main t))) as [Y|Y]; [apply (i_zero t I); assumption|].
    assert (X : In c (nth (nth c (wd_weight (t_wd t)) 0) (wd_sets (t_wd t)) [])) by (apply B; repeat split; assumption).
    destruct (nth c (wd_weight (t_wd t)) 0); [reflexivity|]. rewrite nth_overflow in X by lia. destruct X. }
  rewrite Z in C. symmetry in C. apply (proj1 (cnt_zero _ _) C r Hr E). rewrite Er. left. reflexivity.
Qed.

Theorem triangulate_facts : forall t, 0 < s -> (forall r, r < n -> rowi r <> []) ->
  triangulate s rows dense = Ok t -> inv t /\ forall r, r < n -> In r (map fst (t_main t)) \/ In r (map fst (t_gap t)).
Proof using Hrows.
  intros t Hs Hne H. unfold triangulate in H.
  destruct count_cols_ok as (ws & E1 & L1 & V1). destruct build_cols_ok as (cols & E2 & L2 & V2).
  rewrite E1, E2 in H. cbn [bind] in H. apply bind_ok in H. destruct H as (wd & E3 & H). apply bind_ok in H. destruct H as (wd' & E4 & H).
  assert (I : inv (mk_tri wd' (repeat false n) [] [])).
  { destruct (length (wd_sets wd) <=? 1).
    - apply (init_inv (map (@length nat) cols)); auto; [rewrite map_length; assumption|apply map_len_cols; assumption].
    - injection E4 as <-. apply (init_inv ws); auto. }
  destruct (loop_facts cols L2 V2 _ _ _ I H) as [I' L']. split; [assumption|].
  intros r Hr. destruct (i_set t I') as (_ & Q & _). apply Q; [assumption|]. apply all_set; assumption.
Qed.
Theorem triangulate_nodiv : 0 < s -> triangulate s rows dense <> Diverge.
Proof using Hrows.
  intros Hs. unfold triangulate.
  destruct count_cols_ok as (ws & E1 & L1 & V1). destruct build_cols_ok as (cols & E2 & L2 & V2).
  rewrite E1, E2. cbn [bind]. pose proof (wd_init_no_diverge ws) as D. destruct (wd_init ws) as [wd| | |] eqn:E3; cbn [bind]; try discriminate; [|contradiction].
  destruct (length (wd_sets wd) <=? 1).
  - pose proof (wd_init_no_diverge (map (@length nat) cols)) as D'. destruct (wd_init (map (@length nat) cols)) as [wd'| | |] eqn:E4; cbn [bind]; try discriminate; [|contradiction].
    apply (loop_nodiv cols L2 V2); [|cbn; lia]. apply (init_inv (map (@length nat) cols)); auto; [rewrite map_length; assumption|apply map_len_cols; assumption].
  - cbn [bind]. apply (loop_nodiv cols L2 V2); [|cbn; lia]. apply (init_inv ws); auto.
Qed.
End Tri.
