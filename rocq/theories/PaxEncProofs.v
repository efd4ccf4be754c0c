(** Lemmas about the Paxos encoder: vectors, and the weight lists. *)
From Coq Require Import List Arith NArith Bool Lia Permutation.
From Verif Require Import Base BaseProofs StoreModel OkvsModel PaxEncModel.
Import ListNotations.
Local Open Scope nat_scope.

Lemma upd_len : forall (A : Type) n (f : A -> A) l, length (upd n f l) = length l.
Proof. induction n as [|n IH]; intros f [|x l]; simpl; auto. Qed.
Lemma upd_get : forall (A : Type) (d : A) n f l m, n < length l ->
  nth m (upd n f l) d = if m =? n then f (nth n l d) else nth m l d.
Proof.
  induction n as [|n IH]; intros f [|x l] m L; simpl in L; try lia.
  - destruct m; reflexivity.
  - destruct m as [|m]; [reflexivity|]. simpl. apply IH. lia.
Qed.
Lemma upd_same : forall (A : Type) (d : A) n f l, n < length l -> nth n (upd n f l) d = f (nth n l d).
Proof. intros. rewrite upd_get by assumption. rewrite Nat.eqb_refl. reflexivity. Qed.
Lemma upd_other : forall (A : Type) (d : A) n f l m, m <> n -> nth m (upd n f l) d = nth m l d.
Proof.
  intros A d n f l m H. destruct (Nat.lt_ge_cases n (length l)) as [L|L].
  - rewrite upd_get by assumption. destruct (Nat.eqb_spec m n); [contradiction|reflexivity].
  - f_equal. clear H. revert n L. induction l as [|x l IH]; intros [|n] L; simpl in *; try lia; auto.
    f_equal. apply IH. lia.
Qed.

Lemma vget_ok : forall (A : Type) (d : A) l i x, vget l i = Ok x <-> i < length l /\ nth i l d = x.
Proof.
  intros A d l i x. unfold vget. split.
  - destruct (nth_error l i) eqn:E; [|discriminate]. intros [= <-].
    split; [apply nth_error_Some; congruence|]. apply nth_error_nth. assumption.
  - intros [L <-]. rewrite (nth_error_nth' l d) by assumption. reflexivity.
Qed.
Lemma vget_in : forall (A : Type) (d : A) l i, i < length l -> vget l i = Ok (nth i l d).
Proof. intros. apply (vget_ok A d). auto. Qed.
Lemma vset_ok : forall (A : Type) (l : list A) i x l', vset l i x = Ok l' <-> i < length l /\ l' = upd i (fun _ => x) l.
Proof.
  intros A l i x l'. unfold vset. destruct (Nat.ltb_spec i (length l)); split; intros H'.
  - injection H' as <-. auto.
  - destruct H' as [_ ->]. reflexivity.
  - discriminate.
  - lia.
Qed.
Lemma vset_in : forall (A : Type) (l : list A) i x, i < length l -> vset l i x = Ok (upd i (fun _ => x) l).
Proof. intros. apply vset_ok. auto. Qed.

Lemma bind_ok : forall (A B : Type) (m : outcome A) (f : A -> outcome B) b,
  bind m f = Ok b -> exists a, m = Ok a /\ f a = Ok b.
Proof. intros A B [a| | |] f b H; cbn in H; try discriminate. eauto. Qed.
Lemma enf_ok : forall (A : Type) b (k : outcome A) a, enforce b k = Ok a -> b = true /\ k = Ok a.
Proof. intros A [|] k a H; cbn in H; [auto|discriminate]. Qed.

Lemma ofold_inv : forall (A S : Type) (P : list A -> S -> Prop) (f : A -> S -> outcome S) l st st',
  P l st -> (forall x r s s', P (x :: r) s -> f x s = Ok s' -> P r s') ->
  ofold f l st = Ok st' -> P [] st'.
Proof.
  intros A S P f l. induction l as [|x r IH]; intros st st' H0 Hs H.
  - cbn in H. injection H as <-. assumption.
  - cbn [ofold] in H. apply bind_ok in H. destruct H as (s1 & E1 & E2).
    apply (IH s1); try assumption. apply (Hs x r st); assumption.
Qed.
(** The same with progress. *)
Lemma ofold_prog : forall (A S : Type) (P : list A -> S -> Prop) (f : A -> S -> outcome S) l st,
  P l st -> (forall x r s, P (x :: r) s -> exists s', f x s = Ok s' /\ P r s') ->
  exists st', ofold f l st = Ok st' /\ P [] st'.
Proof.
  intros A S P f l. induction l as [|x r IH]; intros st H0 Hs.
  - exists st. auto.
  - destruct (Hs x r st H0) as (s1 & E & H1). cbn [ofold]. rewrite E. cbn [bind]. apply IH; assumption.
Qed.
Lemma ofold_app : forall (A S : Type) (f : A -> S -> outcome S) l1 l2 st,
  ofold f (l1 ++ l2) st = bind (ofold f l1 st) (ofold f l2).
Proof.
  intros A S f l1. induction l1 as [|x r IH]; intros l2 st; [reflexivity|].
  cbn [app ofold]. destruct (f x st); cbn [bind]; auto.
Qed.
Lemma ofold_pure : forall (A S : Type) (f : A -> S -> outcome S) (g : A -> S -> S) l st,
  (forall x s, In x l -> f x s = Ok (g x s)) -> ofold f l st = Ok (fold_left (fun s x => g x s) l st).
Proof.
  intros A S f g l. induction l as [|x r IH]; intros st H; [reflexivity|].
  cbn [ofold fold_left]. rewrite H by (left; reflexivity). cbn [bind]. apply IH. intros; apply H; right; assumption.
Qed.

(** trim drops empty lists at the end only. *)
Lemma trim_nth : forall (A : Type) (l : list (list A)) k, nth k (trim l) [] = nth k l [].
Proof.
  intros A l. induction l as [|x r IH]; intros k; [reflexivity|].
  cbn [trim]. destruct (trim r) as [|y t] eqn:E.
  - destruct x as [|a x].
    + destruct k as [|k]; [reflexivity|]. specialize (IH k). cbn [nth] in *. rewrite <- IH. destruct k; reflexivity.
    + destruct k as [|k]; [reflexivity|]. cbn [nth]. apply IH.
  - destruct k as [|k]; [reflexivity|]. cbn [nth]. apply IH.
Qed.
Definition trimmed {A : Type} (l : list (list A)) : Prop :=
  length l <= 1 \/ nth (length l - 1) l [] <> [].
Lemma trim_last : forall (A : Type) (l : list (list A)), trim l = [] \/ nth (length (trim l) - 1) (trim l) [] <> [].
Proof.
  intros A l. induction l as [|x r IH]; [left; reflexivity|]. cbn [trim].
  destruct (trim r) as [|y t] eqn:E.
  - destruct x as [|a x]; [left; reflexivity|]. right. cbn. discriminate.
  - right. destruct IH as [IH|IH]; [discriminate|].
    cbn [length] in *. replace (S (S (length t)) - 1) with (S (S (length t) - 1)) by lia. cbn [nth]. assumption.
Qed.
Lemma trim_trimmed : forall (A : Type) (l : list (list A)), trimmed (trim l).
Proof. intros A l. destruct (trim_last A l) as [E|E]; [left; rewrite E; cbn; lia|right; assumption]. Qed.
Lemma trim_nil : forall (A : Type) (l : list (list A)), trim l = [] -> forall k, nth k l [] = [].
Proof. intros A l E k. rewrite <- trim_nth, E. destruct k; reflexivity. Qed.
Lemma trim_len : forall (A : Type) (l : list (list A)), length (trim l) <= length l.
Proof.
  intros A l. induction l as [|x r IH]; [reflexivity|]. cbn [trim]. destruct (trim r), x; cbn [length] in *; lia.
Qed.

Lemma remove1_in : forall c l x, NoDup l -> In x (remove1 c l) <-> In x l /\ x <> c.
Proof.
  intros c l x. induction l as [|y r IH]; intros N; [cbn; tauto|]. inversion N; subst. cbn [remove1].
  destruct (Nat.eqb_spec y c) as [->|D].
  - split; [intros I; split; [right; assumption|]|intros [[E|I] D]; [congruence|assumption]].
    intros ->. contradiction.
  - cbn [In]. rewrite IH by assumption. split; [intros [E|[I D']]|intros [[E|I] D']]; auto. split; [auto|congruence].
Qed.
Lemma remove1_nodup : forall c l, NoDup l -> NoDup (remove1 c l).
Proof.
  intros c l. induction l as [|y r IH]; intros N; [constructor|]. inversion N; subst. cbn [remove1].
  destruct (Nat.eqb_spec y c); [assumption|]. constructor; [|auto]. rewrite remove1_in by assumption. tauto.
Qed.

Section Sets.
(** Number of columns; columns taken out of the lists. *)
Variable s : nat.
Definition node_at (pc ws : list nat) (w c : nat) : Prop := c < s /\ ~ In c pc /\ nth c ws 0 = w.
Definition sets_ok (pc : list nat) (wd : wdata) : Prop :=
  length (wd_weight wd) = s /\
  (forall c w, In c (nth w (wd_sets wd) []) <-> node_at pc (wd_weight wd) w c) /\
  (forall w, NoDup (nth w (wd_sets wd) [])).

Lemma existsb_in : forall c l, existsb (Nat.eqb c) l = true <-> In c l.
Proof.
  intros c l. rewrite existsb_exists. split; [intros (x & I & E); apply Nat.eqb_eq in E; subst; assumption|].
  intros I. exists c. split; [assumption|apply Nat.eqb_refl].
Qed.

(** Taking a node out. *)
Lemma pop_facts : forall pc sets ws w c sets', sets_ok pc (mk_wd sets ws) -> pop_node w c sets = Ok sets' ->
  node_at pc ws w c /\
  (forall x v, In x (nth v sets' []) <-> node_at pc ws v x /\ x <> c) /\
  (forall v, NoDup (nth v sets' [])) /\ (trimmed sets -> trimmed sets').
Proof.
  intros pc sets ws w c sets' (L & I & N) H. cbn [wd_sets wd_weight] in *. unfold pop_node in H.
  destruct (nth_error sets w) as [l|] eqn:E; [|discriminate].
  assert (Lw : w < length sets) by (apply nth_error_Some; congruence).
  assert (El : nth w sets [] = l) by (apply nth_error_nth; assumption).
  destruct (existsb (Nat.eqb c) l) eqn:X; [|discriminate]. apply existsb_in in X. cbn [negb] in H.
  assert (Hc : node_at pc ws w c) by (apply I; rewrite El; assumption).
  assert (Nl : NoDup l) by (rewrite <- El; apply N).
  assert (G : forall l' v x, l' = remove1 c l -> (In x (nth v (upd w (fun _ => l') sets) []) <-> node_at pc ws v x /\ x <> c)).
  { intros l' v x ->. rewrite upd_get by assumption. destruct (Nat.eqb_spec v w) as [->|D].
    - rewrite remove1_in by assumption. rewrite <- El, I. tauto.
    - rewrite I. split; [|tauto]. intros A. split; [assumption|]. intros ->.
      destruct A as (_ & _ & A). destruct Hc as (_ & _ & B). congruence. }
  assert (GN : forall l', l' = remove1 c l -> forall v, NoDup (nth v (upd w (fun _ => l') sets) [])).
  { intros l' -> v. rewrite upd_get by assumption. destruct (v =? w); [apply remove1_nodup; assumption|apply N]. }
  split; [assumption|]. destruct (remove1 c l) as [|y l'] eqn:R.
  - destruct (trim (upd w (fun _ => []) sets)) as [|z t] eqn:T; [discriminate|]. injection H as <-.
    split; [intros x v; rewrite <- T, trim_nth; apply G; reflexivity|].
    split; [intros v; rewrite <- T, trim_nth; apply GN; reflexivity|].
    intros _. rewrite <- T. apply trim_trimmed.
  - injection H as <-. split; [intros; apply G; reflexivity|]. split; [apply GN; reflexivity|].
    intros [T|T]; [left; rewrite upd_len; assumption|right]. rewrite upd_len, upd_get by assumption.
    destruct (length sets - 1 =? w); [discriminate|assumption].
Qed.
Lemma pop_prog : forall pc sets ws w c, sets_ok pc (mk_wd sets ws) -> node_at pc ws w c ->
  (exists c', c' <> c /\ c' < s /\ ~ In c' pc) -> exists sets', pop_node w c sets = Ok sets'.
Proof.
  intros pc sets ws w c (L & I & N) Hc (c' & D & Hs & Hp). cbn [wd_sets wd_weight] in *. unfold pop_node.
  pose proof (proj2 (I c w) Hc) as X.
  destruct (nth_error sets w) as [l|] eqn:E.
  2: { apply nth_error_None in E. rewrite nth_overflow in X by assumption. destruct X. }
  assert (Lw : w < length sets) by (apply nth_error_Some; congruence).
  assert (El : nth w sets [] = l) by (apply nth_error_nth; assumption). rewrite El in X.
  rewrite (proj2 (existsb_in c l) X). cbn [negb].
  destruct (remove1 c l) as [|y l'] eqn:R; [|eauto].
  destruct (trim (upd w (fun _ => []) sets)) as [|z t] eqn:T; [|eauto]. exfalso.
  pose proof (trim_nil _ _ T (nth c' ws 0)) as Z. rewrite upd_get in Z by assumption.
  assert (X' : In c' (nth (nth c' ws 0) sets [])) by (apply I; repeat split; assumption).
  destruct (Nat.eqb_spec (nth c' ws 0) w) as [Ew|Ew].
  - rewrite Ew, El in X'. assert (In c' (remove1 c l)) by (apply remove1_in; [rewrite <- El; apply N|auto]).
    rewrite R in H. destruct H.
  - rewrite Z in X'. destruct X'.
Qed.
Lemma pop_no_diverge : forall w c sets, pop_node w c sets <> Diverge.
Proof.
  intros. unfold pop_node. destruct (nth_error sets w); [|discriminate]. destruct (negb _); [discriminate|].
  destruct (remove1 c l); [|discriminate]. destruct (trim _); discriminate.
Qed.

(** Putting a node back with another weight. *)
Lemma push_facts : forall pc sets ws w c, length ws = s -> c < s -> ~ In c pc ->
  (forall x v, In x (nth v sets []) <-> node_at pc ws v x /\ x <> c) -> (forall v, NoDup (nth v sets [])) ->
  sets_ok pc (mk_wd (push_node w c sets) (upd c (fun _ => w) ws)) /\ (trimmed sets -> trimmed (push_node w c sets)).
Proof.
  intros pc sets ws w c L Hc Hp I N. unfold push_node.
  set (sets1 := if length sets <=? w then _ else _).
  assert (N1 : forall v, nth v sets1 [] = nth v sets []).
  { intros v. unfold sets1. destruct (Nat.leb_spec (length sets) w); [|reflexivity].
    destruct (Nat.lt_ge_cases v (length sets)); [apply app_nth1; assumption|].
    rewrite app_nth2 by assumption. rewrite (nth_overflow sets) by assumption. apply nth_repeat. }
  assert (Lw : w < length sets1).
  { unfold sets1. destruct (Nat.leb_spec (length sets) w); [|assumption]. rewrite app_length, repeat_length. lia. }
  split; [split; [|split]|]; cbn [wd_sets wd_weight].
  - rewrite upd_len. assumption.
  - intros x v. rewrite upd_get by assumption. unfold node_at. rewrite upd_get by lia.
    destruct (Nat.eqb_spec v w) as [->|Dv]; destruct (Nat.eqb_spec x c) as [->|Dx].
    + split; [intros _; auto|left; reflexivity].
    + cbn [In]. rewrite N1, I. unfold node_at. split; [intros [E|[A _]]; [congruence|assumption]|intros A; right; auto].
    + rewrite N1, I. split; [intros [_ E]; congruence|intros (_ & _ & E); congruence].
    + rewrite N1, I. unfold node_at. tauto.
  - intros v. rewrite upd_get by assumption. destruct (Nat.eqb_spec v w) as [->|Dv]; rewrite N1; [|apply N].
    constructor; [rewrite I; tauto|apply N].
  - intros T. unfold trimmed. rewrite upd_len. rewrite upd_get by assumption. right.
    destruct (Nat.eqb_spec (length sets1 - 1) w) as [E|E]; [discriminate|].
    unfold sets1 in *. destruct (Nat.leb_spec (length sets) w) as [Q|Q].
    + rewrite app_length, repeat_length in E. lia.
    + destruct T as [T|T]; [lia|assumption].
Qed.

Lemma dec_col_facts : forall pc wd c wd', sets_ok pc wd -> (In c pc -> nth c (wd_weight wd) 0 = 0) ->
  dec_col c wd = Ok wd' ->
  sets_ok pc wd' /\ wd_weight wd' = upd c pred (wd_weight wd) /\ (trimmed (wd_sets wd) -> trimmed (wd_sets wd')).
Proof.
  intros pc [sets ws] c wd' SO Z H. unfold dec_col in H. cbn [wd_weight wd_sets] in *.
  pose proof SO as (L & I & N). cbn [wd_weight wd_sets] in *.
  apply bind_ok in H. destruct H as (w & E & H). apply (vget_ok _ 0) in E. destruct E as [Lc E].
  destruct w as [|v].
  - injection H as <-. cbn [wd_weight wd_sets]. split; [assumption|]. split; [|auto].
    apply (nth_ext _ _ 0 0); [rewrite upd_len; reflexivity|]. intros k Hk. rewrite upd_get by lia.
    destruct (Nat.eqb_spec k c) as [->|]; [|reflexivity]. rewrite E. reflexivity.
  - apply bind_ok in H. destruct H as (sets' & P & H). apply bind_ok in H. destruct H as (ws' & V & H).
    injection H as <-. apply vset_ok in V. destruct V as [_ ->].
    destruct (pop_facts pc sets ws (S v) c sets' SO P) as (A & B & C & D).
    destruct (push_facts pc sets' ws v c L (proj1 A) (proj1 (proj2 A)) B C) as [F G].
    cbn [wd_weight wd_sets]. split; [assumption|]. split; [|auto].
    apply (nth_ext _ _ 0 0); [rewrite !upd_len; reflexivity|]. intros k Hk. rewrite upd_len in Hk.
    rewrite !upd_get by lia. destruct (Nat.eqb_spec k c) as [->|]; [|reflexivity]. rewrite E. reflexivity.
Qed.
Lemma dec_col_prog : forall pc wd c, sets_ok pc wd -> c < s -> (In c pc -> nth c (wd_weight wd) 0 = 0) ->
  (exists c', c' <> c /\ c' < s /\ ~ In c' pc) -> exists wd', dec_col c wd = Ok wd'.
Proof.
  intros pc [sets ws] c SO Hc Z O. unfold dec_col. cbn [wd_weight wd_sets] in *.
  pose proof SO as (L & I & N). cbn [wd_weight wd_sets] in *.
  rewrite (vget_in _ 0) by lia. cbn [bind]. destruct (nth c ws 0) as [|v] eqn:E; [eauto|].
  destruct (pop_prog pc sets ws (S v) c SO) as [sets' P]; [|assumption|].
  - split; [assumption|]. split; [|assumption]. intros X. specialize (Z X). discriminate.
  - rewrite P. cbn [bind]. rewrite vset_in by lia. cbn [bind]. eauto.
Qed.

(** All columns of a row at once. *)
Definition dec_all (row : list nat) (ws : list nat) : list nat := fold_left (fun ws c => upd c pred ws) row ws.
Lemma dec_all_nth : forall row ws c, NoDup row -> Forall (fun c => c < length ws) row ->
  nth c (dec_all row ws) 0 = if existsb (Nat.eqb c) row then pred (nth c ws 0) else nth c ws 0.
Proof.
  intros row. induction row as [|r row IH]; intros ws c N F; [reflexivity|].
  inversion N; inversion F; subst. cbn [dec_all fold_left existsb]. fold (dec_all row (upd r pred ws)).
  rewrite IH; [|assumption|rewrite upd_len; assumption]. rewrite upd_get by assumption.
  destruct (Nat.eqb_spec c r) as [->|D]; cbn [orb]; [|reflexivity].
  destruct (existsb (Nat.eqb r) row) eqn:X; [apply existsb_in in X; contradiction|]. reflexivity.
Qed.
Lemma dec_all_len : forall row ws, length (dec_all row ws) = length ws.
Proof.
  intros row. induction row as [|r row IH]; intros ws; [reflexivity|]. cbn [dec_all fold_left].
  fold (dec_all row (upd r pred ws)). rewrite IH. apply upd_len.
Qed.
Lemma dec_row_facts : forall pc row wd wd', sets_ok pc wd -> (forall c, In c pc -> nth c (wd_weight wd) 0 = 0) ->
  ofold dec_col row wd = Ok wd' ->
  sets_ok pc wd' /\ wd_weight wd' = dec_all row (wd_weight wd) /\ (trimmed (wd_sets wd) -> trimmed (wd_sets wd')).
Proof.
  intros pc row. induction row as [|r row IH]; intros wd wd' S Z H.
  - cbn in H. injection H as <-. auto.
  - cbn [ofold] in H. apply bind_ok in H. destruct H as (wd1 & E & H).
    destruct (dec_col_facts pc wd r wd1 S (Z r) E) as (A & B & C).
    destruct (IH wd1 wd' A) as (D & F & G); [|assumption|].
    + intros c Hc. rewrite B. destruct (Nat.eq_dec c r) as [->|D].
      * destruct (Nat.lt_ge_cases r (length (wd_weight wd))) as [L|L].
        -- rewrite upd_same by assumption. rewrite (Z r Hc). reflexivity.
        -- rewrite nth_overflow; [reflexivity|]. rewrite upd_len. assumption.
      * rewrite upd_other by assumption. auto.
    + split; [assumption|]. split; [|auto]. rewrite F, B. reflexivity.
Qed.
Lemma dec_row_prog : forall pc row wd, sets_ok pc wd -> Forall (fun c => c < s) row ->
  (forall c, In c pc -> nth c (wd_weight wd) 0 = 0) ->
  (forall c, exists c', c' <> c /\ c' < s /\ ~ In c' pc) -> exists wd', ofold dec_col row wd = Ok wd'.
Proof.
  intros pc row. induction row as [|r row IH]; intros wd S F Z O; [cbn; eauto|].
  inversion F; subst. destruct (dec_col_prog pc wd r S) as [wd1 E]; auto.
  cbn [ofold]. rewrite E. cbn [bind]. destruct (dec_col_facts pc wd r wd1 S (Z r) E) as (A & B & C).
  apply IH; auto. intros c Hc. rewrite B. destruct (Nat.eq_dec c r) as [->|D].
  - destruct S as (L & _). rewrite upd_same by lia. rewrite (Z r Hc). reflexivity.
  - rewrite upd_other by assumption. auto.
Qed.
Lemma dec_no_diverge : forall row wd, ofold dec_col row wd <> Diverge.
Proof.
  intros row. induction row as [|r row IH]; intros wd; [discriminate|]. cbn [ofold].
  unfold dec_col at 1, vget. destruct (nth_error (wd_weight wd) r) as [[|v]|]; cbn [bind]; [apply IH| |discriminate].
  pose proof (pop_no_diverge (S v) r (wd_sets wd)) as P. destruct (pop_node (S v) r (wd_sets wd)); cbn [bind]; try discriminate; [|contradiction].
  unfold vset. destruct (_ <? _); cbn [bind]; [apply IH|discriminate].
Qed.

(** The first node. *)
Lemma first_facts : forall sets k w c, first_node sets k = Ok (w, c) ->
  exists j, w = k + j /\ hd_error (nth j sets []) = Some c /\ forall i, i < j -> nth i sets [] = [].
Proof.
  intros sets. induction sets as [|l r IH]; intros k w c H; [discriminate|]. cbn [first_node] in H.
  destruct l as [|x l].
  - destruct (IH (S k) w c H) as (j & E & A & B). exists (S j). split; [lia|]. split; [assumption|].
    intros [|i] Hi; [reflexivity|]. cbn [nth]. apply B. lia.
  - injection H as <- <-. exists 0. split; [lia|]. split; [reflexivity|]. lia.
Qed.
Lemma first_prog : forall sets k j, nth j sets [] <> [] -> exists wc, first_node sets k = Ok wc.
Proof.
  intros sets. induction sets as [|l r IH]; intros k j H; [destruct j; contradiction|].
  cbn [first_node]. destruct l as [|x l]; [|eauto]. destruct j as [|j]; [contradiction|]. apply (IH (S k) j). assumption.
Qed.
Lemma nth_tl : forall (A : Type) (l : list A) d j, nth j (tl l) d = nth (S j) l d.
Proof. intros A [|x l] d j; [destruct j; reflexivity|reflexivity]. Qed.
Lemma min_facts : forall pc wd w c, sets_ok pc wd -> min_node (wd_sets wd) = Ok (w, c) ->
  1 <= w /\ node_at pc (wd_weight wd) w c /\
  forall c', node_at pc (wd_weight wd) (nth c' (wd_weight wd) 0) c' -> 1 <= nth c' (wd_weight wd) 0 -> w <= nth c' (wd_weight wd) 0.
Proof.
  intros pc wd w c (L & I & N) H. apply first_facts in H. destruct H as (j & -> & A & B).
  split; [lia|]. rewrite nth_tl in A. split.
  - apply I. cbn [plus]. destruct (nth (S j) (wd_sets wd) []) as [|x l]; [discriminate|]. injection A as ->. left. reflexivity.
  - intros c' Hc Hw. apply I in Hc. destruct (Nat.le_gt_cases (1 + j) (nth c' (wd_weight wd) 0)) as [Q|Q]; [assumption|exfalso].
    specialize (B (nth c' (wd_weight wd) 0 - 1) ltac:(lia)). rewrite nth_tl in B.
    replace (S (nth c' (wd_weight wd) 0 - 1)) with (nth c' (wd_weight wd) 0) in B by lia. rewrite B in Hc. destruct Hc.
Qed.
Lemma min_prog : forall sets : list (list nat), trimmed sets -> 1 < length sets -> exists wc, min_node sets = Ok wc.
Proof.
  intros sets T H. destruct T as [T|T]; [lia|]. apply (first_prog _ _ (length sets - 2)).
  rewrite nth_tl. replace (S (length sets - 2)) with (length sets - 1) by lia. assumption.
Qed.
Lemma min_no_diverge : forall sets, min_node sets <> Diverge.
Proof.
  intros sets. unfold min_node. generalize (tl sets) 1. clear. intros l. induction l as [|[|x a] r IH]; intros k; cbn [first_node]; try discriminate.
  apply IH.
Qed.

(** init. *)
Lemma init_sets_facts : forall ws i sets sets', 
  (forall v, NoDup (nth v sets [])) -> (forall v x, In x (nth v sets []) -> x < i) ->
  init_sets ws i sets = Ok sets' ->
  length sets' = length sets /\ (forall v, NoDup (nth v sets' [])) /\
  forall v x, In x (nth v sets' []) <-> In x (nth v sets []) \/ (i <= x < i + length ws /\ nth (x - i) ws 0 = v).
Proof.
  intros ws. induction ws as [|w r IH]; intros i sets sets' N B H.
  - cbn in H. injection H as <-. split; [reflexivity|]. split; [assumption|]. intros v x. cbn [length]. split; [auto|]. intros [A|[A _]]; [assumption|lia].
  - cbn [init_sets] in H. apply enf_ok in H. destruct H as [Lw H]. apply Nat.ltb_lt in Lw.
    destruct (IH (S i) (upd w (cons i) sets) sets') as (L & N' & I); try assumption.
    + intros v. rewrite upd_get by assumption. destruct (Nat.eqb_spec v w) as [->|]; [|apply N].
      constructor; [|apply N]. intros X. apply B in X. lia.
    + intros v x. rewrite upd_get by assumption. destruct (v =? w); [intros [<-|X]; [lia|apply B in X; lia]|intros X; apply B in X; lia].
    + rewrite upd_len in L. split; [assumption|]. split; [assumption|]. intros v x. rewrite I, upd_get by assumption.
      cbn [length]. destruct (Nat.eq_dec x i) as [->|D].
      * replace (i - i) with 0 by lia. cbn [nth]. destruct (Nat.eqb_spec v w) as [->|Dv]; cbn [In].
        -- split; [intros _; right; lia|auto].
        -- split; [intros [A|[A _]]; [auto|lia]|intros [A|[_ A]]; [auto|congruence]].
      * destruct (Nat.lt_ge_cases i x) as [Q|Q].
        -- replace (x - i) with (S (x - S i)) by lia.
           cbn [nth]. destruct (Nat.eqb_spec v w) as [->|Dv]; cbn [In].
           ++ split; [intros [[A|A]|[A A']]; [congruence|auto|right; split; [lia|assumption]]|].
              intros [A|[A A']]; [auto|right; split; [lia|assumption]].
           ++ split; [intros [A|[A A']]; [auto|right; split; [lia|assumption]]|].
              intros [A|[A A']]; [auto|right; split; [lia|assumption]].
        -- destruct (Nat.eqb_spec v w) as [->|Dv]; cbn [In].
           ++ split; [intros [[A|A]|[A A']]; [congruence|auto|lia]|intros [A|[A A']]; [auto|lia]].
           ++ split; [intros [A|[A A']]; [auto|lia]|intros [A|[A A']]; [auto|lia]].
Qed.
Lemma wd_init_facts : forall ws wd, length ws = s -> 0 < s -> wd_init ws = Ok wd ->
  sets_ok [] wd /\ wd_weight wd = ws /\ trimmed (wd_sets wd).
Proof.
  intros ws wd L Ls H. unfold wd_init in H. apply bind_ok in H. destruct H as (sets & E & H).
  destruct (init_sets_facts ws 0 (repeat [] 200) sets) as (A & B & C); [| |assumption|].
  - intros v. rewrite nth_repeat. constructor.
  - intros v x. rewrite nth_repeat. intros [].
  - assert (C' : forall c w, In c (nth w sets []) <-> node_at [] ws w c).
    { intros c w. rewrite C, nth_repeat. rewrite Nat.sub_0_r. unfold node_at. cbn [In]. rewrite L. intuition lia. }
    assert (T : trim sets <> []).
    { intros T. pose proof (trim_nil _ _ T (nth 0 ws 0)) as Z.
      assert (X : In 0 (nth (nth 0 ws 0) sets [])) by (apply C'; unfold node_at; auto).
      rewrite Z in X. destruct X. }
    injection H as <-. destruct (trim sets) as [|y t] eqn:Et; [contradiction|].
    cbn [wd_sets wd_weight]. split; [|split; [reflexivity|rewrite <- Et; apply trim_trimmed]].
    split; [assumption|]. cbn [wd_sets wd_weight]. split; [intros c w; rewrite <- Et, trim_nth; apply C'|].
    intros w. rewrite <- Et, trim_nth. apply B.
Qed.
Lemma wd_init_prog : forall ws, Forall (fun w => w < 200) ws -> exists wd, wd_init ws = Ok wd.
Proof.
  intros ws F. unfold wd_init.
  assert (G : forall ws i sets, Forall (fun w => w < length sets) ws -> exists sets', init_sets ws i sets = Ok sets').
  { clear. intros ws. induction ws as [|w r IH]; intros i sets F; [cbn; eauto|]. inversion F; subst. cbn [init_sets].
    rewrite (proj2 (Nat.ltb_lt _ _)) by assumption. cbn [enforce]. apply IH. rewrite upd_len. assumption. }
  destruct (G ws 0 (repeat [] 200)) as [sets E]; [rewrite repeat_length; assumption|]. rewrite E. cbn [bind]. eauto.
Qed.
Lemma wd_init_no_diverge : forall ws, wd_init ws <> Diverge.
Proof.
  intros ws. unfold wd_init.
  assert (G : forall ws i sets, init_sets ws i sets <> Diverge).
  { clear. intros ws. induction ws as [|w r IH]; intros i sets; cbn [init_sets]; [discriminate|].
    destruct (w <? length sets); cbn [enforce]; [apply IH|discriminate]. }
  specialize (G ws 0 (repeat [] 200)). destruct (init_sets ws 0 (repeat [] 200)); cbn [bind]; try discriminate. contradiction.
Qed.
End Sets.
