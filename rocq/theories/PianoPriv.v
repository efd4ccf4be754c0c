(** Counting argument behind the privacy of PIANO. *)
From Coq Require Import List NArith Bool Arith Lia Permutation.
From Verif Require Import Base PianoModel PianoProofs PianoSpec.
Import ListNotations.

(** ** Finite sums *)
Definition tot {A : Type} (f : A -> nat) (l : list A) : nat := list_sum (map f l).
Lemma tot_cons : forall {A} (f : A -> nat) x l, tot f (x :: l) = f x + tot f l. Proof. reflexivity. Qed.
Lemma tot_app : forall {A} (f : A -> nat) l l', tot f (l ++ l') = tot f l + tot f l'.
Proof. intros. unfold tot. rewrite map_app. apply list_sum_app. Qed.
Lemma tot_ext : forall {A} (f g : A -> nat) l, (forall x, In x l -> f x = g x) -> tot f l = tot g l.
Proof. intros A f g l H. unfold tot. rewrite (map_ext_in f g l H). reflexivity. Qed.
Lemma tot_perm : forall {A} (f : A -> nat) l l', Permutation l l' -> tot f l = tot f l'.
Proof. intros A f l l' P. induction P; rewrite ?tot_cons; try lia. Qed.
Lemma tot_const : forall {A} k (l : list A), tot (fun _ => k) l = k * length l.
Proof. intros A k l. induction l as [|x r IH]; [unfold tot; cbn; lia|]. rewrite tot_cons, IH. cbn [length]. lia. Qed.
Lemma tot_scale : forall {A} k (f : A -> nat) l, tot (fun x => k * f x) l = k * tot f l.
Proof. intros A k f l. induction l as [|x r IH]; [unfold tot; cbn; lia|]. rewrite !tot_cons, IH. lia. Qed.
Lemma tot_plus : forall {A} (f g : A -> nat) l, tot (fun x => f x + g x) l = tot f l + tot g l.
Proof. intros A f g l. induction l as [|x r IH]; [reflexivity|]. rewrite !tot_cons, IH. lia. Qed.
Lemma tot_swap : forall {A B} (f : A -> B -> nat) l l', tot (fun x => tot (f x) l') l = tot (fun y => tot (fun x => f x y) l) l'.
Proof.
  intros A B f l l'. induction l as [|x r IH].
  - rewrite (tot_ext _ (fun _ => 0) l') by reflexivity. rewrite tot_const. reflexivity.
  - rewrite tot_cons, IH, <- tot_plus. reflexivity.
Qed.
Lemma tot_map : forall {A B} (f : B -> nat) (g : A -> B) l, tot f (map g l) = tot (fun x => f (g x)) l.
Proof. intros. unfold tot. rewrite map_map. reflexivity. Qed.
Lemma tot_flat_map : forall {A B} (f : B -> nat) (g : A -> list B) l, tot f (flat_map g l) = tot (fun x => tot f (g x)) l.
Proof. intros A B f g l. induction l as [|x r IH]; [reflexivity|]. cbn [flat_map]. rewrite tot_app, tot_cons, IH. reflexivity. Qed.
Lemma tot_prod : forall {A B} (f : A * B -> nat) l l', tot f (list_prod l l') = tot (fun x => tot (fun y => f (x, y)) l') l.
Proof.
  intros A B f l l'. induction l as [|x r IH]; [reflexivity|]. cbn [list_prod]. rewrite tot_app, tot_cons, IH, tot_map. reflexivity.
Qed.
Lemma tot_filter : forall {A} (p : A -> bool) l, length (filter p l) = tot (fun x => if p x then 1 else 0) l.
Proof. intros A p l. induction l as [|x r IH]; [reflexivity|]. rewrite tot_cons, <- IH. cbn [filter]. destruct (p x); reflexivity. Qed.
Lemma tot_one : forall {A} (v : A) l (p : A -> bool), NoDup l -> In v l -> (forall x, In x l -> (p x = true <-> x = v)) ->
  forall k, tot (fun x => if p x then k else 0) l = k.
Proof.
  intros A v l p ND HI HP k. induction l as [|x r IH]; [destruct HI|]. inversion ND; subst. rewrite tot_cons.
  destruct HI as [<-|HI].
  - replace (p x) with true by (symmetry; apply HP; [left; reflexivity|reflexivity]).
    rewrite (tot_ext _ (fun _ => 0) r); [rewrite tot_const; lia|]. intros y Hy. destruct (p y) eqn:E; [|reflexivity].
    apply HP in E; [subst y; contradiction|right; exact Hy].
  - destruct (p x) eqn:E.
    + apply HP in E; [subst x; contradiction|left; reflexivity].
    + rewrite IH; auto. intros y Hy. apply HP. right. exact Hy.
Qed.
(** A sum does not change under an involution of its range. *)
Lemma tot_invol : forall {A} (f : A -> nat) (phi : A -> A) l, NoDup l -> (forall x, In x l -> In (phi x) l /\ phi (phi x) = x) ->
  tot (fun x => f (phi x)) l = tot f l.
Proof.
  intros A f phi l ND H. rewrite <- (tot_map f phi). apply tot_perm. apply NoDup_Permutation; [|exact ND|].
  - assert (G : forall l', (forall x, In x l' -> In x l) -> NoDup l' -> NoDup (map phi l')); [|apply G; auto].
    induction l' as [|x r IH]; intros HS N; [constructor|]. inversion N; subst. cbn [map]. constructor.
    + intros F. apply in_map_iff in F. destruct F as [y [E Hy]].
      assert (y = x). { destruct (H y (HS y (or_intror Hy))) as [_ E1]. destruct (H x (HS x (or_introl eq_refl))) as [_ E2]. congruence. }
      subst y. contradiction.
    + apply IH; [intros; apply HS; right; assumption|assumption].
  - intros x. split; intros F.
    + apply in_map_iff in F. destruct F as [y [<- Hy]]. apply H, Hy.
    + apply in_map_iff. exists (phi x). destruct (H x F). split; assumption.
Qed.

(** ** All lists of a length over an alphabet *)
Lemma tuples_In : forall {A} (l : list A) n v, In v (tuples l n) <-> length v = n /\ forall x, In x v -> In x l.
Proof.
  intros A l n. induction n as [|n IH]; intros v; cbn [tuples].
  - split.
    + intros [<-|[]]. split; [reflexivity|intros x []].
    + intros [L _]. destruct v; [left; reflexivity|discriminate].
  - rewrite in_flat_map. split.
    + intros [a [Ha H]]. apply in_map_iff in H. destruct H as [w [<- Hw]]. apply IH in Hw. destruct Hw as [L F]. split; [cbn; lia|].
      intros x [<-|Hx]; auto.
    + intros [L F]. destruct v as [|a w]; [discriminate|]. exists a. split; [apply F; left; reflexivity|]. apply in_map. apply IH.
      split; [cbn in L; lia|]. intros x Hx. apply F. right. exact Hx.
Qed.
Lemma NoDup_flat_cons : forall {A B C} (f : A -> C -> B) (L : list C) (l : list A),
  (forall a b x y, f a x = f b y -> a = b /\ x = y) -> NoDup L -> NoDup l -> NoDup (flat_map (fun a => map (f a) L) l).
Proof.
  intros A B C f L l inj NL. induction 1 as [|a r Ha Hr IH]; cbn [flat_map]; [constructor|].
  assert (N1 : NoDup (map (f a) L)).
  { clear - inj NL. induction NL as [|x r H1 H2 IH]; cbn [map]; [constructor|]. constructor; [|exact IH].
    intros F. apply in_map_iff in F. destruct F as [y [E Hy]]. apply inj in E. destruct E as [_ ->]. contradiction. }
  revert N1 IH. intros N1 IH. assert (D : forall b, In b (map (f a) L) -> ~ In b (flat_map (fun a0 => map (f a0) L) r)).
  { intros b Hb F. apply in_map_iff in Hb. destruct Hb as [x [<- Hx]]. apply in_flat_map in F. destruct F as [a' [Ha' F]].
    apply in_map_iff in F. destruct F as [y [E _]]. apply inj in E. destruct E as [-> _]. contradiction. }
  revert N1 D. generalize (map (f a) L) as l1. induction l1 as [|b l1 IH1]; intros N1 D; [exact IH|].
  inversion N1; subst. cbn [app]. constructor.
  - intros F. apply in_app_or in F. destruct F as [F|F]; [contradiction|]. apply (D b); [left; reflexivity|exact F].
  - apply IH1; [assumption|]. intros x Hx. apply D. right. exact Hx.
Qed.
Lemma tuples_NoDup : forall {A} (l : list A) n, NoDup l -> NoDup (tuples l n).
Proof.
  intros A l n ND. induction n as [|n IH]; cbn [tuples]; [repeat constructor; intros []|].
  apply NoDup_flat_cons; [|exact IH|exact ND]. intros a b x y E. injection E as -> ->. split; reflexivity.
Qed.
Lemma tot_tuples_S : forall {A} (f : list A -> nat) l n, tot f (tuples l (S n)) = tot (fun a => tot (fun v => f (a :: v)) (tuples l n)) l.
Proof. intros. cbn [tuples]. rewrite tot_flat_map. apply tot_ext. intros a _. apply tot_map. Qed.
Lemma length_tot : forall {A} (l : list A), length l = tot (fun _ => 1) l. Proof. intros. rewrite tot_const. lia. Qed.
Lemma tuples_len : forall {A} (l : list A) n, length (tuples l n) = length l ^ n.
Proof.
  intros A l n. induction n as [|n IH]; [reflexivity|]. rewrite length_tot, tot_tuples_S.
  rewrite (tot_ext _ (fun _ => length l ^ n)) by (intros; rewrite <- length_tot; exact IH). rewrite tot_const. cbn [Nat.pow]. lia.
Qed.
Lemma prod_NoDup : forall {A B} (l : list A) (l' : list B), NoDup l -> NoDup l' -> NoDup (list_prod l l').
Proof.
  intros A B l l' N1 N2. replace (list_prod l l') with (flat_map (fun a => map (pair a) l') l).
  - apply NoDup_flat_cons; auto. intros a b x y E. injection E as -> ->. split; reflexivity.
  - clear. induction l as [|a r IH]; [reflexivity|]. cbn [flat_map list_prod]. rewrite IH. reflexivity.
Qed.
(** The last element is left out. *)
Lemma tot_removelast : forall {A} (l : list A) n (f : list A -> nat),
  tot (fun p => f (removelast p)) (tuples l (S n)) = length l * tot f (tuples l n).
Proof.
  intros A l. induction n as [|n IH]; intros f; rewrite tot_tuples_S.
  - cbn [tuples]. rewrite (tot_ext _ (fun _ => f [])) by (intros; unfold tot; cbn; lia). rewrite tot_const. unfold tot. cbn. lia.
  - rewrite (tot_ext _ (fun a => length l * tot (fun v => f (a :: v)) (tuples l n))).
    + rewrite tot_scale. rewrite tot_tuples_S. reflexivity.
    + intros a _. rewrite <- IH. apply tot_ext. intros v Hv. apply tuples_In in Hv. destruct v as [|b w]; [destruct Hv; discriminate|]. reflexivity.
Qed.

(** One list of each of the lengths [ns]. *)
Lemma tot_pspace_cons : forall {A} (f : list (list A) -> nat) l n ns,
  tot f (pspace l (n :: ns)) = tot (fun p => tot (fun ps => f (p :: ps)) (pspace l ns)) (tuples l n).
Proof. intros. cbn [pspace]. rewrite tot_flat_map. apply tot_ext. intros a _. apply tot_map. Qed.
Lemma pspace_In : forall {A} (l : list A) ns ps, In ps (pspace l ns) ->
  length ps = length ns /\ forall i, i < length ns -> In (nth i ps []) (tuples l (nth i ns 0)).
Proof.
  intros A l ns. induction ns as [|n ns IH]; intros ps H; cbn [pspace] in H.
  - destruct H as [<-|[]]. split; [reflexivity|cbn; lia].
  - apply in_flat_map in H. destruct H as [p [Hp H]]. apply in_map_iff in H. destruct H as [w [<- Hw]]. apply IH in Hw. destruct Hw as [L F].
    split; [cbn; lia|]. intros [|i] Hi; cbn in *; [exact Hp|]. apply F. lia.
Qed.
(** The first element of list [ci] split off; the last one left out. *)
Lemma tot_pop : forall {A} (l : list A) ci ns n (f : list (list A) -> nat), nth_error ns ci = Some (S n) ->
  tot f (pspace l ns) = tot (fun x => tot (fun ps => f (pn_upd ci (x :: nth ci ps []) ps)) (pspace l (pn_upd ci n ns))) l.
Proof.
  intros A l. induction ci as [|ci IH]; intros [|m ns] n f H; try discriminate; cbn [nth_error] in H; cbn [pn_upd].
  - injection H as ->. rewrite tot_pspace_cons, tot_tuples_S. apply tot_ext. intros x _. rewrite tot_pspace_cons. reflexivity.
  - rewrite tot_pspace_cons. rewrite (tot_ext _ (fun p => tot (fun x => tot (fun ps => f (p :: pn_upd ci (x :: nth ci ps []) ps)) (pspace l (pn_upd ci n ns))) l)).
    + rewrite tot_swap. apply tot_ext. intros x _. rewrite tot_pspace_cons. reflexivity.
    + intros p _. rewrite (IH ns n (fun ps => f (p :: ps)) H). reflexivity.
Qed.
Lemma tot_drop : forall {A} (l : list A) ci ns n (f : list (list A) -> nat), nth_error ns ci = Some (S n) ->
  tot (fun ps => f (pn_upd ci (removelast (nth ci ps [])) ps)) (pspace l ns) = length l * tot f (pspace l (pn_upd ci n ns)).
Proof.
  intros A l. induction ci as [|ci IH]; intros [|m ns] n f H; try discriminate; cbn [nth_error] in H; cbn [pn_upd].
  - injection H as ->. rewrite !tot_pspace_cons. cbn [nth pn_upd].
    rewrite (tot_removelast l n (fun p => tot (fun ps => f (p :: ps)) (pspace l ns))). reflexivity.
  - rewrite !tot_pspace_cons. rewrite <- tot_scale. apply tot_ext. intros p _. cbn [nth pn_upd].
    apply (IH ns n (fun ps => f (p :: ps)) H).
Qed.
Lemma pspace_len : forall {A} (l : list A) ci ns n, nth_error ns ci = Some (S n) ->
  length (pspace l ns) = length l * length (pspace l (pn_upd ci n ns)).
Proof. intros A l ci ns n H. rewrite (length_tot (pspace l ns)), (length_tot (pspace l (pn_upd ci n ns))). rewrite <- (tot_drop l ci ns n (fun _ => 1) H). reflexivity. Qed.

(** ** The count *)
Definition row_eqb (a b : list nat) : bool := if list_eq_dec Nat.eq_dec a b then true else false.
Lemma row_eqb_eq : forall a b, row_eqb a b = true <-> a = b.
Proof. intros a b. unfold row_eqb. destruct (list_eq_dec Nat.eq_dec a b); split; congruence. Qed.
Definition view_eqb (a b : list (list nat)) : bool := if list_eq_dec (list_eq_dec Nat.eq_dec) a b then true else false.
Lemma view_eqb_eq : forall a b, view_eqb a b = true <-> a = b.
Proof. intros a b. unfold view_eqb. destruct (list_eq_dec _ a b); split; congruence. Qed.
Lemma view_eqb_cons : forall a v b w, view_eqb (a :: v) (b :: w) = (row_eqb a b && view_eqb v w)%bool.
Proof.
  intros. apply eq_true_iff_eq. rewrite andb_true_iff, !view_eqb_eq, row_eqb_eq. split; [intros E; injection E as -> ->; auto|intros [-> ->]; auto].
Qed.
Definition uses (ci : nat) (qs : list (nat * nat)) : nat := length (filter (fun q => Nat.eqb (fst q) ci) qs).

Lemma first_hit_at : forall T ci off h, first_hit T ci off = Some h -> h < length T /\ nth ci (nth h T []) 0 = off.
Proof.
  induction T as [|r T IH]; intros ci off h H; cbn [first_hit] in H; [discriminate|].
  destruct (Nat.eqb_spec off (nth ci r 0)) as [E|E].
  - injection H as <-. cbn. split; [lia|congruence].
  - destruct (first_hit T ci off) as [k|] eqn:F; [|discriminate]. injection H as <-. destruct (IH _ _ _ F). cbn. split; [lia|assumption].
Qed.

Section Count.
Set Default Proof Using "All".
Variables (C S0 M1 : nat).
Definition rows : list (list nat) := tuples (seq 0 C) S0.
Definition tabs : list (list (list nat)) := tuples rows M1.
Definition cells : list (list nat * nat) := list_prod rows (seq 0 C).
Definition ind (b : bool) : nat := if b then 1 else 0.

(** A pool that is long enough is never looked at to its end. *)
Lemma aviews_drop : forall ci qs T pools masks, ci < length pools -> S (uses ci qs) <= length (nth ci pools []) ->
  aviews T pools qs masks = aviews T (pn_upd ci (removelast (nth ci pools [])) pools) qs masks.
Proof.
  intros ci. induction qs as [|[cj off] qs IH]; intros T pools masks Hci H; [reflexivity|]. cbn [aviews].
  destruct masks as [|m masks]; [reflexivity|]. unfold uses in H. cbn [filter fst] in H.
  destruct (Nat.eqb_spec cj ci) as [->|N].
  - cbn [length] in H. fold (uses ci qs) in H.
    assert (HM : S (uses ci qs) <= length (nth ci pools [])) by lia.
    rewrite upd_nth by exact Hci. destruct (nth ci pools []) as [|[R r] rest] eqn:E; [cbn in H; lia|]. cbn [length] in H.
    destruct rest as [|x rest]; [cbn in H; lia|]. change (removelast ((R, r) :: x :: rest)) with ((R, r) :: removelast (x :: rest)).
    destruct (first_hit T ci off) as [h|].
    + f_equal. rewrite (IH _ (pn_upd ci (x :: rest) pools)).
      * rewrite upd_nth by exact Hci. rewrite !upd_upd. reflexivity.
      * rewrite upd_length. exact Hci.
      * rewrite upd_nth by exact Hci. lia.
    + f_equal. rewrite IH by (rewrite ?E; assumption). rewrite E. reflexivity.
  - fold (uses ci qs) in H. rewrite upd_nth_other by exact N.
    destruct (first_hit T cj off) as [h|]; [|f_equal; apply IH; assumption].
    destruct (nth cj pools []) as [|[R r] rest] eqn:E; [f_equal; apply IH; assumption|].
    f_equal. rewrite (IH _ (pn_upd cj rest pools)).
    + rewrite upd_nth_other by (intros X; apply N; congruence). rewrite upd_comm by (intros X; apply N; congruence). reflexivity.
    + rewrite upd_length. exact Hci.
    + rewrite upd_nth_other by (intros X; apply N; congruence). exact H.
Qed.
Lemma cells_len : length cells = length rows * C.
Proof. unfold cells. rewrite prod_length, seq_length. reflexivity. Qed.
Lemma rows_NoDup : NoDup rows. Proof. apply tuples_NoDup, seq_NoDup. Qed.
Lemma row_In : forall v, In v rows <-> length v = S0 /\ forall x, In x v -> x < C.
Proof. intros v. unfold rows. rewrite tuples_In. split; intros [L H]; (split; [exact L|]); intros x Hx; specialize (H x Hx); apply in_seq in H || apply in_seq; lia. Qed.
Lemma row_upd : forall v ci r, In v rows -> r < C -> In (pn_upd ci r v) rows.
Proof. intros v ci r H Hr. apply row_In in H. destruct H as [L H]. apply row_In. split; [rewrite upd_length; exact L|]. intros x Hx. apply upd_In in Hx. destruct Hx as [->|Hx]; auto. Qed.
Lemma row_nth : forall v ci, In v rows -> ci < S0 -> nth ci v 0 < C.
Proof. intros v ci H Hc. apply row_In in H. destruct H as [L H]. apply H, nth_In. lia. Qed.

(** Each row is hit by C pairs of a row and an offset. *)
Lemma count_row : forall ci v, ci < S0 -> In v rows ->
  tot (fun R => tot (fun r => ind (row_eqb (pn_upd ci r R) v)) (seq 0 C)) rows = C.
Proof.
  intros ci v Hci Hv. rewrite <- (tot_prod (fun Rr => ind (row_eqb (pn_upd ci (snd Rr) (fst Rr)) v))).
  rewrite <- (tot_invol _ (fun Rr => (pn_upd ci (snd Rr) (fst Rr), nth ci (fst Rr) 0))).
  - cbn [fst snd]. rewrite (tot_ext _ (fun Rr => (fun R r => ind (row_eqb R v)) (fst Rr) (snd Rr))).
    + rewrite tot_prod. cbn [fst snd]. rewrite (tot_ext _ (fun R => if row_eqb R v then C else 0)).
      * apply (tot_one v); [apply rows_NoDup|exact Hv|]. intros x _. apply row_eqb_eq.
      * intros R _. rewrite tot_const, seq_length. destruct (row_eqb R v); cbn; lia.
    + intros [R r] _. cbn [fst snd]. rewrite upd_upd, upd_self. reflexivity.
  - apply prod_NoDup; [apply rows_NoDup|apply seq_NoDup].
  - intros [R r] H. apply in_prod_iff in H. destruct H as [H1 H2]. apply in_seq in H2. cbn [fst snd].
    assert (L : length R = S0) by (apply row_In in H1; apply H1). split.
    + apply in_prod_iff. split; [apply row_upd; [exact H1|lia]|]. apply in_seq. pose proof (row_nth R ci H1 Hci). lia.
    + rewrite upd_upd, upd_self, upd_nth by lia. reflexivity.
Qed.
Lemma first_hit_col : forall T T' ci off, map (fun r => nth ci r 0) T = map (fun r => nth ci r 0) T' -> first_hit T ci off = first_hit T' ci off.
Proof.
  induction T as [|r T IH]; intros [|r' T'] ci off E; try discriminate; [reflexivity|]. cbn [map] in E. injection E as E1 E2.
  cbn [first_hit]. rewrite E1, (IH T' ci off E2). reflexivity.
Qed.
Lemma col_upd : forall T ci h R, h < length T -> ci < length R ->
  map (fun r => nth ci r 0) (pn_upd h (pn_upd ci (nth ci (nth h T []) 0) R) T) = map (fun r => nth ci r 0) T.
Proof.
  intros T ci h R Hh HR. rewrite map_upd. rewrite upd_nth by exact HR.
  replace (nth ci (nth h T []) 0) with (nth h (map (fun r : list nat => nth ci r 0) T) 0); [apply upd_self|].
  rewrite (nth_indep _ 0 ((fun r : list nat => nth ci r 0) [])) by (rewrite map_length; exact Hh). apply (map_nth (fun r : list nat => nth ci r 0)).
Qed.

Definition phi (ci off : nat) (x : list (list nat) * list nat) : list (list nat) * list nat :=
  match first_hit (fst x) ci off with
  | Some h => (pn_upd h (pn_upd ci off (snd x)) (fst x), pn_upd ci (nth ci (snd x) 0) (nth h (fst x) []))
  | None => x
  end.
Lemma phi_ok : forall ci off x, ci < S0 -> In x (list_prod tabs rows) -> In (phi ci off x) (list_prod tabs rows) /\ phi ci off (phi ci off x) = x.
Proof.
  intros ci off [T R] Hci H. apply in_prod_iff in H. destruct H as [HT HR].
  apply tuples_In in HT as HT'. destruct HT' as [LT FT].
  assert (LR : length R = S0) by (apply row_In in HR; apply HR).
  unfold phi at 1 3. cbn [fst snd]. destruct (first_hit T ci off) as [h|] eqn:FH.
  - destruct (first_hit_at _ _ _ _ FH) as [Hh Eh].
    assert (Hr : In (nth h T []) rows) by (apply FT, nth_In; exact Hh).
    assert (LH : length (nth h T []) = S0) by (apply row_In in Hr; apply Hr).
    split.
    + apply in_prod_iff. split.
      * apply tuples_In. split; [rewrite upd_length; exact LT|]. intros x Hx. apply upd_In in Hx. destruct Hx as [->|Hx]; [|apply FT, Hx].
        apply row_upd; [exact HR|]. rewrite <- Eh. apply row_nth; assumption.
      * apply row_upd; [exact Hr|]. apply row_nth; assumption.
    + unfold phi. cbn [fst snd]. rewrite (first_hit_col _ T), FH.
      * cbn [fst snd]. rewrite (upd_nth h) by exact Hh. rewrite (upd_nth ci) by lia. rewrite !upd_upd.
        rewrite upd_self. f_equal.
        -- replace (pn_upd ci off (nth h T [])) with (nth h T []); [apply upd_self|]. rewrite <- Eh at 1. symmetry. apply upd_self.
      * rewrite <- Eh. apply col_upd; [exact Hh|lia].
  - split; [apply in_prod_iff; split; assumption|]. unfold phi. cbn [fst snd]. rewrite FH. reflexivity.
Qed.

Definition count (ns : list nat) (qs : list (nat * nat)) (v : list (list nat)) : nat :=
  tot (fun T => tot (fun pools => tot (fun masks => ind (view_eqb (aviews T pools qs masks) v)) (tuples rows (length qs))) (pspace cells ns)) tabs.

Lemma ind_and : forall a b, ind (a && b) = ind a * ind b. Proof. intros [] []; reflexivity. Qed.

Theorem count_ok : forall qs ns v, (forall q, In q qs -> fst q < S0) -> length ns = S0 ->
  (forall ci, ci < S0 -> uses ci qs <= nth ci ns 0) -> In v (tuples rows (length qs)) ->
  count ns qs v = length tabs * length (pspace cells ns).
Proof.
  induction qs as [|[ci off] qs IH]; intros ns v HQ LN HU HV.
  - destruct HV as [<-|[]]. unfold count. cbn [length tuples aviews].
    rewrite (tot_ext _ (fun _ => length (pspace cells ns))); [rewrite tot_const; lia|].
    intros T _. rewrite (tot_ext _ (fun _ => 1)); [rewrite tot_const; lia|]. reflexivity.
  - assert (Hci : ci < S0) by (apply (HQ (ci, off)); left; reflexivity).
    assert (HV' : length v = S (length qs) /\ forall x, In x v -> In x rows) by (apply tuples_In; exact HV).
    destruct HV' as [LV FV]. destruct v as [|v1 vs]; [discriminate|].
    assert (Hv1 : In v1 rows) by (apply FV; left; reflexivity).
    assert (Hvs : In vs (tuples rows (length qs))) by (apply tuples_In; split; [cbn in LV; lia|intros; apply FV; right; assumption]).
    pose proof (HU ci Hci) as HUc. unfold uses in HUc. cbn [filter fst] in HUc. rewrite Nat.eqb_refl in HUc. cbn [length] in HUc. fold (uses ci qs) in HUc.
    destruct (nth ci ns 0) as [|n] eqn:EN; [lia|].
    assert (NE : nth_error ns ci = Some (S n)) by (rewrite <- EN; apply nth_error_nth'; lia).
    set (ns' := pn_upd ci n ns).
    set (G := fun T => tot (fun pools => tot (fun masks => ind (view_eqb (aviews T pools qs masks) vs)) (tuples rows (length qs))) (pspace cells ns')).
    assert (IHG : tot G tabs = length tabs * length (pspace cells ns')).
    { apply (IH ns' vs).
      - intros q Hq. apply HQ. right. exact Hq.
      - unfold ns'. rewrite upd_length. exact LN.
      - intros cj Hcj. unfold ns'. destruct (Nat.eq_dec cj ci) as [->|N]; [rewrite upd_nth by lia; lia|].
        rewrite upd_nth_other by exact N. specialize (HU cj Hcj). unfold uses in HU. cbn [filter fst] in HU.
        destruct (Nat.eqb_spec ci cj); [congruence|]. exact HU.
      - exact Hvs. }
    set (g0 := fun x : list (list nat) * list nat => tot (fun r => ind (row_eqb (pn_upd ci r (snd x)) v1)) (seq 0 C) * G (fst x)).
    assert (STEP : count ns ((ci, off) :: qs) (v1 :: vs) = length rows * tot (fun x => g0 (phi ci off x)) (list_prod tabs rows)).
    { unfold count. rewrite tot_prod, <- tot_scale. apply tot_ext. intros T HT. cbn [length].
      apply tuples_In in HT. destruct HT as [LT FT].
      unfold phi. cbn [fst snd]. destruct (first_hit T ci off) as [h|] eqn:FH.
      - cbn [fst snd]. rewrite (tot_pop cells ci ns n _ NE). fold ns'. unfold cells at 2. rewrite tot_prod. rewrite <- tot_scale.
        apply tot_ext. intros R HR. unfold g0. cbn [fst snd].
        rewrite (tot_ext (fun r => ind (row_eqb (pn_upd ci r (pn_upd ci (nth ci R 0) (nth h T []))) v1)) (fun r => ind (row_eqb (pn_upd ci r (nth h T [])) v1)))
          by (intros; rewrite upd_upd; reflexivity).
        set (T' := pn_upd h (pn_upd ci off R) T).
        transitivity (tot (fun r => (length rows * G T') * ind (row_eqb (pn_upd ci r (nth h T [])) v1)) (seq 0 C)); [|rewrite tot_scale; lia].
        apply tot_ext. intros r _.
        transitivity (tot (fun pools => (length rows * ind (row_eqb (pn_upd ci r (nth h T [])) v1)) *
            tot (fun masks => ind (view_eqb (aviews T' pools qs masks) vs)) (tuples rows (length qs))) (pspace cells ns')).
        2: { rewrite tot_scale. fold (G T'). lia. }
        apply tot_ext. intros pools HP. rewrite tot_tuples_S.
        apply pspace_In in HP. destruct HP as [LP _]. unfold ns' in LP. rewrite upd_length in LP.
        rewrite (tot_ext _ (fun _ => ind (row_eqb (pn_upd ci r (nth h T [])) v1) * tot (fun masks => ind (view_eqb (aviews T' pools qs masks) vs)) (tuples rows (length qs)))).
        + rewrite tot_const. lia.
        + intros m _. rewrite <- tot_scale. apply tot_ext. intros masks _. cbn [aviews]. rewrite FH. rewrite upd_nth by lia.
          rewrite view_eqb_cons, ind_and, upd_upd, upd_self. reflexivity.
      - (* no set contains the index *)
        unfold g0. cbn [fst snd].
        rewrite (tot_ext (fun y => tot _ _ * G T) (fun y => G T * tot (fun r => ind (row_eqb (pn_upd ci r y) v1)) (seq 0 C))) by (intros; lia).
        rewrite tot_scale, count_row by assumption.
        rewrite (tot_ext _ (fun pools => (fun ps => tot (fun masks => ind (view_eqb (aviews T ps qs masks) vs)) (tuples rows (length qs))) (pn_upd ci (removelast (nth ci pools [])) pools))).
        + rewrite (tot_drop cells ci ns n (fun ps => tot (fun masks => ind (view_eqb (aviews T ps qs masks) vs)) (tuples rows (length qs))) NE).
          fold ns'. fold (G T). unfold cells. rewrite prod_length, seq_length. lia.
        + intros pools HP. apply pspace_In in HP. destruct HP as [LP FP]. rewrite tot_tuples_S.
          rewrite (tot_ext _ (fun m => if row_eqb m v1 then tot (fun masks => ind (view_eqb (aviews T pools qs masks) vs)) (tuples rows (length qs)) else 0)).
          * rewrite (tot_one v1) by (apply rows_NoDup || assumption || (intros; apply row_eqb_eq)).
            apply tot_ext. intros masks _. rewrite (aviews_drop ci) by (try lia; specialize (FP ci ltac:(lia)); apply tuples_In in FP; rewrite EN in FP; lia).
            reflexivity.
          * intros m _. rewrite (tot_ext _ (fun masks => ind (row_eqb m v1) * ind (view_eqb (aviews T pools qs masks) vs))).
            -- rewrite tot_scale. destruct (row_eqb m v1); cbn [ind]; lia.
            -- intros masks _. cbn [aviews]. rewrite FH. rewrite view_eqb_cons, ind_and. reflexivity. }
    rewrite STEP. rewrite tot_invol.
    + unfold g0. rewrite tot_prod. cbn [fst snd].
      rewrite (tot_ext _ (fun T => C * G T)).
      * rewrite tot_scale, IHG. rewrite (pspace_len cells ci ns n NE). fold ns'. rewrite cells_len. lia.
      * intros T _. rewrite (tot_ext _ (fun y => G T * tot (fun r => ind (row_eqb (pn_upd ci r y) v1)) (seq 0 C))) by (intros; lia).
        rewrite tot_scale, count_row by assumption. lia.
    + apply prod_NoDup; [apply tuples_NoDup|]; apply rows_NoDup.
    + intros x Hx. apply phi_ok; assumption.
Qed.
End Count.
