(** Lemmas about the Paxos encoder: sums, and FC^-1. *)
From Coq Require Import List Arith NArith Bool Lia Permutation Sorted.
From Verif Require Import Base BaseProofs StoreModel OkvsModel PaxEncModel PaxEncProofs PaxEncProofs2.
Import ListNotations.
Local Open Scope nat_scope.

Definition xsum {A : Type} (f : A -> N) (l : list A) : N := fold_right (fun x a => N.lxor (f x) a) 0%N l.
Lemma xsum_cons : forall (A : Type) (f : A -> N) x l, xsum f (x :: l) = N.lxor (f x) (xsum f l).
Proof. reflexivity. Qed.
Lemma xsum_app : forall (A : Type) (f : A -> N) l1 l2, xsum f (l1 ++ l2) = N.lxor (xsum f l1) (xsum f l2).
Proof.
  intros A f l1 l2. induction l1 as [|x r IH]; [reflexivity|]. cbn [app]. rewrite !xsum_cons, IH. symmetry. apply N.lxor_assoc.
Qed.
Lemma xsum_ext : forall (A : Type) (f g : A -> N) l, (forall x, In x l -> f x = g x) -> xsum f l = xsum g l.
Proof.
  intros A f g l. induction l as [|x r IH]; intros H; [reflexivity|]. rewrite !xsum_cons, IH by (intros; apply H; right; assumption).
  rewrite H by (left; reflexivity). reflexivity.
Qed.
Lemma xsum_zero : forall (A : Type) (f : A -> N) l, (forall x, In x l -> f x = 0%N) -> xsum f l = 0%N.
Proof.
  intros A f l. induction l as [|x r IH]; intros H; [reflexivity|]. rewrite xsum_cons, IH by (intros; apply H; right; assumption).
  rewrite H by (left; reflexivity). reflexivity.
Qed.
Lemma xsum_map : forall (A B : Type) (f : B -> N) (g : A -> B) l, xsum f (map g l) = xsum (fun x => f (g x)) l.
Proof. intros A B f g l. induction l as [|x r IH]; [reflexivity|]. cbn [map]. rewrite !xsum_cons, IH. reflexivity. Qed.
Lemma lxor_swap : forall a b c, N.lxor a (N.lxor b c) = N.lxor b (N.lxor a c).
Proof. intros. rewrite <- !N.lxor_assoc. f_equal. apply N.lxor_comm. Qed.
Lemma lxor_4 : forall a b c d, N.lxor (N.lxor a b) (N.lxor c d) = N.lxor (N.lxor a c) (N.lxor b d).
Proof. intros. rewrite !N.lxor_assoc. f_equal. apply lxor_swap. Qed.
Lemma xsum_add : forall (A : Type) (f g : A -> N) l, xsum (fun x => N.lxor (f x) (g x)) l = N.lxor (xsum f l) (xsum g l).
Proof. intros A f g l. induction l as [|x r IH]; [reflexivity|]. rewrite !xsum_cons, IH. apply lxor_4. Qed.
Lemma lxor_cancel : forall a b, N.lxor a (N.lxor a b) = b.
Proof. intros. rewrite <- N.lxor_assoc, N.lxor_nilpotent, N.lxor_0_l. reflexivity. Qed.
Lemma lxor_move : forall a b c, N.lxor a b = c -> a = N.lxor c b.
Proof. intros a b c <-. rewrite N.lxor_assoc, N.lxor_nilpotent, N.lxor_0_r. reflexivity. Qed.

Lemma xsum_remove1 : forall f x l, In x l -> xsum f (remove1 x l) = N.lxor (f x) (xsum f l).
Proof.
  intros f x l. induction l as [|y r IH]; intros I; [destruct I|]. cbn [remove1].
  destruct (Nat.eqb_spec y x) as [->|D]; [rewrite xsum_cons, lxor_cancel; reflexivity|].
  destruct I as [E|I]; [congruence|]. rewrite !xsum_cons, IH by assumption. apply lxor_swap.
Qed.
Lemma xsum_insert : forall f x l, ~ In x l -> xsum f (set_insert x l) = N.lxor (f x) (xsum f l).
Proof.
  intros f x l. induction l as [|y r IH]; intros I; [reflexivity|]. cbn [set_insert].
  destruct (y <? x); [reflexivity|]. destruct (Nat.eqb_spec y x) as [->|D]; [exfalso; apply I; left; reflexivity|].
  rewrite !xsum_cons, IH by (intros X; apply I; right; assumption). apply lxor_swap.
Qed.
Lemma xsum_toggle : forall f x l, xsum f (set_toggle x l) = N.lxor (f x) (xsum f l).
Proof.
  intros f x l. unfold set_toggle. destruct (existsb (Nat.eqb x) l) eqn:E.
  - apply existsb_in in E. apply xsum_remove1. assumption.
  - apply xsum_insert. intros X. apply existsb_in in X. congruence.
Qed.
Lemma insert_in : forall x l y, In y (set_insert x l) <-> y = x \/ In y l.
Proof.
  intros x l y. induction l as [|z r IH]; [cbn; intuition|]. cbn [set_insert].
  destruct (z <? x); [cbn; intuition|]. destruct (Nat.eqb_spec z x) as [->|D]; [cbn; intuition|].
  cbn [In]. rewrite IH. intuition.
Qed.
(** Strictly decreasing lists. *)
Definition dec (l : list nat) : Prop := StronglySorted (fun a b => b < a) l.
Lemma dec_nodup : forall l, dec l -> NoDup l.
Proof.
  intros l D. induction D as [|x l D IH F]; constructor; auto. intros I. rewrite Forall_forall in F. apply F in I. lia.
Qed.
Lemma insert_dec : forall x l, dec l -> dec (set_insert x l).
Proof.
  intros x l D. induction D as [|y l D IH F]; cbn [set_insert]; [repeat constructor|].
  destruct (Nat.ltb_spec y x); [constructor; [constructor; assumption|]|].
  - constructor; [assumption|]. revert F. apply Forall_impl. intros; lia.
  - destruct (Nat.eqb_spec y x); [constructor; assumption|]. constructor; [assumption|].
    rewrite Forall_forall in *. intros z I. apply insert_in in I. destruct I as [->|I]; [lia|auto].
Qed.
Lemma remove1_dec : forall x l, dec l -> dec (remove1 x l).
Proof.
  intros x l D. induction D as [|y l D IH F]; cbn [remove1]; [constructor|].
  destruct (Nat.eqb_spec y x); [assumption|]. constructor; [assumption|]. rewrite Forall_forall in *.
  intros z I. apply remove1_in in I; [|apply dec_nodup; assumption]. apply F. tauto.
Qed.
Lemma toggle_dec : forall x l, dec l -> dec (set_toggle x l).
Proof. intros x l D. unfold set_toggle. destruct (existsb _ _); [apply remove1_dec|apply insert_dec]; assumption. Qed.
Lemma toggle_in : forall x l y, dec l -> (In y (set_toggle x l) <-> (y <> x /\ In y l) \/ (y = x /\ ~ In x l)).
Proof.
  intros x l y D. unfold set_toggle. destruct (existsb (Nat.eqb x) l) eqn:E.
  - apply existsb_in in E. rewrite remove1_in by (apply dec_nodup; assumption). tauto.
  - assert (N : ~ In x l) by (intros X; apply existsb_in in X; congruence). rewrite insert_in.
    destruct (Nat.eq_dec y x) as [->|D']; tauto.
Qed.

Lemma filter_dec_in : forall l, dec l -> forall h t, l = h :: t -> forall x, In x l -> x <= h.
Proof. intros l D h t -> x [->|I]; [lia|]. inversion D; subst. rewrite Forall_forall in H2. apply H2 in I. lia. Qed.

(** col_mapping: the place of a column among the main columns. *)
Lemma mapping_fold : forall (main : list (nat * nat)) k v c, NoDup (map snd main) -> Forall (fun rc => snd rc < length v) main ->
  let v' := fold_left (fun v ic => upd (snd (snd ic)) (fun _ => Some (fst ic)) v) (number k main) v in
  length v' = length v /\
  (~ In c (map snd main) -> nth c v' None = nth c v None) /\
  (forall i r, nth_error main i = Some (r, c) -> nth c v' None = Some (k + i)).
Proof.
  intros main. induction main as [|[r0 c0] main IH]; intros k v c N F; cbn [number fold_left fst snd].
  - split; [reflexivity|]. split; [auto|]. intros [|i] r H; discriminate.
  - inversion N; inversion F; subst. cbn [snd] in *.
    destruct (IH (S k) (upd c0 (fun _ => Some k) v) c) as (L & A & B); [assumption|rewrite upd_len; assumption|].
    rewrite upd_len in L. split; [exact L|]. split.
    + intros X. rewrite A by (intros Y; apply X; right; assumption). apply upd_other. intros ->. apply X. left. reflexivity.
    + intros [|i] r X.
      * cbn in X. injection X as -> ->. rewrite A by assumption. rewrite upd_same by assumption. f_equal. lia.
      * cbn in X. rewrite (B i r X). f_equal. lia.
Qed.

Lemma tri_nth : forall rows mn i j r c r' c', tri_ok rows mn -> nth_error mn i = Some (r, c) -> nth_error mn j = Some (r', c') -> i < j ->
  ~ In c' (rowi rows r).
Proof.
  intros rows mn. induction mn as [|[r0 c0] old IH]; intros i j r c r' c' T Ei Ej L; [destruct i; discriminate|].
  cbn [tri_ok] in T. destruct T as (_ & _ & T & T'). destruct j as [|j]; [lia|]. cbn [nth_error] in Ej. destruct i as [|i].
  - cbn in Ei. injection Ei as <- <-. apply T. apply (in_map snd) with (x := (r', c')). apply (nth_error_In _ _ Ej).
  - cbn in Ei. apply (IH i j r c r' c'); auto. lia.
Qed.
Lemma tri_in : forall rows mn i r c, tri_ok rows mn -> nth_error mn i = Some (r, c) -> r < length rows /\ In c (rowi rows r).
Proof.
  intros rows mn. induction mn as [|[r0 c0] old IH]; intros i r c T E; [destruct i; discriminate|].
  cbn [tri_ok] in T. destruct T as (A & B & _ & T'). destruct i as [|i]; [cbn in E; injection E as <- <-; auto|]. apply (IH i); assumption.
Qed.

Section FC.
Variables (s size : nat) (rows : list (list nat)) (dense : list N) (main : list (nat * nat)).
Hypothesis Hrows : rows_ok s rows.
Hypothesis Hsize : s <= size.
Hypothesis Hnd : NoDup (map snd main).
Hypothesis Hlt : Forall (fun c => c < s) (map snd main).
Hypothesis Htri : tri_ok rows main.
Local Notation rowi := (rowi rows).
Local Notation n := (length rows).

Let cm := col_mapping size main.
Lemma cm_len : length cm = size.
Proof using Hsize Hlt Hnd.
  unfold cm, col_mapping. destruct (mapping_fold main 0 (repeat None size) 0) as (L & _); [assumption| |].
  - rewrite repeat_length, Forall_forall. intros rc I. rewrite Forall_forall in Hlt. pose proof (Hlt (snd rc) (in_map snd _ _ I)). lia.
  - rewrite repeat_length in L. exact L.
Qed.
Lemma cm_none : forall c, ~ In c (map snd main) -> nth c cm None = None.
Proof using Hsize Hlt Hnd.
  intros c H. unfold cm, col_mapping. destruct (mapping_fold main 0 (repeat None size) c) as (_ & A & _); [assumption| |].
  - rewrite repeat_length, Forall_forall. intros rc I. rewrite Forall_forall in Hlt. pose proof (Hlt (snd rc) (in_map snd _ _ I)). lia.
  - etransitivity; [exact (A H)|]. apply nth_repeat.
Qed.
Lemma cm_some : forall c i r, nth_error main i = Some (r, c) -> nth c cm None = Some i.
Proof using Hsize Hlt Hnd.
  intros c i r H. unfold cm, col_mapping. destruct (mapping_fold main 0 (repeat None size) c) as (_ & _ & B); [assumption| |].
  - rewrite repeat_length, Forall_forall. intros rc I. rewrite Forall_forall in Hlt. pose proof (Hlt (snd rc) (in_map snd _ _ I)). lia.
  - exact (B i r H).
Qed.
Lemma cm_inv : forall c i, nth c cm None = Some i -> exists r, nth_error main i = Some (r, c).
Proof using Hsize Hlt Hnd.
  intros c i H. destruct (in_dec Nat.eq_dec c (map snd main)) as [I|I]; [|rewrite cm_none in H by assumption; discriminate].
  apply in_map_iff in I. destruct I as ([r c'] & E & I). cbn in E. subst c'. apply In_nth_error in I. destruct I as [j I].
  rewrite (cm_some c j r I) in H. injection H as <-. eauto.
Qed.

(** P is a vector that is zero outside the main columns. *)
Variable P : nat -> N.
Hypothesis HP : forall c, ~ In c (map snd main) -> P c = 0%N.
Definition rsum (r : nat) : N := xsum P (rowi r).
Definition posval (i : nat) : N := P (snd (nth i main (0, 0))).
Lemma posval_cm : forall c i, nth c cm None = Some i -> posval i = P c.
Proof using Hsize Hlt Hnd.
  intros c i H. destruct (cm_inv c i H) as [r E]. unfold posval. rewrite (nth_error_nth _ _ _ E). reflexivity.
Qed.

Lemma insert_all : forall l acc row, NoDup l -> (forall c, In c l -> c < size) ->
  (forall c i, In c l -> nth c cm None = Some i -> ~ In i acc) -> dec acc ->
  (forall i, In i acc -> i < length main) ->
  ofold (fc_insert cm) l acc = Ok row -> xsum posval row = N.lxor (xsum posval acc) (xsum P l) /\ dec row /\ (forall i, In i row -> i < length main).
Proof using Hsize Hlt Hnd HP.
  intros l. induction l as [|c l IH]; intros acc row N B F D Q H.
  - cbn in H. injection H as <-. cbn. rewrite N.lxor_0_r. auto.
  - inversion N; subst. cbn [ofold] in H. apply bind_ok in H. destruct H as (acc1 & E & H). unfold fc_insert in E.
    apply bind_ok in E. destruct E as (m & E0 & E). apply (vget_ok _ None) in E0. destruct E0 as [_ E0]. injection E as <-.
    destruct m as [i|].
    + destruct (cm_inv c i E0) as [r0 Er0].
      destruct (IH (set_insert i acc) row) as (V & D' & Q'); try assumption.
      * intros; apply B; right; assumption.
      * intros c' j I E' X. apply insert_in in X. destruct X as [->|X]; [|revert X; apply (F c' j); [right|]; assumption].
        destruct (cm_inv c' i E') as [r' Er']. rewrite Er0 in Er'. injection Er' as _ <-. contradiction.
      * apply insert_dec. assumption.
      * intros j X. apply insert_in in X. destruct X as [->|X]; [|auto]. apply nth_error_Some. congruence.
      * split; [|split; assumption]. rewrite V, xsum_insert by (apply (F c i); [left; reflexivity|assumption]).
        rewrite xsum_cons, (posval_cm c i E0). rewrite !N.lxor_assoc. apply lxor_swap.
    + destruct (IH acc row) as (V & D' & Q'); try assumption.
      * intros; apply B; right; assumption.
      * intros c' j I. apply F. right. assumption.
      * split; [|split; assumption]. rewrite V, xsum_cons. rewrite HP; [rewrite N.lxor_0_l; reflexivity|].
        intros X. apply in_map_iff in X. destruct X as ([r c'] & E & X). cbn in E. subst c'. apply In_nth_error in X. destruct X as [j X].
        rewrite (cm_some c j r X) in E0. discriminate.
Qed.
Lemma toggle_all : forall ccol l row row', ofold (fc_toggle cm ccol) l row = Ok row' ->
  xsum posval row' = N.lxor (xsum posval row) (xsum P l).
Proof using Hsize Hlt Hnd HP.
  intros ccol l. induction l as [|c l IH]; intros row row' H.
  - cbn in H. injection H as <-. cbn. rewrite N.lxor_0_r. reflexivity.
  - cbn [ofold] in H. apply bind_ok in H. destruct H as (row1 & E & H). unfold fc_toggle in E.
    apply bind_ok in E. destruct E as (m & E0 & E). apply (vget_ok _ None) in E0. destruct E0 as [_ E0].
    rewrite (IH row1 row' H), xsum_cons. destruct m as [i|].
    + apply enf_ok in E. destruct E as [_ E]. injection E as <-. rewrite xsum_toggle, (posval_cm c i E0).
      rewrite !N.lxor_assoc. apply lxor_swap.
    + injection E as <-. rewrite HP; [rewrite N.lxor_0_l; reflexivity|].
      intros X. apply in_map_iff in X. destruct X as ([r c'] & E & X). cbn in E. subst c'. apply In_nth_error in X. destruct X as [j X].
      rewrite (cm_some c j r X) in E0. discriminate.
Qed.
Lemma fc_loop_facts : forall fuel row acc fc, fc_loop fuel rows main cm row acc = Ok fc ->
  exists l, fc = acc ++ l /\ incl l (map fst main) /\ xsum posval row = xsum rsum l.
Proof using Hsize Hlt Hnd HP.
  intros fuel. induction fuel as [|f IH]; intros row acc fc H; (destruct row as [|ccol row]; cbn [fc_loop] in H;
    [injection H as <-; exists []; rewrite app_nil_r; split; [reflexivity|]; split; [intros x []|reflexivity]|]); [discriminate|].
  apply bind_ok in H. destruct H as ([mr mc] & E1 & H). apply bind_ok in H. destruct H as (cs & E2 & H).
  apply bind_ok in H. destruct H as (row' & E3 & H). apply enf_ok in H. destruct H as [_ H]. cbn [fst] in *.
  destruct (IH row' (acc ++ [mr]) fc H) as (l & -> & I & V). exists (mr :: l).
  apply (vget_ok _ []) in E2. destruct E2 as [_ E2]. fold (rowi mr) in E2. subst cs.
  pose proof (toggle_all ccol _ _ _ E3) as T. split; [rewrite <- app_assoc; reflexivity|]. split.
  - intros x [<-|X]; [|auto]. unfold vget in E1. destruct (nth_error main ccol) as [e|] eqn:E; [|discriminate]. injection E1 as ->.
    apply (in_map fst) with (x := (mr, mc)). apply (nth_error_In _ _ E).
  - rewrite (xsum_cons _ rsum), <- V, T. unfold rsum. rewrite (N.lxor_comm (xsum posval (ccol :: row))), lxor_cancel. reflexivity.
Qed.
Lemma fc_inv1_facts : forall gap fc, fst gap < n -> In (snd gap) (map fst main) -> fc_inv1 rows size main gap = Ok fc ->
  incl fc (map fst main) /\ rsum (fst gap) = xsum rsum fc.
Proof using Hrows Hsize Hlt Hnd HP.
  intros [g m] fc Hg Hm H. cbn [fst snd] in *. unfold fc_inv1 in H. cbn [fst snd] in H.
  apply bind_ok in H. destruct H as (r0 & E0 & H). apply bind_ok in H. destruct H as (r1 & E1 & H).
  apply (vget_ok _ []) in E0. destruct E0 as [_ E0]. apply (vget_ok _ []) in E1. destruct E1 as [_ E1].
  fold (rowi g) in E0. fold (rowi m) in E1. destruct (list_eq_dec Nat.eq_dec r0 r1) as [E|E].
  - injection H as <-. split; [intros x [<-|[]]; assumption|]. cbn. rewrite N.lxor_0_r. unfold rsum. congruence.
  - fold cm in H. apply bind_ok in H. destruct H as (row & E2 & H). destruct (Hrows g Hg) as [ND FL]. fold (rowi g) in ND, FL. rewrite E0 in ND, FL.
    destruct (insert_all r0 [] row) as (V & _); try assumption.
    + intros c I. rewrite Forall_forall in FL. specialize (FL c I). lia.
    + intros c i _ _ [].
    + constructor.
    + intros i [].
    + destruct (fc_loop_facts _ _ _ _ H) as (l & -> & I & V'). cbn [app]. split; [assumption|].
      rewrite <- V', V. cbn. unfold rsum. rewrite E0. reflexivity.
Qed.

(** FC^-1 never fails. *)
Lemma insert_prog : forall l acc, (forall c, In c l -> c < size) -> exists row, ofold (fc_insert cm) l acc = Ok row.
Proof using Hsize Hlt Hnd.
  intros l. induction l as [|c l IH]; intros acc B; [cbn; eauto|]. cbn [ofold]. unfold fc_insert at 1.
  rewrite (vget_in _ None) by (rewrite cm_len; apply B; left; reflexivity). cbn [bind]. apply IH. intros; apply B; right; assumption.
Qed.
Lemma toggle_prog : forall ccol l row, NoDup l -> (forall c, In c l -> c < size) ->
  (forall c i, In c l -> nth c cm None = Some i -> i <= ccol) -> dec row -> (forall i, In i row -> i <= ccol) ->
  exists row', ofold (fc_toggle cm ccol) l row = Ok row' /\ dec row' /\ (forall i, In i row' -> i <= ccol) /\
  (In ccol row' <-> ((In ccol row /\ ~ exists c, In c l /\ nth c cm None = Some ccol) \/
                     (~ In ccol row /\ exists c, In c l /\ nth c cm None = Some ccol))).
Proof using Hsize Hlt Hnd.
  intros ccol l. induction l as [|c l IH]; intros row N B C D L.
  - exists row. split; [reflexivity|]. split; [assumption|]. split; [assumption|]. split; [intros I; left; split; [assumption|intros (c & [] & _)]|intros [[I _]|[_ (c & [] & _)]]; assumption].
  - inversion N; subst. cbn [ofold]. unfold fc_toggle at 1. rewrite (vget_in _ None) by (rewrite cm_len; apply B; left; reflexivity).
    cbn [bind]. destruct (nth c cm None) as [i|] eqn:E.
    + assert (Li : i <= ccol) by (apply (C c); [left; reflexivity|assumption]). rewrite (proj2 (Nat.leb_le _ _) Li). cbn [enforce bind].
      destruct (IH (set_toggle i row)) as (row' & R & D' & L' & Q).
      * assumption.
      * intros; apply B; right; assumption.
      * intros c' j I. apply C. right. assumption.
      * apply toggle_dec. assumption.
      * intros j X. apply toggle_in in X; [|assumption]. destruct X as [[_ X]|[-> _]]; auto.
      * exists row'. split; [exact R|]. split; [assumption|]. split; [assumption|]. rewrite Q. rewrite (toggle_in i row ccol D).
        assert (U : i = ccol -> ~ exists c0, In c0 l /\ nth c0 cm None = Some ccol).
        { intros -> (c0 & I0 & E0). destruct (cm_inv c ccol E) as [r1 X1]. destruct (cm_inv c0 ccol E0) as [r2 X2]. rewrite X1 in X2. injection X2 as _ <-. contradiction. }
        assert (EX : (exists c0, In c0 (c :: l) /\ nth c0 cm None = Some ccol) <-> (i = ccol \/ exists c0, In c0 l /\ nth c0 cm None = Some ccol)).
        { split; [intros (c0 & [<-|I0] & E0); [left; congruence|right; eauto]|intros [->|(c0 & I0 & E0)]; [exists c; split; [left; reflexivity|assumption]|exists c0; split; [right; assumption|assumption]]]. }
        rewrite EX. assert (DD : {In ccol row} + {~ In ccol row}) by apply (in_dec Nat.eq_dec).
        destruct (Nat.eq_dec i ccol) as [->|Di].
        -- specialize (U eq_refl). tauto.
        -- assert (ccol <> i) by congruence. tauto.
    + destruct (IH row) as (row' & R & D' & L' & Q); auto.
      * intros; apply B; right; assumption.
      * intros c' j I. apply C. right. assumption.
      * exists row'. split; [exact R|]. split; [assumption|]. split; [assumption|]. rewrite Q.
        assert (EX : (exists c0, In c0 (c :: l) /\ nth c0 cm None = Some ccol) <-> (exists c0, In c0 l /\ nth c0 cm None = Some ccol)).
        { split; [intros (c0 & [<-|I0] & E0); [congruence|eauto]|intros (c0 & I0 & E0); exists c0; split; [right; assumption|assumption]]. }
        rewrite EX. tauto.
Qed.
Lemma fc_loop_prog : forall fuel row acc, dec row -> (forall i, In i row -> i < length main) ->
  (forall i, In i row -> i < fuel) -> exists fc, fc_loop fuel rows main cm row acc = Ok fc.
Proof using Hrows Hsize Hlt Hnd Htri.
  intros fuel. induction fuel as [|f IH]; intros row acc D L F.
  - destruct row as [|c r]; [cbn; eauto|]. specialize (F c (or_introl eq_refl)). lia.
  - destruct row as [|ccol row]; [cbn; eauto|]. cbn [fc_loop].
    assert (Lc : ccol < length main) by (apply L; left; reflexivity). rewrite (vget_in _ (0, 0)) by assumption. cbn [bind].
    destruct (nth ccol main (0, 0)) as [mr mc] eqn:Em. cbn [fst].
    assert (En : nth_error main ccol = Some (mr, mc)) by (rewrite (nth_error_nth' _ (0, 0)) by assumption; congruence).
    destruct (tri_in _ _ _ _ _ Htri En) as [Hr Hc]. rewrite (vget_in _ []) by assumption. cbn [bind]. fold (rowi mr).
    destruct (Hrows mr Hr) as [ND FL]. fold (rowi mr) in ND, FL. rewrite Forall_forall in FL.
    destruct (toggle_prog ccol (rowi mr) (ccol :: row)) as (row' & R & D' & L' & Q); try assumption.
    + intros c I. apply FL in I. lia.
    + intros c i I E. destruct (cm_inv c i E) as [r' E']. destruct (Nat.le_gt_cases i ccol) as [X|X]; [assumption|].
      exfalso. apply (tri_nth rows main ccol i mr mc r' c Htri En E' X I).
    + intros i I. apply (filter_dec_in _ D ccol row eq_refl i I).
    + rewrite R. cbn [bind].
      assert (Z : ~ In ccol row').
      { rewrite Q. assert (X : exists c, In c (rowi mr) /\ nth c cm None = Some ccol) by (exists mc; split; [assumption|apply (cm_some mc ccol mr En)]).
        intros [[_ Y]|[Y _]]; [contradiction|]. apply Y. left. reflexivity. }
      assert (L2 : forall i, In i row' -> i < ccol).
      { intros i I. pose proof (L' i I). destruct (Nat.eq_dec i ccol) as [->|]; [contradiction|lia]. }
      assert (G : match row' with [] => true | c :: _ => negb (c =? ccol) end = true).
      { destruct row' as [|c t]; [reflexivity|]. apply negb_true_iff, Nat.eqb_neq. intros ->. apply Z. left. reflexivity. }
      rewrite G. cbn [enforce]. apply IH; [assumption| |].
      * intros i I. apply L2 in I. lia.
      * intros i I. apply L2 in I. specialize (F ccol (or_introl eq_refl)). lia.
Qed.
Lemma fc_inv1_prog : forall gap, fst gap < n -> In (snd gap) (map fst main) -> exists fc, fc_inv1 rows size main gap = Ok fc.
Proof using Hrows Hsize Hlt Hnd Htri HP P.
  intros [g m] Hg Hm. unfold fc_inv1. cbn [fst snd] in *.
  assert (Hm' : m < n).
  { apply in_map_iff in Hm. destruct Hm as ([r c] & E & I). cbn in E. subst r. apply In_nth_error in I. destruct I as [i I]. apply (tri_in _ _ _ _ _ Htri I). }
  rewrite !(vget_in _ []) by assumption. cbn [bind]. destruct (list_eq_dec _ _ _); [eauto|].
  destruct (Hrows g Hg) as [ND FL]. rewrite Forall_forall in FL.
  destruct (insert_prog (nth g rows []) []) as [row E]; [intros c I; apply FL in I; lia|]. fold cm. rewrite E. cbn [bind].
  destruct (insert_all (nth g rows []) [] row) as (_ & D & L); try assumption.
  - intros c I. apply FL in I. lia.
  - intros c i _ _ [].
  - constructor.
  - intros i [].
  - apply fc_loop_prog; [assumption|assumption|]. intros i I. apply L in I. lia.
Qed.
End FC.
