(** Lemmas for C81 and C82: hashing and the OPPRF. *)
From Coq Require Import List NArith Bool Arith Lia Permutation.
From Verif Require Import Base StoreModel KmModel KmSpec.
Import ListNotations.

(** ** Lists and machine words *)
Lemma upd_length : forall (A : Type) f (l : list A) a, length (upd a f l) = length l.
Proof. intros A f l. induction l as [|x l IH]; intros [|a]; cbn; auto. Qed.
Lemma upd_same : forall (A : Type) f (l : list A) a d, a < length l -> nth a (upd a f l) d = f (nth a l d).
Proof. intros A f l. induction l as [|x l IH]; intros [|a] d H; cbn in *; try lia; auto. apply IH. lia. Qed.
Lemma upd_other : forall (A : Type) f (l : list A) a b d, a <> b -> nth b (upd a f l) d = nth b l d.
Proof. intros A f l. induction l as [|x l IH]; intros [|a] [|b] d H; cbn; auto; try lia. Qed.
Lemma in_nth : forall (l : list N) y, In y l <-> exists a, a < length l /\ nth a l 0%N = y.
Proof.
  intros l y. split; [intros I; destruct (In_nth l y 0%N I) as (a & L & E); eauto|].
  intros (a & L & E). rewrite <- E. apply nth_In. exact L.
Qed.
Lemma mod_nat_lt : forall x m, 0 < m -> N.to_nat (x mod N.of_nat m) < m.
Proof. intros x m H. assert (x mod N.of_nat m < N.of_nat m)%N by (apply N.mod_lt; lia). lia. Qed.
Lemma addr_lt : forall m x i, 0 < m -> km_addr m x i < m.
Proof. intros. apply mod_nat_lt. assumption. Qed.

(** ** Cuckoo hashing *)
Definition placed (k : nat) (bins : list N) : Prop :=
  forall a, a < length bins -> nth a bins 0%N <> 0%N -> exists i, i < k /\ km_addr (length bins) (nth a bins 0%N) i = a.

Lemma idxs_lt : forall k r i, 0 < k -> In i (km_idxs k r) -> i < k.
Proof. intros k r i H I. apply in_map_iff in I. destruct I as (j & <- & _). apply Nat.mod_upper_bound. lia. Qed.
Lemma idxs_some : forall k r, 1 < k -> km_idxs k r <> [].
Proof. intros k r H E. apply (f_equal (@length nat)) in E. unfold km_idxs in E. rewrite map_length, seq_length in E. cbn in E. lia. Qed.

Lemma try_spec : forall bins x idxs last,
  match km_try bins x idxs last with
  | inl b => exists i, In i idxs /\ (nth (km_addr (length bins) x i) bins 0%N = 0%N \/ nth (km_addr (length bins) x i) bins 0%N = x) /\
               b = upd (km_addr (length bins) x i) (fun _ => x) bins
  | inr a => (idxs = [] /\ a = last) \/ (exists i, In i idxs /\ a = km_addr (length bins) x i /\ nth a bins 0%N <> 0%N)
  end.
Proof.
  intros bins x idxs. induction idxs as [|i r IH]; intros last; cbn [km_try]; [left; auto|].
  set (a := km_addr (length bins) x i). destruct (_ || _) eqn:E.
  - exists i. split; [left; reflexivity|]. split; [|reflexivity]. apply orb_true_iff in E. destruct E as [E|E]; apply N.eqb_eq in E; auto.
  - specialize (IH a). destruct (km_try bins x r a) as [b|a'].
    + destruct IH as (j & I & Z). exists j. split; [right; exact I|exact Z].
    + right. destruct IH as [(_ & ->)|(j & I & Z)].
      * exists i. split; [left; reflexivity|]. split; [reflexivity|]. intros Z. fold a in E. rewrite Z in E. discriminate.
      * exists j. split; [right; exact I|exact Z].
Qed.

Lemma put_placed : forall k bins x i, 0 < length bins -> i < k -> placed k bins -> placed k (upd (km_addr (length bins) x i) (fun _ => x) bins).
Proof.
  intros k bins x i HL Hi HP a La Na. rewrite upd_length in La |- *.
  destruct (Nat.eq_dec (km_addr (length bins) x i) a) as [<-|D].
  - rewrite upd_same by exact La. exists i. auto.
  - rewrite upd_other in Na |- * by exact D. apply HP; assumption.
Qed.

Lemma into_spec : forall fuel k rnd pos bins x, 1 < k -> 0 < length bins -> placed k bins ->
  let '(b, y, _) := km_into fuel k rnd pos bins x in
  length b = length bins /\ placed k b /\ (forall z, z <> 0%N -> In z bins \/ z = x -> In z b \/ z = y).
Proof.
  induction fuel as [|f IH]; intros k rnd pos bins x Hk HL HP; cbn [km_into]; [auto|].
  destruct (x =? 0)%N eqn:E0; [auto|]. apply N.eqb_neq in E0.
  set (idxs := km_idxs k _). assert (T := try_spec bins x idxs 0).
  assert (HI : forall i, In i idxs -> i < k) by (intros i I; eapply idxs_lt; [|exact I]; lia).
  destruct (km_try bins x idxs 0) as [b|a].
  - destruct T as (i & I & V & ->). split; [apply upd_length|]. split; [apply put_placed; auto|].
    set (a := km_addr (length bins) x i) in *. assert (La : a < length bins) by (apply addr_lt; exact HL).
    intros z Z [J| ->]; left; apply in_nth.
    + apply in_nth in J. destruct J as (c & Lc & Ec). exists c. rewrite upd_length. split; [exact Lc|].
      destruct (Nat.eq_dec a c) as [<-|D]; [rewrite upd_same by exact La; destruct V as [V|V]; congruence|rewrite upd_other by exact D; exact Ec].
    + exists a. rewrite upd_length. split; [exact La|]. rewrite upd_same by exact La. reflexivity.
  - destruct T as [(T & _)|(i & I & Ea & Na)]; [exfalso; revert T; apply idxs_some; exact Hk|].
    assert (La : a < length bins) by (subst a; apply addr_lt; exact HL).
    assert (IH' := IH k rnd (S pos) (upd a (fun _ => x) bins) (nth a bins 0%N) Hk ltac:(rewrite upd_length; exact HL) ltac:(subst a; apply put_placed; auto)).
    destruct (km_into f k rnd (S pos) (upd a (fun _ => x) bins) (nth a bins 0%N)) as [[b y] p]. rewrite upd_length in IH'.
    destruct IH' as (A & B & C). split; [exact A|]. split; [exact B|]. intros z Z J. apply C; [exact Z|].
    destruct J as [J| ->].
    + apply in_nth in J. destruct J as (c & Lc & Ec). destruct (Nat.eq_dec a c) as [<-|D]; [right; congruence|].
      left. apply in_nth. exists c. rewrite upd_length, upd_other by exact D. auto.
    + left. apply in_nth. exists a. rewrite upd_length, upd_same by exact La. auto.
Qed.

Definition good_tabs (m0 m1 : nat) (st : list N * list N * nat) : Prop :=
  length (fst (fst st)) = m0 /\ length (snd (fst st)) = m1 /\ placed 3 (fst (fst st)) /\ placed 2 (snd (fst st)).
Definition holds (st : list N * list N * nat) (z : N) : Prop := In z (fst (fst st)) \/ In z (snd (fst st)).

Lemma insert_n_spec : forall fuel rnd m0 m1 st x st', 0 < m0 -> 0 < m1 -> good_tabs m0 m1 st -> km_insert_n fuel rnd st x = Ok st' ->
  good_tabs m0 m1 st' /\ forall z, z <> 0%N -> holds st z \/ z = x -> holds st' z.
Proof.
  intros fuel rnd m0 m1 [[b0 b1] pos] x st' H0 H1 (L0 & L1 & P0 & P1) E. cbn [fst snd] in *. unfold km_insert_n in E. cbn [km_nh] in E.
  assert (A := into_spec fuel 3 rnd pos b0 x ltac:(lia) ltac:(lia) P0).
  destruct (km_into fuel 3 rnd pos b0 x) as [[b0' x'] pos']. destruct A as (A1 & A2 & A3).
  assert (B := into_spec fuel 2 rnd pos' b1 x' ltac:(lia) ltac:(lia) P1).
  destruct (km_into fuel 2 rnd pos' b1 x') as [[b1' x''] pos'']. destruct B as (B1 & B2 & B3).
  unfold enforce in E. destruct (x'' =? 0)%N eqn:Z0; [|discriminate]. apply N.eqb_eq in Z0. inversion E; subst. clear E.
  split; [repeat split; cbn [fst snd]; auto|]. intros z Z HH. unfold holds in *. cbn [fst snd] in *.
  destruct HH as [[HH|HH]|HH].
  - destruct (A3 z Z (or_introl HH)) as [Q|Q]; [auto|]. destruct (B3 z Z (or_intror Q)) as [Q'|Q']; [auto|contradiction].
  - destruct (B3 z Z (or_introl HH)) as [Q'|Q']; [auto|contradiction].
  - destruct (A3 z Z (or_intror HH)) as [Q|Q]; [auto|]. destruct (B3 z Z (or_intror Q)) as [Q'|Q']; [auto|contradiction].
Qed.

Lemma insert_spec : forall rnd m0 m1 st x st', 0 < m0 -> 0 < m1 -> good_tabs m0 m1 st -> km_insert rnd st x = Ok st' ->
  good_tabs m0 m1 st' /\ forall z, z <> 0%N -> holds st z \/ z = x -> holds st' z.
Proof. exact (insert_n_spec 128). Qed.

Lemma inserts_spec : forall rnd m0 m1 xs st st', 0 < m0 -> 0 < m1 -> good_tabs m0 m1 st -> km_inserts rnd st xs = Ok st' ->
  good_tabs m0 m1 st' /\ forall z, z <> 0%N -> holds st z \/ In z xs -> holds st' z.
Proof.
  intros rnd m0 m1 xs. induction xs as [|x r IH]; intros st st' H0 H1 G E; cbn [km_inserts] in E.
  - inversion E; subst. split; [exact G|]. intros z _ [Q|[]]. exact Q.
  - destruct (km_insert rnd st x) as [st1| | |] eqn:E1; try discriminate. cbn [bind] in E.
    destruct (insert_spec rnd m0 m1 st x st1 H0 H1 G E1) as (G1 & C1). destruct (IH st1 st' H0 H1 G1 E) as (G2 & C2).
    split; [exact G2|]. intros z Z HH. apply C2; [exact Z|]. destruct HH as [HH|[HH|HH]]; auto.
Qed.

Lemma find_spec : forall bins k x a, 0 < length bins -> km_find bins k x = Some a ->
  a < length bins /\ nth a bins 0%N = x /\ exists i, i < k /\ a = km_addr (length bins) x i.
Proof.
  intros bins k x a HL E. unfold km_find in E. destruct (filter _ _) as [|i r] eqn:F; [discriminate|]. inversion E; subst a.
  assert (I : In i (i :: r)) by (left; reflexivity). rewrite <- F in I. apply filter_In in I. destruct I as (I & Q).
  apply N.eqb_eq in Q. apply in_seq in I. split; [apply addr_lt; exact HL|]. split; [exact Q|]. exists i. split; [lia|reflexivity].
Qed.
Lemma find_some : forall bins k x, x <> 0%N -> placed k bins -> In x bins -> exists a, km_find bins k x = Some a.
Proof.
  intros bins k x Z P I. apply in_nth in I. destruct I as (a & La & Ea). destruct (P a La ltac:(congruence)) as (i & Hi & Ei).
  unfold km_find. destruct (filter _ _) as [|j r] eqn:F; [|eauto].
  assert (J : In i []); [|destruct J]. rewrite <- F. apply filter_In. split; [apply in_seq; lia|]. rewrite Ea in Ei. rewrite Ei. apply N.eqb_eq. exact Ea.
Qed.

Lemma lookup_spec : forall m0 m1 st x, 0 < m0 -> 0 < m1 -> good_tabs m0 m1 st -> x <> 0%N -> holds st x ->
  exists c a, km_lookup (fst (fst st)) (snd (fst st)) x = Some (c, a) /\
    (let m := if c then m1 else m0 in let b := if c then snd (fst st) else fst (fst st) in
     a < m /\ nth a b 0%N = x /\ exists i, i < km_nh c /\ a = km_addr m x i).
Proof.
  intros m0 m1 [[b0 b1] p] x H0 H1 (L0 & L1 & P0 & P1) Z HH. unfold holds in HH. cbn [fst snd] in *. unfold km_lookup.
  destruct (km_find b0 (km_nh false) x) as [a|] eqn:F0.
  - exists false, a. split; [reflexivity|]. destruct (find_spec b0 _ x a ltac:(lia) F0) as (A & B & C). rewrite L0 in *. auto.
  - destruct HH as [HH|HH]; [destruct (find_some b0 3 x Z P0 HH) as (a & Q); cbn [km_nh] in F0; congruence|].
    destruct (find_some b1 2 x Z P1 HH) as (a & Q). cbn [km_nh]. rewrite Q. exists true, a. split; [reflexivity|].
    destruct (find_spec b1 2 x a ltac:(lia) Q) as (A & B & C). rewrite L1 in *. auto.
Qed.

Lemma empty_tabs : forall m0 m1 p, good_tabs m0 m1 (repeat 0%N m0, repeat 0%N m1, p).
Proof.
  intros m0 m1 p. unfold good_tabs. cbn [fst snd]. rewrite !repeat_length. split; [reflexivity|]. split; [reflexivity|].
  assert (Z : forall k m, placed k (repeat 0%N m)).
  { intros k m a _ Na. exfalso. apply Na. destruct (nth_in_or_default a (repeat 0%N m) 0%N) as [I|I]; [apply (repeat_spec _ _ _ I)|exact I]. }
  split; apply Z.
Qed.

(** ** Simple hashing *)
Lemma emplace_keeps : forall b p q, In q b -> In q (km_emplace b p).
Proof. intros b p q I. unfold km_emplace. destruct (existsb _ b); [exact I|apply in_or_app; auto]. Qed.
Definition bin_step (m k addr : nat) (b : list (N * N)) (p : N * N) : list (N * N) :=
  if existsb (fun i => km_addr m (fst p) i =? addr) (seq 0 k) then km_emplace b p else b.
Lemma bin_keeps : forall m k addr pts b q, In q b -> In q (fold_left (bin_step m k addr) pts b).
Proof.
  intros m k addr pts. induction pts as [|p r IH]; intros b q I; [exact I|]. cbn [fold_left]. apply IH. unfold bin_step.
  destruct (existsb _ (seq 0 k)); [apply emplace_keeps|]; exact I.
Qed.
Lemma emplace_in : forall b p q, In q (km_emplace b p) -> In q b \/ q = p.
Proof. intros b p q I. unfold km_emplace in I. destruct (existsb _ b); [auto|]. apply in_app_or in I. destruct I as [I|[I|[]]]; auto. Qed.
Lemma bin_from : forall m k addr pts b q, In q (fold_left (bin_step m k addr) pts b) -> In q b \/ In q pts.
Proof.
  intros m k addr pts. induction pts as [|p r IH]; intros b q I; [auto|]. cbn [fold_left] in I. apply IH in I. destruct I as [I|I]; [|right; right; exact I].
  unfold bin_step in I. destruct (existsb _ (seq 0 k)); [|auto]. apply emplace_in in I. destruct I as [I|I]; [auto|subst; right; left; reflexivity].
Qed.
Lemma bin_first : forall m k addr l1 l2 x y b, (exists i, i < k /\ km_addr m x i = addr) -> ~ In x (map fst l1) -> ~ In x (map fst b) ->
  In (x, y) (fold_left (bin_step m k addr) (l1 ++ (x, y) :: l2) b).
Proof.
  intros m k addr l1 l2 x y. induction l1 as [|p r IH]; intros b HI N1 N2.
  - cbn [app fold_left]. apply bin_keeps. unfold bin_step. cbn [fst]. destruct HI as (i & Hi & Ei).
    replace (existsb _ (seq 0 k)) with true.
    + unfold km_emplace. replace (existsb _ b) with false; [apply in_or_app; right; left; reflexivity|].
      symmetry. destruct (existsb _ b) eqn:E; [|reflexivity]. exfalso. apply existsb_exists in E. destruct E as (q & I & Q). apply N.eqb_eq in Q. cbn in Q.
      apply N2. rewrite <- Q. apply in_map. exact I.
    + symmetry. apply existsb_exists. exists i. split; [apply in_seq; lia|]. apply Nat.eqb_eq. exact Ei.
  - cbn [app fold_left]. apply IH; [exact HI|intros I; apply N1; right; exact I|].
    intros I. unfold bin_step in I. destruct (existsb _ (seq 0 k)); [|contradiction].
    apply in_map_iff in I. destruct I as (q & Q & I). apply emplace_in in I. destruct I as [I|I]; [apply N2; rewrite <- Q; apply in_map; exact I|].
    subst q. apply N1. left. exact Q.
Qed.

(** ** Tables *)
Section Tables.
Variable ro : N -> N -> N.

Lemma place_length : forall size f nonce pts tbl t, km_place ro size f nonce tbl pts = Some t -> length t = length tbl.
Proof.
  intros size f nonce pts. induction pts as [|[x y] r IH]; intros tbl t E; cbn [km_place] in E; [congruence|].
  destruct (_ =? 0)%N; [|discriminate]. apply IH in E. rewrite upd_length in E. exact E.
Qed.
Lemma place_keep : forall size f nonce pts tbl t i, km_place ro size f nonce tbl pts = Some t -> nth i tbl 0%N <> 0%N -> nth i t 0%N = nth i tbl 0%N.
Proof.
  intros size f nonce pts. induction pts as [|[x y] r IH]; intros tbl t i E Z; cbn [km_place] in E; [congruence|].
  destruct (_ =? 0)%N eqn:Q; [|discriminate]. apply N.eqb_eq in Q. set (j := km_place_of ro size (f x) nonce) in *.
  assert (D : j <> i) by (intros ->; contradiction).
  rewrite (IH _ _ i E); rewrite upd_other by exact D; auto.
Qed.
Lemma place_spec : forall size f nonce pts tbl t x y, 0 < size -> length tbl = size -> km_place ro size f nonce tbl pts = Some t ->
  In (x, y) pts -> f x <> y -> nth (km_place_of ro size (f x) nonce) t 0%N = N.lxor (f x) y.
Proof.
  intros size f nonce pts. induction pts as [|[x' y'] r IH]; intros tbl t x y HS HL E I D; [destruct I|]. cbn [km_place] in E.
  destruct (_ =? 0)%N eqn:Q; [|discriminate]. destruct I as [I|I].
  - inversion I; subst x' y'. set (j := km_place_of ro size (f x) nonce) in *.
    assert (Lj : j < length tbl) by (rewrite HL; apply mod_nat_lt; exact HS).
    rewrite (place_keep _ _ _ _ _ _ j E); rewrite upd_same by exact Lj; [reflexivity|]. intros Z. apply D. apply N.lxor_eq. exact Z.
  - apply (IH _ _ _ _ HS ltac:(rewrite upd_length; exact HL) E I D).
Qed.
Lemma place_ext : forall size f g nonce pts tbl, (forall p, In p pts -> f (fst p) = g (fst p)) ->
  km_place ro size f nonce tbl pts = km_place ro size g nonce tbl pts.
Proof.
  intros size f g nonce pts. induction pts as [|[x y] r IH]; intros tbl HE; [reflexivity|]. cbn [km_place].
  assert (Q := HE (x, y) (or_introl eq_refl)). cbn in Q. rewrite <- Q. destruct (_ =? 0)%N; [|reflexivity]. apply IH. intros p I. apply HE. right. exact I.
Qed.
Lemma separate_ext : forall fuel a size f g nonces pts, (forall p, In p pts -> f (fst p) = g (fst p)) ->
  km_separate ro fuel a size f nonces pts = km_separate ro fuel a size g nonces pts.
Proof.
  induction fuel as [|n IH]; intros a size f g nonces pts HE; [reflexivity|]. cbn [km_separate].
  rewrite (place_ext size f g _ pts _ HE). destruct (km_place ro size g (nonces a) _ pts); [reflexivity|]. apply IH. exact HE.
Qed.
Lemma separate_spec : forall fuel a size f nonces pts nonce t, 0 < size -> km_separate ro fuel a size f nonces pts = Ok (nonce, t) ->
  length t = size /\ forall x y, In (x, y) pts -> f x <> y -> nth (km_place_of ro size (f x) nonce) t 0%N = N.lxor (f x) y.
Proof.
  induction fuel as [|n IH]; intros a size f nonces pts nonce t HS E; [discriminate|]. cbn [km_separate] in E.
  destruct (km_place ro size f (nonces a) _ pts) as [t'|] eqn:P; [|exact (IH _ _ _ _ _ _ _ HS E)]. inversion E; subst.
  split; [rewrite (place_length _ _ _ _ _ _ P); apply repeat_length|].
  intros x y I D. apply (place_spec _ _ _ _ _ _ _ _ HS (repeat_length _ _) P I D).
Qed.
Lemma filled_nth : forall fill t i, nth i t 0%N <> 0%N -> nth i (km_filled fill t) 0%N = nth i t 0%N.
Proof.
  intros fill t i Z. unfold km_filled. generalize 0 as b. revert i Z. induction t as [|x t IH]; intros i Z b; [destruct i; reflexivity|].
  destruct i as [|i]; cbn [number map nth fst snd] in *; [apply N.eqb_neq in Z; rewrite Z; reflexivity|]. apply IH. exact Z.
Qed.
Lemma filled_length : forall fill t, length (km_filled fill t) = length t.
Proof. intros fill t. unfold km_filled. rewrite map_length. generalize 0 as i. induction t as [|x t IH]; intros i; cbn; auto. Qed.
End Tables.

(** ** Sequences of calls *)
Lemma mapM_ok : forall (A B : Type) (f : A -> outcome B) l ys, km_mapM f l = Ok ys -> Forall2 (fun x y => f x = Ok y) l ys.
Proof.
  intros A B f l. induction l as [|x l IH]; intros ys E; cbn [km_mapM] in E; [inversion E; constructor|].
  destruct (f x) as [y| | |] eqn:E1; try discriminate. cbn [bind] in E. destruct (km_mapM f l) as [zs| | |] eqn:E2; try discriminate.
  inversion E; subst. constructor; auto.
Qed.
Lemma mapM_ext : forall (A B : Type) (f g : A -> outcome B) l, (forall x, In x l -> f x = g x) -> km_mapM f l = km_mapM g l.
Proof.
  intros A B f g l. induction l as [|x l IH]; intros HE; [reflexivity|]. cbn [km_mapM]. rewrite (HE x (or_introl eq_refl)).
  destruct (g x); cbn [bind]; try reflexivity. rewrite IH; [reflexivity|]. intros y I. apply HE. right. exact I.
Qed.
Lemma forall2_nth : forall (A B : Type) (P : A -> B -> Prop) l m, Forall2 P l m ->
  length l = length m /\ forall i x, nth_error l i = Some x -> exists y, nth_error m i = Some y /\ P x y.
Proof.
  intros A B P l m F. induction F as [|x y l m HP F (IL & IH)]; [split; [reflexivity|intros [|i] x; discriminate]|].
  split; [cbn; congruence|]. intros [|i] z E; cbn in E; [inversion E; subst; exists y; auto|]. apply IH. exact E.
Qed.
Lemma nth_error_seq : forall i k a, i < k -> nth_error (seq a k) i = Some (a + i).
Proof. induction i as [|i IH]; intros [|k] a H; try lia; cbn; [f_equal; lia|]. rewrite IH by lia. f_equal. lia. Qed.
Lemma mapM_seq : forall (B : Type) (f : nat -> outcome B) k ys, km_mapM f (seq 0 k) = Ok ys ->
  length ys = k /\ forall i, i < k -> exists y, nth_error ys i = Some y /\ f i = Ok y.
Proof.
  intros B f k ys E. apply mapM_ok in E. apply forall2_nth in E. destruct E as (L & E). rewrite seq_length in L. split; [congruence|].
  intros i Hi. destruct (E i i (nth_error_seq i k 0 Hi)) as (y & A & C). eauto.
Qed.

