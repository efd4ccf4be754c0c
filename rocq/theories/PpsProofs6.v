(** How often the index asked for is in the set sent. *)
From Coq Require Import List NArith Bool Arith Lia Permutation.
From Verif Require Import Base BaseProofs StoreModel KkrtProofs PpsModel PpsSpec PpsProofs PpsProofs2 PpsProofs3 PpsProofs4 PpsProofs5.
Import ListNotations.

Definition cnt {A : Type} (f : A -> bool) (l : list A) : nat := length (filter f l).
Lemma cnt_app : forall (A : Type) (f : A -> bool) a b, cnt f (a ++ b) = cnt f a + cnt f b.
Proof. intros. unfold cnt. rewrite filter_app, app_length. reflexivity. Qed.
Lemma cnt_true : forall m q, cnt (fun _ : nat => true) (seq q m) = m.
Proof. unfold cnt. induction m; intro q; [reflexivity|]. cbn. f_equal. apply IHm. Qed.
Lemma cnt_map : forall (A B : Type) (f : B -> bool) (g : A -> B) l, cnt f (map g l) = cnt (fun x => f (g x)) l.
Proof. intros. unfold cnt. induction l; [reflexivity|]. cbn. destruct (f (g a)); cbn; rewrite IHl; reflexivity. Qed.
Lemma cnt_ext : forall (A : Type) (f g : A -> bool) l, (forall x, In x l -> f x = g x) -> cnt f l = cnt g l.
Proof.
  intros A f g l. unfold cnt. induction l; intros H; [reflexivity|]. cbn. rewrite (H a) by (left; reflexivity).
  assert (E : length (filter f l) = length (filter g l)) by (apply IHl; intros; apply H; right; assumption).
  destruct (g a); cbn; rewrite E; reflexivity.
Qed.
Lemma cnt_perm : forall (A : Type) (f : A -> bool) a b, Permutation a b -> cnt f a = cnt f b.
Proof.
  intros A f a b. unfold cnt. induction 1; cbn; repeat match goal with |- context [if ?c then _ else _] => destruct c end; cbn; congruence.
Qed.
Definition sum (l : list nat) : nat := fold_right Nat.add 0 l.
Lemma cnt_prod : forall (A B : Type) (f : A * B -> bool) a b, cnt f (list_prod a b) = sum (map (fun x => cnt (fun y => f (x, y)) b) a).
Proof.
  induction a as [|x a IH]; intros b; [reflexivity|]. cbn [list_prod map sum fold_right]. rewrite cnt_app, IH, cnt_map. reflexivity.
Qed.
Lemma sum_if : forall (A : Type) (p : A -> bool) c l, sum (map (fun x => if p x then c else 0) l) = c * cnt p l.
Proof.
  intros A p c l. unfold cnt. induction l; cbn; [lia|]. unfold sum in IHl. destruct (p a); cbn; rewrite IHl; lia.
Qed.
Lemma sum_const : forall (A : Type) c (l : list A), sum (map (fun _ => c) l) = c * length l.
Proof. induction l; cbn; [lia|]. unfold sum in IHl. rewrite IHl. lia. Qed.
Lemma sum_add : forall (A : Type) (f g : A -> nat) l, sum (map (fun x => f x + g x) l) = sum (map f l) + sum (map g l).
Proof. induction l; [reflexivity|]. cbn [map sum fold_right]. unfold sum in IHl. rewrite IHl. lia. Qed.
Lemma sum_ext : forall (A : Type) (f g : A -> nat) l, (forall x, In x l -> f x = g x) -> sum (map f l) = sum (map g l).
Proof. intros. f_equal. apply map_ext_in. assumption. Qed.

Lemma occ_cnt : forall x sets, occurrences x sets = cnt (fun l => existsb (N.eqb x) l) sets.
Proof. reflexivity. Qed.

(** Adding up over all indices counts the elements of the sets. *)
Lemma double_count : forall (xs : list N) sets, NoDup xs ->
  Forall (fun l => NoDup l /\ incl l xs) sets ->
  sum (map (fun x => occurrences x sets) xs) = sum (map (@length N) sets).
Proof.
  intros xs sets NX. induction 1 as [|l sets [ND IN] F IH].
  - cbn [map]. rewrite (sum_ext _ _ (fun _ => 0)) by reflexivity. rewrite sum_const. reflexivity.
  - cbn [map sum fold_right]. unfold sum in IH. rewrite <- IH. fold (sum (map (fun x => occurrences x sets) xs)).
    rewrite (sum_ext _ _ (fun x => (if existsb (N.eqb x) l then 1 else 0) + occurrences x sets)).
    2:{ intros x _. unfold occurrences. cbn. destruct (existsb (N.eqb x) l); reflexivity. }
    rewrite sum_add, sum_if. rewrite Nat.mul_1_l. f_equal. unfold cnt.
    apply Permutation_length, NoDup_Permutation; [apply NoDup_filter; exact NX|exact ND|].
    intro x. rewrite filter_In. change (existsb (N.eqb x) l) with (pp_mem x l). rewrite mem_In. split; [intros [_ J]; exact J|intro J; split; [apply IN; exact J|exact J]].
Qed.

Lemma cnt_others : forall v (l : list N), NoDup l -> In v l -> cnt (fun x => negb (x =? v)%N) l = length l - 1.
Proof.
  intros v l ND J. apply in_split in J. destruct J as (a & b & ->). apply NoDup_remove_2 in ND.
  assert (ALL : forall c, (forall x, In x c -> x <> v) -> cnt (fun x => negb (x =? v)%N) c = length c).
  { unfold cnt. induction c as [|x c IH]; intros H; [reflexivity|]. cbn.
    destruct (N.eqb_spec x v) as [E|E]; [exfalso; exact (H x (or_introl eq_refl) E)|]. cbn. f_equal. apply IH. intros; apply H; right; assumption. }
  change (v :: b) with ([v] ++ b). rewrite !cnt_app, !app_length. rewrite (ALL a), (ALL b).
  - unfold cnt. cbn [filter]. rewrite N.eqb_refl. cbn [negb length]. lia.
  - intros x Jx ->. apply ND. apply in_or_app. right. exact Jx.
  - intros x Jx ->. apply ND. apply in_or_app. left. exact Jx.
Qed.

Lemma nth_seq : forall (A : Type) (d : A) l, map (fun i => nth i l d) (seq 0 (length l)) = l.
Proof. induction l as [|x l IH]; [reflexivity|]. cbn [length seq map nth]. f_equal. rewrite <- seq_shift, map_map. exact IH. Qed.

Section S.
Variable prg : N -> N * N.
Variable n : N.
Variable s : nat.
Hypothesis Hprg : forall x, (fst (prg x) < max64 * max64)%N /\ (snd (prg x) < max64 * max64)%N.
Hypothesis Hn : (0 < n < half)%N.
Hypothesis Hs : 2 <= s.
Hypothesis Hsm : (N.of_nat s < max64)%N.
Variable walk : list (N * nat) -> list (N * nat).
Hypothesis Hwalk : forall m, Permutation (walk m) m.
Notation vals := (vals prg n s).
Notation cop := (pp_copath prg (pp_depth s)).

(** A state after Setup, with the word for a failed search. *)
Definition ok_setup (o : N * list N * N) : Prop :=
  let '(k, ds, r1) := o in
  (k < max64 * max64)%N /\ no_zero_node prg (pp_depth s) k /\ length (pp_map prg n s k) = s /\ Forall (fun d => (d < n)%N) ds /\ (r1 < max64)%N.

Definition sent (i : N) (o : N * list N * N) (b : bool) (w : N) : outcome ppk :=
  let '(k, ds, r1) := o in omap snd (pp_query prg n s walk i k (pp_map prg n s k) ds r1 w b pk_new).
Definition seen (m : outcome ppk) : list N := match m with Ok pk => shifted prg n s pk | _ => [] end.

Lemma f_inj : forall k d, (k < max64 * max64)%N -> (d < n)%N -> forall u v, In u (vals k) -> In v (vals k) -> ((u + d) mod n = (v + d) mod n)%N -> u = v.
Proof.
  intros k d Hk Hd u v Ju Jv E. pose proof (vals_lt prg n s Hprg Hn (Hs0 s Hs) k Hk) as VL. rewrite Forall_forall in VL.
  assert (LT : ((u + d) mod n < n)%N) by (apply N.mod_lt; lia).
  destruct (pp_sub_spec _ d n Hn LT Hd) as [_ S2].
  pose proof (proj2 (S2 u (VL u Ju)) eq_refl) as Q1. pose proof (proj2 (S2 v (VL v Jv)) (eq_sym E)) as Q2. congruence.
Qed.

Lemma query_shape : forall o i, ok_setup o -> (i < n)%N ->
  exists d v, (d < n)%N /\ In v (vals (fst (fst o))) /\ ((v + d) mod n = i)%N /\
  forall b w, (w < max64)%N -> exists pos x, nth_error (vals (fst (fst o))) pos = Some x /\
    (if b : bool then pp_pick s walk (pp_map prg n s (fst (fst o))) w = Ok x else x = v) /\
    sent i o b w = Ok (mk_ppk (cop (N.of_nat pos) (fst (fst o))) (N.of_nat pos) d).
Proof.
  intros [[k ds] r1] i (Hk & HZ & L & FD & Hr1) Hi. cbn [fst].
  pose proof (vals_lt prg n s Hprg Hn (Hs0 s Hs) k Hk) as VL. rewrite Forall_forall in VL.
  assert (HB : N.to_nat n <= length (repeat false (N.to_nat n))) by (rewrite repeat_length; apply le_n).
  assert (P : exists j d v, (d < n)%N /\ In v (vals k) /\ ((v + d) mod n = i)%N /\
     (match pp_search n (pp_map prg n s k) i 0 ds with
      | Some (j, d) => Ok (Some j, d)
      | None => do v <- pp_pick s walk (pp_map prg n s k) r1; Ok (None, pp_sub i v n)
      end) = Ok (j, d)).
  { pose proof (search_spec prg n s Hprg Hn (Hs0 s Hs) (repeat false (N.to_nat n)) HB (fun _ => 0%N) k i L Hk Hi ds 0 FD) as SS.
    destruct (pp_search n (pp_map prg n s k) i 0 ds) as [[j d]|].
    - destruct SS as (_ & _ & Hd & v & Jv & Ev). exists (Some j), d, v. repeat split; assumption.
    - destruct (pick_ok prg n s Hprg Hn (Hs0 s Hs) (repeat false (N.to_nat n)) HB walk Hwalk (fun _ => 0%N) 0 k r1 L Hr1 Hsm) as (v1 & p1 & EP1 & EN1).
      rewrite EP1. assert (Hv1 : (v1 < n)%N) by exact (VL v1 (nth_error_In _ _ EN1)).
      destruct (pp_sub_spec i v1 n Hn Hi Hv1) as [S1 S2].
      exists None, (pp_sub i v1 n), v1. split; [exact S1|]. split; [exact (nth_error_In _ _ EN1)|]. split; [|reflexivity].
      rewrite N.add_comm. exact (proj1 (S2 _ S1) eq_refl). }
  destruct P as (j & d & v & Hd & Jv & Ev & EQ). exists d, v. split; [exact Hd|]. split; [exact Jv|]. split; [exact Ev|].
  intros b w Hw. unfold sent, pp_query. rewrite EQ. cbn [bind pk_ks pk_pos pk_new].
  destruct (pp_sub_spec i d n Hn Hi Hd) as [S1 S2].
  destruct b.
  - destruct (pick_ok prg n s Hprg Hn (Hs0 s Hs) (repeat false (N.to_nat n)) HB walk Hwalk (fun _ => 0%N) 0 k w L Hw Hsm) as (x & pos & EP & EN).
    exists pos, x. split; [exact EN|]. split; [exact EP|]. rewrite EP. cbn [bind].
    rewrite (punc_ok prg n s Hprg Hn (Hs0 s Hs) k x pos x d 0%N L EN eq_refl). reflexivity.
  - destruct (In_nth_error _ _ Jv) as [pos Ep]. exists pos, v. split; [exact Ep|]. split; [reflexivity|]. cbn [bind].
    rewrite (punc_ok prg n s Hprg Hn (Hs0 s Hs) k v pos (pp_sub i d n) d 0%N L Ep (eq_sym (proj2 (S2 v (VL v Jv)) Ev))). reflexivity.
Qed.

Lemma seen_shape : forall k pos x d, (k < max64 * max64)%N -> no_zero_node prg (pp_depth s) k -> length (pp_map prg n s k) = s -> (d < n)%N ->
  nth_error (vals k) pos = Some x ->
  let l := seen (Ok (mk_ppk (cop (N.of_nat pos) k) (N.of_nat pos) d)) in
  NoDup l /\ Forall (fun y => (y < n)%N) l /\ length l = s - 1 /\ forall v, In v (vals k) -> (In ((v + d) mod n)%N l <-> x <> v).
Proof.
  intros k pos x d Hk HZ L Hd E. cbn zeta. destruct (map_full prg n s Hprg Hn (Hs0 s Hs) k L) as [_ ND].
  destruct (evalp_ok prg n s Hprg Hn (Hs0 s Hs) k pos x d HZ ND E) as (a & b & EV & La & EE).
  cbn [seen]. unfold shifted. rewrite EE. cbn [pk_delta]. set (f := fun v => ((v + d) mod n)%N).
  pose proof (f_inj k d Hk Hd) as INJ.
  assert (IN : forall y, In y (a ++ b) -> In y (vals k)) by (intros y J; rewrite EV; apply in_app_or in J; apply in_or_app; destruct J; [left; assumption|right; right; assumption]).
  assert (NX : ~ In x (a ++ b)) by (rewrite EV in ND; apply NoDup_remove_2 in ND; exact ND).
  assert (NDab : NoDup (a ++ b)) by (rewrite EV in ND; apply NoDup_remove_1 in ND; exact ND).
  split; [|split; [|split]].
  - clear - NDab INJ IN. revert IN. generalize (a ++ b) NDab. intros l ND. induction ND as [|y l N1 N2 IH]; intros IN; cbn [map]; constructor.
    + intro J. apply in_map_iff in J. destruct J as (z & Ez & Jz). apply N1.
      rewrite (INJ y z); [exact Jz|apply IN; left; reflexivity|apply IN; right; exact Jz|symmetry; exact Ez].
    + apply IH. intros z Jz. apply IN. right. exact Jz.
  - rewrite Forall_map, Forall_forall. intros y _. apply N.mod_lt. lia.
  - rewrite map_length. pose proof (vals_length prg n s Hprg Hn (Hs0 s Hs) k) as LV. rewrite EV, app_length in LV. cbn [length] in LV. rewrite app_length. lia.
  - intros v Jv. split.
    + intros J ->. apply in_map_iff in J. destruct J as (z & Ez & Jz). apply NX.
      rewrite (INJ v z); [exact Jz|exact Jv|apply IN; exact Jz|symmetry; exact Ez].
    + intro NE. apply (in_map f). rewrite EV in Jv. apply in_app_or in Jv. apply in_or_app. destruct Jv as [J|[J|J]]; [left; exact J|contradiction|right; exact J].
Qed.

Variable setups : list (N * list N * N).
Variable words : list N.
Hypothesis Hok : Forall ok_setup setups.
Hypothesis Hw : Forall (fun w => (w < max64)%N) words.
Hypothesis Hu : Permutation (map (fun w => N.to_nat (pp_lemire64 w (N.of_nat s))) words) (seq 0 s).

(** All choices: a setup, the coin as one of [n] numbers, a word. *)
Definition choices : list ((N * list N * N) * nat * N) := list_prod (list_prod setups (seq 0 (N.to_nat n))) words.
Definition sets (i : N) : list (list N) := map (fun c => seen (sent i (fst (fst c)) (snd (fst c) <? s - 1) (snd c))) choices.

Lemma choices_in : forall c, In c choices -> ok_setup (fst (fst c)) /\ snd (fst c) < N.to_nat n /\ (snd c < max64)%N.
Proof.
  intros [[o t] w] J. unfold choices in J. apply in_prod_iff in J. destruct J as [J Jw]. apply in_prod_iff in J. destruct J as [Jo Jt].
  rewrite Forall_forall in Hok, Hw. cbn [fst snd]. split; [exact (Hok o Jo)|]. split; [apply in_seq in Jt; lia|exact (Hw w Jw)].
Qed.
Lemma choices_length : length choices = length setups * N.to_nat n * s.
Proof.
  unfold choices. rewrite !prod_length, seq_length. f_equal. rewrite <- (map_length (fun w => N.to_nat (pp_lemire64 w (N.of_nat s))) words), (Permutation_length Hu).
  apply seq_length.
Qed.

(** The values picked are the values of the set, once each. *)
Lemma picked : forall k, length (pp_map prg n s k) = s ->
  exists g, (forall w, In w words -> pp_pick s walk (pp_map prg n s k) w = Ok (g w)) /\ Permutation (map g words) (vals k).
Proof.
  intros k L. destruct (map_full prg n s Hprg Hn (Hs0 s Hs) k L) as [EM ND].
  exists (fun w => fst (nth (N.to_nat (pp_lemire64 w (N.of_nat s))) (walk (pp_map prg n s k)) (0%N, 0))).
  assert (LW : length (walk (pp_map prg n s k)) = s) by (rewrite (Permutation_length (Hwalk _)); exact L).
  split.
  - intros w J. unfold pp_pick. assert (B : N.to_nat (pp_lemire64 w (N.of_nat s)) < s).
    { assert (J2 : In (N.to_nat (pp_lemire64 w (N.of_nat s))) (seq 0 s)) by (apply (Permutation_in _ Hu), (in_map (fun w => N.to_nat (pp_lemire64 w (N.of_nat s)))); exact J).
      apply in_seq in J2. lia. }
    rewrite (nth_error_nth' _ (0%N, 0)) by (rewrite LW; exact B). reflexivity.
  - rewrite <- (map_map (fun w => N.to_nat (pp_lemire64 w (N.of_nat s))) (fun i => fst (nth i (walk (pp_map prg n s k)) (0%N, 0)))).
    rewrite Hu. rewrite <- (map_map (fun i => nth i (walk (pp_map prg n s k)) (0%N, 0)) fst).
    assert (E : map (fun i => nth i (walk (pp_map prg n s k)) (0%N, 0)) (seq 0 s) = walk (pp_map prg n s k)).
    { transitivity (map (fun i => nth i (walk (pp_map prg n s k)) (0%N, 0)) (seq 0 (length (walk (pp_map prg n s k))))); [f_equal; f_equal; symmetry; exact LW|apply nth_seq]. }
    rewrite E, (Hwalk _), EM, pairs_fst. reflexivity.
Qed.

Lemma own_count : forall i, (i < n)%N -> occurrences i (sets i) = length setups * (s - 1) * (s - 1).
Proof.
  intros i Hi. rewrite occ_cnt. unfold sets. rewrite cnt_map. unfold choices. rewrite cnt_prod.
  assert (INNER : forall x, In x (list_prod setups (seq 0 (N.to_nat n))) ->
     cnt (fun w => existsb (N.eqb i) (seen (sent i (fst (fst (x, w))) (snd (fst (x, w)) <? s - 1) (snd (x, w))))) words
     = (if snd x <? s - 1 then s - 1 else 0)).
  { intros [o t] J. cbn [fst snd]. apply in_prod_iff in J. destruct J as [Jo _]. rewrite Forall_forall in Hok. pose proof (Hok o Jo) as OK.
    destruct (query_shape o i OK Hi) as (d & v & Hd & Jv & Ev & Q). destruct o as [[k ds] r1]. cbn [fst] in *. destruct OK as (Hk & HZ & L & _).
    destruct (map_full prg n s Hprg Hn (Hs0 s Hs) k L) as [_ ND].
    assert (M : forall b w, (w < max64)%N -> exists x, (if b : bool then pp_pick s walk (pp_map prg n s k) w = Ok x else x = v) /\
       existsb (N.eqb i) (seen (sent i (k, ds, r1) b w)) = negb (x =? v)%N).
    { intros b w Hww. destruct (Q b w Hww) as (pos & x & E & X & ES). exists x. split; [exact X|]. rewrite ES.
      destruct (seen_shape k pos x d Hk HZ L Hd E) as (_ & _ & _ & SS). specialize (SS v Jv). rewrite Ev in SS.
      change (existsb (N.eqb i) (seen (Ok (mk_ppk (cop (N.of_nat pos) k) (N.of_nat pos) d)))) with (pp_mem i (seen (Ok (mk_ppk (cop (N.of_nat pos) k) (N.of_nat pos) d)))).
      destruct (N.eqb_spec x v) as [EQ|NE]; cbn [negb].
      - destruct (pp_mem i _) eqn:M; [|reflexivity]. apply mem_In in M. apply SS in M. contradiction.
      - apply mem_In. apply SS. exact NE. }
    rewrite Forall_forall in Hw. destruct (t <? s - 1).
    - destruct (picked k L) as (g & G1 & G2).
      rewrite (cnt_ext _ _ (fun w => negb (g w =? v)%N)).
      2:{ intros w Jw. destruct (M true w (Hw w Jw)) as (x & X & ->). rewrite (G1 w Jw) in X. injection X as <-. reflexivity. }
      rewrite <- (cnt_map _ _ (fun y => negb (y =? v)%N) g words), (cnt_perm _ _ _ _ G2), cnt_others by assumption.
      rewrite (vals_length prg n s Hprg Hn (Hs0 s Hs) k). reflexivity.
    - rewrite (cnt_ext _ _ (fun _ => false)).
      2:{ intros w Jw. destruct (M false w (Hw w Jw)) as (x & -> & ->). rewrite N.eqb_refl. reflexivity. }
      unfold cnt. rewrite filter_none by reflexivity. reflexivity. }
  rewrite (sum_ext _ _ _ _ INNER), (sum_if _ (fun x => snd x <? s - 1)). rewrite cnt_prod. cbn [snd].
  rewrite sum_const.
  assert (Sn : setups = [] \/ s <= N.to_nat n).
  { destruct setups as [|[[k ds] r1] rest] eqn:ES; [left; reflexivity|right]. assert (OK : ok_setup (k, ds, r1)) by (rewrite Forall_forall in Hok; apply Hok; left; reflexivity). destruct OK as (Hk & _ & L & _).
    destruct (map_full prg n s Hprg Hn (Hs0 s Hs) k L) as [_ ND]. pose proof (vals_lt prg n s Hprg Hn (Hs0 s Hs) k Hk) as VL.
    rewrite <- (vals_length prg n s Hprg Hn (Hs0 s Hs) k), <- (map_length N.to_nat).
    rewrite <- (seq_length (N.to_nat n) 0). apply NoDup_incl_length.
    - apply FinFun.Injective_map_NoDup; [intros x y; apply N2Nat.inj|exact ND].
    - intros y J. apply in_map_iff in J. destruct J as (x & <- & Jx). rewrite Forall_forall in VL. specialize (VL x Jx). apply in_seq. lia. }
  destruct Sn as [->|Sn]; [cbn; lia|].
  assert (C : cnt (fun t => t <? s - 1) (seq 0 (N.to_nat n)) = s - 1).
  { replace (N.to_nat n) with (s - 1 + (N.to_nat n - (s - 1))) by lia. rewrite seq_app, cnt_app.
    assert (A : cnt (fun t => t <? s - 1) (seq 0 (s - 1)) = s - 1).
    { transitivity (cnt (fun _ : nat => true) (seq 0 (s - 1))).
      - apply cnt_ext. intros t J. apply in_seq in J. apply Nat.ltb_lt. lia.
      - apply cnt_true. }
    assert (B : cnt (fun t => t <? s - 1) (seq (0 + (s - 1)) (N.to_nat n - (s - 1))) = 0).
    { unfold cnt. rewrite filter_none; [reflexivity|]. intros t J. apply in_seq in J. apply Nat.ltb_ge. lia. }
    lia. }
  rewrite C. lia.
Qed.

Lemma sets_ok : forall i, (i < n)%N -> Forall (fun l => NoDup l /\ Forall (fun y => (y < n)%N) l /\ length l = s - 1) (sets i).
Proof.
  intros i Hi. unfold sets. rewrite Forall_map, Forall_forall. intros [[o t] w] J. destruct (choices_in _ J) as (OK & _ & Hww). cbn [fst snd] in *.
  destruct (query_shape o i OK Hi) as (d & v & Hd & Jv & Ev & Q). destruct (Q (t <? s - 1) w Hww) as (pos & x & E & _ & ES). rewrite ES.
  destruct o as [[k ds] r1]. cbn [fst] in *. destruct OK as (Hk & HZ & L & _). destruct (seen_shape k pos x d Hk HZ L Hd E) as (A & B & C & _).
  split; [exact A|]. split; [exact B|exact C].
Qed.

Lemma total_count : forall i, (i < n)%N ->
  sum (map (fun x => occurrences (N.of_nat x) (sets i)) (seq 0 (N.to_nat n))) = length setups * N.to_nat n * s * (s - 1).
Proof.
  intros i Hi. rewrite <- (map_map N.of_nat (fun x => occurrences x (sets i))).
  pose proof (sets_ok i Hi) as F. rewrite double_count.
  - rewrite (sum_ext _ _ (fun _ => s - 1)).
    + rewrite sum_const. unfold sets. rewrite map_length, choices_length. lia.
    + intros l J. rewrite Forall_forall in F. apply (F l J).
  - apply FinFun.Injective_map_NoDup; [intros x y; apply Nat2N.inj|apply seq_NoDup].
  - rewrite Forall_forall in *. intros l J. destruct (F l J) as (A & B & _). split; [exact A|]. intros y Jy. rewrite Forall_forall in B. specialize (B y Jy).
    apply in_map_iff. exists (N.to_nat y). split; [apply N2Nat.id|]. apply in_seq. lia.
Qed.

Lemma sum_le : forall (A : Type) (f g : A -> nat) l, sum (map f l) <> sum (map g l) -> exists x, In x l /\ f x <> g x.
Proof.
  induction l as [|x l IH]; intros H; [contradiction|]. destruct (Nat.eq_dec (f x) (g x)) as [E|E].
  - cbn [map sum fold_right] in H. destruct IH as (y & J & X); [unfold sum; lia|]. exists y. split; [right; exact J|exact X].
  - exists x. split; [left; reflexivity|exact E].
Qed.

Lemma depends : setups <> [] -> exists i, (i < n)%N /\ occurrences i (sets i) <> occurrences i (sets 0).
Proof.
  intros HNE. assert (H0 : (0 < n)%N) by apply Hn. pose proof (total_count 0%N H0) as T.
  destruct (sum_le _ (fun x => occurrences (N.of_nat x) (sets (N.of_nat x))) (fun x => occurrences (N.of_nat x) (sets 0)) (seq 0 (N.to_nat n))) as (x & J & X).
  - rewrite T. rewrite (sum_ext _ _ (fun _ => length setups * (s - 1) * (s - 1))).
    + rewrite sum_const, seq_length. destruct setups as [|o r]; [contradiction|]. cbn [length].
      intro E. assert (P : 0 < S (length r) * N.to_nat n * (s - 1)) by (apply Nat.mul_pos_pos; [apply Nat.mul_pos_pos; lia|lia]).
      assert (E1 : S (length r) * (s - 1) * (s - 1) * N.to_nat n = S (length r) * N.to_nat n * (s - 1) * (s - 1)) by ring.
      assert (E2 : S (length r) * N.to_nat n * s * (s - 1) = S (length r) * N.to_nat n * (s - 1) * s) by ring.
      rewrite E1, E2 in E. apply Nat.mul_cancel_l in E; lia.
    + intros x J. apply in_seq in J. apply own_count. lia.
  - exists (N.of_nat x). apply in_seq in J. split; [lia|exact X].
Qed.
End S.

(** ** Setup with more shifts than indices *)
Lemma draw_bound : forall n words fuel need pos ds out, (0 < n)%N -> (n < max64)%N -> (forall c, (words c < max64)%N) ->
  NoDup ds -> Forall (fun d => (d < n)%N) ds -> pp_draw n words fuel need pos ds = Ok out -> length ds + need <= N.to_nat n.
Proof.
  intros n words fuel. induction fuel as [|f IH]; intros need pos ds out H0 H1 HW ND FL E; cbn [pp_draw] in E; [discriminate|].
  destruct need as [|e].
  - rewrite Nat.add_0_r, <- (map_length N.to_nat), <- (seq_length (N.to_nat n) 0). apply NoDup_incl_length.
    + apply FinFun.Injective_map_NoDup; [intros x y; apply N2Nat.inj|exact ND].
    + intros y J. apply in_map_iff in J. destruct J as (x & <- & Jx). rewrite Forall_forall in FL. specialize (FL x Jx). apply in_seq. lia.
  - destruct (pp_mem (pp_lemire64 (words pos) n) ds) eqn:M; [exact (IH _ _ _ _ H0 H1 HW ND FL E)|].
    assert (LT : (pp_lemire64 (words pos) n < n)%N).
    { apply pp_lemire64_lt; [apply HW|split; assumption]. }
    assert (P : Permutation (pp_insert (pp_lemire64 (words pos) n) ds) (pp_lemire64 (words pos) n :: ds)).
    { revert M. clear. generalize (pp_lemire64 (words pos) n). intros x. induction ds as [|y r IH]; intros M; cbn [pp_insert]; [reflexivity|].
      cbn in M. apply orb_false_iff in M. destruct M as [M1 M2]. rewrite M1. destruct (x <? y)%N; [reflexivity|].
      rewrite (IH M2). apply perm_swap. }
    specialize (IH e (S pos) (pp_insert (pp_lemire64 (words pos) n) ds) out H0 H1 HW).
    rewrite (Permutation_length P) in IH. cbn [length] in IH. apply (Nat.le_trans _ (S (length ds) + e)); [lia|]. apply IH; [| |exact E].
    + rewrite P. constructor; [|exact ND]. intro J. apply mem_In in J. congruence.
    + rewrite P. constructor; assumption.
Qed.
