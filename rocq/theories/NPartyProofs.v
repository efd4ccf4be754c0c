(** Lemmas about the tournament. *)
From Coq Require Import List Arith Bool Lia Sorting.Permutation.
From Verif Require Import Base StoreModel StoreProofs NPartyModel NPartySpec.
Import ListNotations.

Lemma nodup_nth : forall (v : list nat) i j, NoDup v -> i < length v -> j < length v -> nth i v 0 = nth j v 0 -> i = j.
Proof. intros. eapply (proj1 (NoDup_nth v 0)); eauto. Qed.

(** find_pair from idx on. *)
Lemma find_pair_spec : forall vec todo idx p, NoDup vec -> p < length vec ->
  idx + todo = Nat.div (length vec) 2 ->
  idx <= p -> p <= length vec - 1 - idx -> p <> length vec - 1 - p ->
  find_pair vec (nth p vec 0) idx todo =
  Ok (nth (length vec - 1 - p) vec 0, nth (Nat.min p (length vec - 1 - p)) vec 0).
Proof.
  intros vec todo. induction todo as [|k IH]; intros idx p ND Hp Hk H1 H2 H3.
  - pose proof (Nat.div_mod (length vec) 2 ltac:(lia)) as D. pose proof (Nat.mod_upper_bound (length vec) 2 ltac:(lia)).
    exfalso. generalize dependent (length vec / 2). intros. generalize dependent (length vec mod 2). intros. lia.
  - cbn [find_pair].
    assert (Q : S idx <= length vec / 2) by lia.
    pose proof (Nat.div_mod (length vec) 2 ltac:(lia)) as D. pose proof (Nat.mod_upper_bound (length vec) 2 ltac:(lia)) as U.
    assert (I : idx < length vec - 1 - idx).
    { generalize dependent (length vec / 2). intros. generalize dependent (length vec mod 2). intros. lia. }
    destruct (Nat.eqb_spec (nth idx vec 0) (nth p vec 0)) as [E|E].
    + apply nodup_nth in E; auto; [|lia]. subst p. rewrite Nat.min_l by lia. reflexivity.
    + assert (idx <> p) by congruence.
      destruct (Nat.eqb_spec (nth (length vec - 1 - idx) vec 0) (nth p vec 0)) as [E2|E2].
      * apply nodup_nth in E2; auto; [|lia]. subst p.
        replace (length vec - 1 - (length vec - 1 - idx)) with idx by lia. rewrite Nat.min_r by lia. reflexivity.
      * assert (length vec - 1 - idx <> p) by congruence. apply IH; auto; lia.
Qed.

(** GetPsiRank pairs position p with position len-1-p; the smaller one is the target. *)
Lemma get_psi_rank_spec : forall vec p, NoDup vec -> p < length vec ->
  get_psi_rank vec (nth p vec 0) =
  Ok (nth (length vec - 1 - p) vec 0, nth (Nat.min p (length vec - 1 - p)) vec 0).
Proof.
  intros vec p ND Hp. unfold get_psi_rank.
  pose proof (Nat.div_mod (length vec) 2 ltac:(lia)) as D. pose proof (Nat.mod_upper_bound (length vec) 2 ltac:(lia)) as U.
  destruct (Nat.eqb_spec (length vec mod 2) 0) as [E|E]; cbn [negb andb].
  - apply find_pair_spec; auto; try lia;
      generalize dependent (length vec / 2); intros; generalize dependent (length vec mod 2); intros; lia.
  - assert (HL : length vec / 2 < length vec) by (generalize dependent (length vec / 2); intros; generalize dependent (length vec mod 2); intros; lia).
    destruct (Nat.eqb_spec (nth (length vec / 2) vec 0) (nth p vec 0)) as [E2|E2].
    + apply nodup_nth in E2; auto. rewrite E2 in *.
      assert (length vec - 1 - p = p) by (generalize dependent (length vec mod 2); intros; lia).
      rewrite H, Nat.min_id. reflexivity.
    + assert (p <> length vec / 2) by congruence.
      apply find_pair_spec; auto; try lia; generalize dependent (length vec / 2); intros; generalize dependent (length vec mod 2); intros; lia.
Qed.

Section S.
Context {X : Type}.
Variable psi : list X -> list X -> list X.
Hypothesis EX : exact_two_party psi.

Definition level_result (vec : list nat) (items : nat -> list X) (p : nat) : list X :=
  let q := length vec - 1 - p in
  if Nat.eqb p q then items (nth p vec 0)
  else if Nat.ltb p q then psi (items (nth p vec 0)) (items (nth q vec 0)) else [].

Lemma run2_spec : forall vec items p, NoDup vec -> p < length vec ->
  run2 psi vec items (nth p vec 0) = Ok (level_result vec items p).
Proof using.
  clear. intros vec items p ND Hp. unfold run2. rewrite get_psi_rank_spec by assumption. cbn [bind].
  unfold level_result. set (q := length vec - 1 - p). assert (q < length vec) by lia.
  destruct (Nat.eqb_spec p q) as [E|E].
  - rewrite <- E, Nat.eqb_refl. reflexivity.
  - destruct (Nat.eqb_spec (nth q vec 0) (nth p vec 0)) as [E2|E2].
    + apply nodup_nth in E2; auto. congruence.
    + destruct (Nat.ltb_spec p q).
      * rewrite Nat.min_l by lia. rewrite Nat.eqb_refl. reflexivity.
      * rewrite Nat.min_r by lia. destruct (Nat.eqb_spec (nth q vec 0) (nth p vec 0)); [contradiction|reflexivity].
Qed.

Lemma collect_ok : forall (f : nat -> outcome (list X)) g ranks, (forall r, In r ranks -> f r = Ok (g r)) ->
  collect f ranks = Ok (map (fun r => (r, g r)) ranks).
Proof using.
  clear. intros f g ranks. induction ranks as [|r rs IH]; intros H; [reflexivity|]. cbn [collect map].
  rewrite (H r (or_introl eq_refl)). cbn [bind]. rewrite IH by (intros; apply H; right; assumption). reflexivity.
Qed.
Lemma get_items_map : forall (g : nat -> list X) ranks r, In r ranks -> get_items (map (fun r => (r, g r)) ranks) r = g r.
Proof using.
  clear. intros g ranks r H. unfold get_items. induction ranks as [|x rs IH]; [destruct H|].
  cbn [map find fst]. destruct (Nat.eqb_spec x r) as [->|Hne]; [reflexivity|]. apply IH. destruct H; [congruence|assumption].
Qed.

(** position of a rank *)
Fixpoint pos_of (vec : list nat) (r : nat) : nat :=
  match vec with [] => 0 | x :: t => if Nat.eqb x r then 0 else S (pos_of t r) end.
Lemma pos_of_spec : forall vec r, In r vec -> pos_of vec r < length vec /\ nth (pos_of vec r) vec 0 = r.
Proof using.
  clear. induction vec as [|x t IH]; intros r H; [destruct H|]. cbn [pos_of length].
  destruct (Nat.eqb_spec x r) as [->|Hne]; [split; [lia|reflexivity]|].
  destruct H as [H|H]; [contradiction|]. destruct (IH r H). split; [lia|exact H1].
Qed.
Lemma pos_of_nth : forall vec p, NoDup vec -> p < length vec -> pos_of vec (nth p vec 0) = p.
Proof using.
  clear. intros vec p ND Hp. destruct (pos_of_spec vec (nth p vec 0)) as [A B]; [apply nth_In; exact Hp|].
  apply nodup_nth in B; auto.
Qed.
Lemma level_collect : forall vec items, NoDup vec ->
  collect (run2 psi vec items) vec = Ok (map (fun r => (r, level_result vec items (pos_of vec r))) vec).
Proof using.
  clear. intros vec items ND. apply collect_ok. intros r Hr. destruct (pos_of_spec vec r Hr) as [A B].
  rewrite <- B at 1. apply run2_spec; assumption.
Qed.

Definition all_in (vec : list nat) (items : nat -> list X) (x : X) : Prop := forall r, In r vec -> In x (items r).

Lemma half_bounds : forall n, let e := Nat.div (n + 1) 2 in n <= 2 * e /\ 2 * e <= n + 1.
Proof using.
  clear. intros n e. pose proof (Nat.div_mod (n + 1) 2 ltac:(lia)) as D. pose proof (Nat.mod_upper_bound (n + 1) 2 ltac:(lia)) as U.
  subst e. generalize dependent ((n + 1) / 2). intros. generalize dependent ((n + 1) mod 2). intros. lia.
Qed.

Lemma firstn_nth' : forall (v : list nat) e i, i < e -> i < length v -> nth i (firstn e v) 0 = nth i v 0.
Proof using.
  clear. induction v as [|x t IH]; intros [|e] [|i] H1 H2; cbn in *; try lia; auto. apply IH; lia.
Qed.
Lemma nodup_firstn : forall (v : list nat) e, NoDup v -> NoDup (firstn e v).
Proof using.
  clear. induction v as [|x t IH]; intros [|e] H; cbn [firstn]; try constructor; apply NoDup_cons_iff in H; destruct H as [H1 H2]; [|apply IH; exact H2].
  intros I. apply H1. rewrite <- (firstn_skipn e t). apply in_or_app. left. exact I.
Qed.

(** One level keeps the set of common elements. *)
Lemma level_common : forall vec items, NoDup vec -> (forall r, In r vec -> NoDup (items r)) ->
  let e := Nat.div (length vec + 1) 2 in
  let items' := get_items (map (fun r => (r, level_result vec items (pos_of vec r))) vec) in
  (forall r, In r (firstn e vec) -> NoDup (items' r)) /\
  (forall x, all_in (firstn e vec) items' x <-> all_in vec items x).
Proof using EX.
  intros vec items ND HN e items'. destruct (half_bounds (length vec)) as [B1 B2]. fold e in B1, B2.
  assert (GI : forall p, p < length vec -> items' (nth p vec 0) = level_result vec items p).
  { intros p Hp. unfold items'. rewrite get_items_map by (apply nth_In; exact Hp). rewrite pos_of_nth by assumption. reflexivity. }
  assert (FI : forall r, In r (firstn e vec) -> exists p, p < e /\ p < length vec /\ r = nth p vec 0).
  { intros r Hr. apply (In_nth _ _ 0) in Hr. destruct Hr as (p & Hp & E). rewrite firstn_length in Hp.
    exists p. rewrite firstn_nth' in E by lia. repeat split; [lia|lia|congruence]. }
  assert (LR : forall p, p < e -> p < length vec ->
            NoDup (level_result vec items p) /\
            forall x, In x (level_result vec items p) <-> In x (items (nth p vec 0)) /\ In x (items (nth (length vec - 1 - p) vec 0))).
  { intros p Hp Hl. unfold level_result. destruct (Nat.eqb_spec p (length vec - 1 - p)) as [E|E].
    - rewrite <- E. split; [apply HN, nth_In; exact Hl|]. tauto.
    - destruct (Nat.ltb_spec p (length vec - 1 - p)); [|lia]. apply EX; apply HN, nth_In; lia. }
  split.
  - intros r Hr. destruct (FI r Hr) as (p & Hp & Hl & ->). rewrite GI by exact Hl. apply LR; assumption.
  - intros x. split.
    + intros H r Hr. apply (In_nth _ _ 0) in Hr. destruct Hr as (p & Hp & <-).
      destruct (Nat.lt_ge_cases p e) as [L|L].
      * assert (I : In (nth p vec 0) (firstn e vec)).
        { rewrite <- (firstn_nth' vec e p) by assumption. apply nth_In. rewrite firstn_length. lia. }
        specialize (H _ I). rewrite GI in H by exact Hp. apply LR in H; tauto.
      * set (q := length vec - 1 - p). assert (q < e) by lia. assert (q < length vec) by lia.
        assert (I : In (nth q vec 0) (firstn e vec)).
        { rewrite <- (firstn_nth' vec e q) by assumption. apply nth_In. rewrite firstn_length. lia. }
        specialize (H _ I). rewrite GI in H by assumption. apply LR in H; try assumption.
        replace (length vec - 1 - q) with p in H by lia. tauto.
    + intros H r Hr. destruct (FI r Hr) as (p & Hp & Hl & ->). rewrite GI by exact Hl. apply LR; try assumption.
      split; apply H, nth_In; lia.
Qed.

Lemma min_zero : forall l a, fold_left Nat.min l a = 0 -> a = 0 \/ In 0 l.
Proof using.
  clear. induction l as [|x t IH]; intros a H; [left; exact H|]. cbn [fold_left] in H. destruct (IH _ H) as [E|E].
  - destruct (Nat.min_spec a x) as [[_ M]|[_ M]]; rewrite M in E; subst; [left; reflexivity|right; left; reflexivity].
  - right. right. exact E.
Qed.

Variable srt : list X -> list X.
Hypothesis SP : forall l, Permutation (srt l) l.

(** Result of the levels for the first party of the vector, and for the others. *)
Lemma levels_spec : forall k vec items own self, NoDup vec -> (forall r, In r vec -> NoDup (items r)) ->
  2 <= length vec -> length vec <= 2 ^ k -> In self vec ->
  (own = 0 -> forall x, ~ all_in vec items x) ->
  exists res, levels psi srt k vec items own self = Ok res /\ NoDup res /\
    (self = nth 0 vec 0 -> forall x, In x res <-> all_in vec items x) /\
    (self <> nth 0 vec 0 -> res = []).
Proof using EX SP.
  induction k as [|k IH]; intros vec items own self ND HN HL HK Hs Hown; [cbn in HK; lia|].
  cbn [levels]. rewrite level_collect by exact ND. cbn [bind].
  set (e := Nat.div (length vec + 1) 2). set (items' := get_items _).
  destruct (half_bounds (length vec)) as [B1 B2]. fold e in B1, B2.
  destruct (level_common vec items ND HN) as [HN' HC]. fold e in HN', HC. fold items' in HN', HC.
  assert (H0 : nth 0 (firstn e vec) 0 = nth 0 vec 0) by (apply firstn_nth'; lia).
  assert (I0 : In (nth 0 vec 0) (firstn e vec)) by (rewrite <- H0; apply nth_In; rewrite firstn_length; lia).
  assert (SPLIT : forall r, In r (firstn e vec) -> ~ In r (skipn e vec)).
  { intros r I1 I2. apply in_split in I1. destruct I1 as (a & b & E).
    rewrite <- (firstn_skipn e vec), E, <- app_assoc in ND. cbn [app] in ND. apply NoDup_remove_2 in ND. apply ND.
    apply in_or_app. right. apply in_or_app. right. exact I2. }
  destruct (existsb (Nat.eqb self) (skipn e vec)) eqn:EE.
  - apply existsb_exists in EE. destruct EE as (s & Is & Es). apply Nat.eqb_eq in Es. subst s.
    exists []. split; [reflexivity|]. split; [constructor|]. split; [|reflexivity].
    intros ->. exfalso. apply (SPLIT _ I0 Is).
  - assert (Sf : In self (firstn e vec)).
    { rewrite <- (firstn_skipn e vec) in Hs. apply in_app_or in Hs. destruct Hs as [Hs|Hs]; [exact Hs|exfalso].
      assert (T : existsb (Nat.eqb self) (skipn e vec) = true) by (apply existsb_exists; exists self; split; [exact Hs|apply Nat.eqb_refl]). congruence. }
    destruct (Nat.eqb_spec (fold_left Nat.min (map (fun r => length (items' r)) (firstn e vec)) own) 0) as [Z|Z].
    + exists []. split; [reflexivity|]. split; [constructor|]. split; [|reflexivity].
      intros _ x. split; [intros []|]. intros A. apply min_zero in Z. destruct Z as [Z|Z]; [apply (Hown Z x A)|].
      apply in_map_iff in Z. destruct Z as (r & E & Ir). apply HC in A. specialize (A r Ir).
      apply length_zero_iff_nil in E. rewrite E in A. exact A.
    + destruct (Nat.eqb_spec (length (firstn e vec)) 1) as [L1|L1].
      * exists (srt (items' self)). split; [reflexivity|]. split; [eapply Permutation_NoDup; [apply Permutation_sym, SP|apply HN'; exact Sf]|].
        assert (V : firstn e vec = [self]).
        { destruct (firstn e vec) as [|a [|b t]]; try discriminate. destruct Sf as [->|[]]. reflexivity. }
        split.
        -- intros _ x. rewrite <- HC, V. split.
           ++ intros I r [<-|[]]. apply (Permutation_in _ (SP _)). exact I.
           ++ intros A. apply (Permutation_in _ (Permutation_sym (SP _))). apply A. left. reflexivity.
        -- intros Hne. exfalso. apply Hne. rewrite <- H0, V. reflexivity.
      * rewrite firstn_length in L1. cbn [Nat.pow] in HK.
        destruct (IH (firstn e vec) items' own self) as (res & E & NR & R1 & R2); auto.
        -- apply nodup_firstn. exact ND.
        -- rewrite firstn_length. lia.
        -- rewrite firstn_length. lia.
        -- intros Z0 x A. apply HC in A. apply (Hown Z0 x A).
        -- exists res. split; [exact E|]. split; [exact NR|]. rewrite H0 in R1, R2. split.
           ++ intros S0 x. rewrite (R1 S0). apply HC.
           ++ exact R2.
Qed.

Lemma min_zero_iff : forall l a, a <> 0 -> (fold_left Nat.min l a = 0 <-> In 0 l).
Proof using.
  clear. induction l as [|x t IH]; intros a Ha; cbn [fold_left In]; [lia|].
  destruct x as [|x].
  - rewrite Nat.min_0_r. split; [auto|]. intros _. clear. induction t as [|y t IH]; [reflexivity|exact IH].
  - rewrite IH by lia. split; [auto|]. intros [E|E]; [discriminate|exact E].
Qed.

(** Members of one group take part in the same groups, and everyone reaches the finish message. *)
Lemma rounds_agree : forall k vec items own self own' self', NoDup vec -> 2 <= length vec -> length vec <= 2 ^ k ->
  In self vec -> In self' vec -> own <> 0 -> own' <> 0 ->
  snd (rounds psi k vec items own self) = true /\
  forall i g, nth_error (fst (rounds psi k vec items own self)) i = Some g ->
    In self g /\ (In self' g -> nth_error (fst (rounds psi k vec items own' self')) i = Some g).
Proof using.
  clear. induction k as [|k IH]; intros vec items own self own' self' ND HL HK Hs Hs' Ho Ho'; [cbn in HK; lia|].
  cbn [rounds]. rewrite level_collect by exact ND.
  set (e := Nat.div (length vec + 1) 2). set (items' := get_items _).
  destruct (half_bounds (length vec)) as [B1 B2]. fold e in B1, B2.
  assert (SPLIT : forall r, In r vec -> existsb (Nat.eqb r) (skipn e vec) = false <-> In r (firstn e vec)).
  { intros r Ir. split.
    - intros E. rewrite <- (firstn_skipn e vec) in Ir. apply in_app_or in Ir. destruct Ir as [I|I]; [exact I|].
      assert (T : existsb (Nat.eqb r) (skipn e vec) = true) by (apply existsb_exists; exists r; split; [exact I|apply Nat.eqb_refl]). congruence.
    - intros I1. apply not_true_is_false. intros T. apply existsb_exists in T. destruct T as (s & I2 & E). apply Nat.eqb_eq in E. subst s.
      apply in_split in I1. destruct I1 as (a & b & E).
      rewrite <- (firstn_skipn e vec), E, <- app_assoc in ND. cbn [app] in ND. apply NoDup_remove_2 in ND. apply ND.
      apply in_or_app. right. apply in_or_app. right. exact I2. }
  destruct (existsb (Nat.eqb self) (skipn e vec)) eqn:E1.
  { cbn [fst snd]. split; [reflexivity|]. intros [|i] g H; discriminate H. }
  apply SPLIT in E1; [|exact Hs].
  set (m := map (fun r => length (items' r)) (firstn e vec)).
  assert (ZZ : Nat.eqb (fold_left Nat.min m own') 0 = Nat.eqb (fold_left Nat.min m own) 0).
  { pose proof (min_zero_iff m own Ho). pose proof (min_zero_iff m own' Ho').
    destruct (Nat.eqb_spec (fold_left Nat.min m own') 0), (Nat.eqb_spec (fold_left Nat.min m own) 0); tauto. }
  rewrite ZZ.
  destruct (Nat.eqb (fold_left Nat.min m own) 0) eqn:EZ.
  { cbn [fst snd]. split; [reflexivity|]. intros [|i] g H; [|destruct i; discriminate H]. inversion H; subst g. split; [exact E1|].
    intros I. apply SPLIT in I; [|exact Hs']. rewrite I. reflexivity. }
  destruct (Nat.eqb_spec (length (firstn e vec)) 1) as [L1|L1].
  { cbn [fst snd]. split; [reflexivity|]. intros [|i] g H; [|destruct i; discriminate H]. inversion H; subst g. split; [exact E1|].
    intros I. apply SPLIT in I; [|exact Hs']. rewrite I. reflexivity. }
  rewrite firstn_length in L1. cbn [Nat.pow] in HK.
  assert (NE : NoDup (firstn e vec)) by (apply nodup_firstn; exact ND).
  assert (L2 : 2 <= length (firstn e vec)) by (rewrite firstn_length; lia).
  assert (L3 : length (firstn e vec) <= 2 ^ k) by (rewrite firstn_length; lia).
  split.
  - destruct (IH (firstn e vec) items' own self own self NE L2 L3 E1 E1 Ho Ho) as [A _].
    destruct (rounds psi k (firstn e vec) items' own self). exact A.
  - intros i g H. destruct (existsb (Nat.eqb self') (skipn e vec)) eqn:E2.
    + (* self' left already: it is in no later group *)
      assert (SUB : In self g /\ ~ In self' g).
      { assert (NI : ~ In self' (firstn e vec)) by (intros I; apply SPLIT in I; [congruence|exact Hs']).
        assert (INC : forall k vec items own i g, nth_error (fst (rounds psi k vec items own self)) i = Some g -> incl g vec).
        { clear. induction k as [|k IH]; intros vec items own i g H; [destruct i; discriminate H|]. cbn [rounds] in H.
          destruct (collect (run2 psi vec items) vec) as [res| | |]; try (destruct i; discriminate H).
          destruct (existsb (Nat.eqb self) (skipn (Nat.div (length vec + 1) 2) vec)); [destruct i; discriminate H|].
          assert (I1 : incl (firstn (Nat.div (length vec + 1) 2) vec) vec).
          { intros x Hx. rewrite <- (firstn_skipn (Nat.div (length vec + 1) 2) vec). apply in_or_app. left. exact Hx. }
          destruct (Nat.eqb _ 0); [destruct i as [|[|i]]; inversion H; subst; exact I1|].
          destruct (Nat.eqb _ 1); [destruct i as [|[|i]]; inversion H; subst; exact I1|].
          destruct (rounds psi k _ _ own self) as [g' b'] eqn:R. destruct i as [|i]; [inversion H; subst; exact I1|].
          cbn [fst nth_error] in H. intros x Hx. apply I1.
          apply (IH _ (get_items res) own i g); [rewrite R; exact H|exact Hx]. }
        destruct (IH (firstn e vec) items' own self own self NE L2 L3 E1 E1 Ho Ho) as [_ A].
        destruct (rounds psi k (firstn e vec) items' own self) as [gs b] eqn:R. cbn [fst] in *.
        destruct i as [|i]; [inversion H; subst g; split; assumption|]. cbn [nth_error] in H.
        split; [apply (A i g H)|]. intros I. apply NI. apply (INC k (firstn e vec) items' own i g); [rewrite R; exact H|exact I]. }
      destruct SUB as [S1 S2]. split; [exact S1|]. intros I. contradiction.
    + apply SPLIT in E2; [|exact Hs'].
      destruct (IH (firstn e vec) items' own self own' self' NE L2 L3 E1 E2 Ho Ho') as [_ A].
      destruct (rounds psi k (firstn e vec) items' own self) as [gs b].
      destruct (rounds psi k (firstn e vec) items' own' self') as [gs' b']. cbn [fst] in *.
      destruct i as [|i]; [inversion H; subst g; split; [exact E1|reflexivity]|]. cbn [nth_error] in *. apply A. exact H.
Qed.
End S.

Lemma swap0_perm : forall m v, m < length v -> Permutation (swap0 m v) v /\ hd (0, 0) (swap0 m v) = nth m v (0, 0).
Proof.
  intros m v Hm. unfold swap0. destruct v as [|a r]; [cbn in Hm; lia|].
  destruct (Nat.eqb_spec m 0) as [->|Hne]; [split; [apply Permutation_refl|reflexivity]|].
  destruct m as [|m]; [contradiction|]. cbn [nth_error upd tl]. cbn [length] in Hm.
  destruct (nth_error r m) as [b|] eqn:E; [|apply nth_error_None in E; lia].
  split; [|cbn [hd nth]; symmetry; apply nth_error_nth; exact E].
  destruct (nth_error_split _ _ E) as (l1 & l2 & -> & L).
  assert (U : upd m (fun _ => a) (l1 ++ b :: l2) = l1 ++ a :: l2).
  { subst m. clear. induction l1 as [|y t IH]; cbn [length upd app]; [reflexivity|]. rewrite IH. reflexivity. }
  rewrite U. eapply Permutation_trans; [|apply perm_skip; apply Permutation_middle].
  eapply Permutation_trans; [apply perm_skip, Permutation_sym, Permutation_middle|]. apply perm_swap.
Qed.
