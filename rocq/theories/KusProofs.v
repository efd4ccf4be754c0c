From Coq Require Import String List NArith ZArith Lia Bool Arith Permutation Sorted.
From Verif Require Import Base Text TextProofs KusModel KusSpec.
Import ListNotations.
Local Open Scope list_scope.

Definition lt_b (a b : bytes) : Prop := blt a b = true.

Lemma blt_irrefl : forall a, blt a a = false.
Proof. induction a as [ | x a IH]; cbn [blt]; [reflexivity | ]. now rewrite N.eqb_refl. Qed.

Lemma blt_trans : forall a b c, blt a b = true -> blt b c = true -> blt a c = true.
Proof.
  induction a as [ | x a IH]; intros [ | y b] [ | z c] H1 H2; cbn [blt] in *; try discriminate; auto.
  destruct (x =? y)%N eqn:E1; [apply N.eqb_eq in E1; subst y | apply N.eqb_neq in E1; apply N.ltb_lt in H1].
  - destruct (x =? z)%N; [eauto | exact H2].
  - destruct (y =? z)%N eqn:E2; [apply N.eqb_eq in E2; subst z | apply N.eqb_neq in E2; apply N.ltb_lt in H2].
    + apply N.eqb_neq in E1. rewrite E1. now apply N.ltb_lt.
    + assert (L : (x < z)%N) by lia. assert (NE : (x =? z)%N = false) by (apply N.eqb_neq; lia).
      rewrite NE. now apply N.ltb_lt.
Qed.

Lemma blt_total : forall a b, a <> b -> blt a b = false -> blt b a = true.
Proof.
  induction a as [ | x a IH]; intros [ | y b] NE H; cbn [blt] in *; try congruence; auto.
  destruct (x =? y)%N eqn:E.
  - apply N.eqb_eq in E. subst y. rewrite N.eqb_refl. apply IH; [congruence | exact H].
  - rewrite N.eqb_sym, E. apply N.eqb_neq in E. apply N.ltb_ge in H. apply N.ltb_lt. lia.
Qed.

Lemma beqb_eq : forall a b, beqb a b = true <-> a = b.
Proof. exact beqb_spec. Qed.

Definition keys_sorted (m : list (bytes * bytes)) : Prop := StronglySorted lt_b (map fst m).

Lemma sorted_nodup_b : forall l, StronglySorted lt_b l -> NoDup l.
Proof.
  induction 1 as [ | a l S IH F]; constructor; auto. intros I. rewrite Forall_forall in F. apply F in I.
  unfold lt_b in I. now rewrite blt_irrefl in I.
Qed.

Lemma sorted_unique : forall l1 l2, StronglySorted lt_b l1 -> StronglySorted lt_b l2 -> (forall x, In x l1 <-> In x l2) -> l1 = l2.
Proof.
  induction l1 as [ | a l1 IH]; intros [ | b l2] S1 S2 H.
  - reflexivity.
  - exfalso. apply (H b). now left.
  - exfalso. apply (H a). now left.
  - inversion S1 as [ | ? ? S1' F1]; subst. inversion S2 as [ | ? ? S2' F2]; subst. rewrite Forall_forall in F1, F2.
    assert (a = b) as <-.
    { destruct (proj1 (H a) (or_introl eq_refl)) as [E | I]; [now symmetry | ].
      destruct (proj2 (H b) (or_introl eq_refl)) as [E | I']; [assumption | ].
      apply F2 in I. apply F1 in I'. pose proof (blt_trans _ _ _ I I') as C. now rewrite blt_irrefl in C. }
    f_equal. apply IH; auto. intros x. split; intros I.
    + destruct (proj1 (H x) (or_intror I)) as [E | ]; [ | assumption]. subst x. apply F1 in I. unfold lt_b in I. now rewrite blt_irrefl in I.
    + destruct (proj2 (H x) (or_intror I)) as [E | ]; [ | assumption]. subst x. apply F2 in I. unfold lt_b in I. now rewrite blt_irrefl in I.
Qed.

Lemma smap_set_keys : forall m k v x, In x (map fst (smap_set m k v)) <-> x = k \/ In x (map fst m).
Proof.
  induction m as [ | [k' v'] m IH]; intros k v x; cbn [smap_set map fst In].
  - intuition.
  - destruct (beqb k k') eqn:E.
    + apply beqb_eq in E. subst k'. cbn [map fst In]. intuition.
    + destruct (blt k k'); cbn [map fst In]; [intuition | ]. rewrite IH. intuition.
Qed.

Lemma smap_set_sorted : forall m k v, keys_sorted m -> keys_sorted (smap_set m k v).
Proof.
  induction m as [ | [k' v'] m IH]; intros k v S; cbn [smap_set].
  - unfold keys_sorted. cbn. repeat constructor.
  - destruct (beqb k k') eqn:E.
    + apply beqb_eq in E. subst k'. exact S.
    + unfold keys_sorted in S. cbn [map fst] in S. inversion S as [ | ? ? S' F]; subst.
      destruct (blt k k') eqn:L.
      * unfold keys_sorted. cbn [map fst]. constructor; [exact S | ]. constructor; [exact L | ].
        eapply Forall_impl; [ | exact F]. intros a Ha. exact (blt_trans _ _ _ L Ha).
      * unfold keys_sorted. cbn [map fst]. constructor; [apply IH; exact S' | ].
        apply Forall_forall. intros x Hx. apply smap_set_keys in Hx. destruct Hx as [-> | Hx].
        -- apply blt_total; [ | exact L]. intros ->. assert (beqb k' k' = true) by now apply beqb_eq. congruence.
        -- rewrite Forall_forall in F. now apply F.
Qed.

Lemma smap_set_in : forall m k v x w, keys_sorted m ->
  (In (x, w) (smap_set m k v) <-> (x = k /\ w = v) \/ (x <> k /\ In (x, w) m)).
Proof.
  induction m as [ | [k' v'] m IH]; intros k v x w S; cbn [smap_set In].
  - split; [intros [H | []]; injection H as <- <-; auto | ]. intros [[-> ->] | [_ []]]. auto.
  - unfold keys_sorted in S. cbn [map fst] in S. inversion S as [ | ? ? S' F]; subst. rewrite Forall_forall in F.
    assert (KM : forall y z, In (y, z) m -> blt k' y = true).
    { intros y z I. apply F. apply in_map_iff. exists (y, z). auto. }
    destruct (beqb k k') eqn:E.
    + apply beqb_eq in E. subst k'. cbn [In]. split.
      * intros [H | H]; [injection H as <- <-; auto | ]. right. split; [ | auto].
        intros ->. apply KM in H. now rewrite blt_irrefl in H.
      * intros [[-> ->] | [NE [H | H]]]; auto. injection H as -> ->. congruence.
    + assert (NK : k <> k') by (intros ->; assert (beqb k' k' = true) by (now apply beqb_eq); congruence).
      destruct (blt k k') eqn:L; cbn [In].
      * split.
        -- intros [H | [H | H]]; [injection H as <- <-; auto | injection H as <- <-; right; auto | ].
           right. split; [ | auto]. intros ->. apply KM in H. pose proof (blt_trans _ _ _ L H) as C. now rewrite blt_irrefl in C.
        -- intros [[-> ->] | [NE [H | H]]]; auto.
      * rewrite (IH k v x w S'). split.
        -- intros [H | [[-> ->] | [NE H]]]; auto. injection H as <- <-. right. split; [congruence | auto].
        -- intros [[-> ->] | [NE [H | H]]]; auto.
Qed.

(** Hosts computed for the parties from index i on. *)
Lemma k_hosts_ok : forall ps i self port m,
  keys_sorted m -> NoDup (map kp_name ps) ->
  (forall j p, nth_error ps j = Some p -> exists h, k_host (i + Z.of_nat j =? self)%Z port p = Ok h) ->
  exists res, k_hosts ps i self port m = Ok res /\ keys_sorted res /\
    forall x w, In (x, w) res <->
      (exists j p, nth_error ps j = Some p /\ kp_name p = x /\ k_host (i + Z.of_nat j =? self)%Z port p = Ok w) \/
      (~ In x (map kp_name ps) /\ In (x, w) m).
Proof.
  induction ps as [ | p ps IH]; intros i self port m S ND H.
  - exists m. cbn [k_hosts]. split; [reflexivity | ]. split; [exact S | ]. intros x w. split.
    + intros I. right. auto.
    + intros [(j & q & E & _) | [_ I]]; [destruct j; discriminate E | exact I].
  - cbn [map] in ND. inversion ND as [ | ? ? NI ND']; subst.
    destruct (H 0 p eq_refl) as (h & Hh). cbn [Z.of_nat] in Hh. rewrite Z.add_0_r in Hh.
    cbn [k_hosts]. rewrite Hh. cbn [bind].
    destruct (IH (i + 1)%Z self port (smap_set m (kp_name p) h) (smap_set_sorted _ _ _ S) ND') as (res & E & SR & IN).
    { intros j q Hq. destruct (H (Datatypes.S j) q Hq) as (h' & Hh'). exists h'.
      rewrite Nat2Z.inj_succ in Hh'. replace (i + 1 + Z.of_nat j)%Z with (i + Z.succ (Z.of_nat j))%Z by lia. exact Hh'. }
    exists res. split; [exact E | ]. split; [exact SR | ]. intros x w. rewrite IN, (smap_set_in _ _ _ _ _ S). split.
    + intros [(j & q & Hq & Hn & Hw) | [NX [[-> ->] | [NE I]]]].
      * left. exists (Datatypes.S j), q. split; [exact Hq | ]. split; [exact Hn | ].
        rewrite Nat2Z.inj_succ. replace (i + Z.succ (Z.of_nat j))%Z with (i + 1 + Z.of_nat j)%Z by lia. exact Hw.
      * left. exists 0, p. cbn [Z.of_nat]. rewrite Z.add_0_r. auto.
      * right. split; [ | exact I]. cbn [map In]. intros [C | C]; [congruence | auto].
    + intros [([ | j] & q & Hq & Hn & Hw) | [NX I]].
      * cbn in Hq. injection Hq as <-. cbn [Z.of_nat] in Hw. rewrite Z.add_0_r in Hw. right. rewrite Hn in NI. split; [exact NI | ].
        left. split; [now symmetry | congruence].
      * left. exists j, q. split; [exact Hq | ]. split; [exact Hn | ].
        rewrite Nat2Z.inj_succ in Hw. replace (i + 1 + Z.of_nat j)%Z with (i + Z.succ (Z.of_nat j))%Z by lia. exact Hw.
      * right. cbn [map In] in NX. split; [tauto | ]. right. split; [ | exact I]. intros ->. tauto.
Qed.

Lemma sorted_order : forall names, NoDup names -> exists order, Permutation order names /\ StronglySorted lt_b order.
Proof.
  intros names ND.
  assert (G : forall m, keys_sorted m -> exists m', keys_sorted m' /\ forall x, In x (map fst m') <-> In x names \/ In x (map fst m)).
  { clear ND. induction names as [ | n names IH]; intros m S; [exists m; cbn; intuition | ].
    destruct (IH (smap_set m n []) (smap_set_sorted _ _ _ S)) as (m' & S' & H). exists m'. split; [exact S' | ].
    intros x. rewrite H, smap_set_keys. cbn [In]. intuition. }
  destruct (G [] (SSorted_nil _)) as (m' & S & H). exists (map fst m'). split; [ | exact S].
  apply NoDup_Permutation; [now apply sorted_nodup_b | assumption | ]. intros x. rewrite H. cbn. tauto.
Qed.

Lemma last_rank_found : forall ps i name r0, NoDup (map fst ps) -> forall j h, nth_error ps j = Some (name, h) ->
  last_rank ps i name r0 = Some (i + j).
Proof.
  induction ps as [ | [k v] ps IH]; intros i name r0 ND j h H; [destruct j; discriminate H | ].
  cbn [map fst] in ND. inversion ND as [ | ? ? NI ND']; subst. cbn [last_rank].
  destruct j as [ | j]; cbn in H.
  - injection H as -> ->. assert (beqb name name = true) as -> by now apply beqb_eq.
    rewrite Nat.add_0_r. clear IH ND ND'.
    assert (G : forall i' r, last_rank ps i' name r = r); [ | apply G].
    induction ps as [ | [k' v'] ps IH]; intros i' r; [reflexivity | ]. cbn [last_rank].
    destruct (beqb k' name) eqn:E; [apply beqb_eq in E; subst k'; exfalso; apply NI; now left | ].
    apply IH. intros I. apply NI. now right.
  - rewrite (IH (S i) name _ ND' j h H). f_equal. lia.
Qed.

Lemma at_z_spec : forall (A : Type) (l : list A) i x, at_z l i = Ok x <-> exists j, i = Z.of_nat j /\ nth_error l j = Some x.
Proof.
  intros A l i x. unfold at_z. split.
  - destruct (i <? 0)%Z eqn:E; [discriminate | ]. apply Z.ltb_ge in E.
    destruct (nth_error l (Z.to_nat i)) eqn:N; [ | discriminate]. intros H. injection H as <-.
    exists (Z.to_nat i). split; [lia | exact N].
  - intros (j & -> & N). assert ((Z.of_nat j <? 0)%Z = false) as -> by (apply Z.ltb_ge; lia). now rewrite Nat2Z.id, N.
Qed.

Lemma kuscia_agree : forall names, NoDup names -> ~ In [] names ->
  exists order, Permutation order names /\ StronglySorted lt_b order /\
  forall me t, task_of names me t -> exists c i, kuscia_start t = Ok (c, Some i) /\
    map fst (l_parties c) = order /\ nth_error order i = Some me /\ l_self c = me /\
    (forall c0, config_at (k_configs t) me = Ok c0 -> l_rest c = l_rest c0) /\
    (forall port ports, k_ports t = port :: ports -> In (me, str "0.0.0.0:"%string ++ dec port) (l_parties c)) /\
    (forall p e es r, In p (k_parties t) -> kp_services p = (e :: es) :: r -> kp_name p <> me -> In (kp_name p, str "http://"%string ++ e) (l_parties c)).
Proof.
  intros names ND NE. destruct (sorted_order names ND) as (order & P & S). exists order. split; [exact P | ]. split; [exact S | ].
  intros me t (T1 & (p0 & T2 & T2') & T3 & T4 & (c0 & T5 & T6)).
  destruct (k_ports t) as [ | port ports] eqn:EP; [congruence | ].
  apply at_z_spec in T2. destruct T2 as (j0 & ES & N0).
  assert (NDP : NoDup (map kp_name (k_parties t))) by (eapply Permutation_NoDup; [apply Permutation_sym; exact T1 | exact ND]).
  destruct (k_hosts_ok (k_parties t) 0%Z (k_self t) port [] (SSorted_nil _) NDP) as (hs & EH & SH & IH).
  { intros j p Hp. unfold k_host. destruct (0 + Z.of_nat j =? k_self t)%Z; [eauto | ].
    rewrite Forall_forall in T3. destruct (T3 p (nth_error_In _ _ Hp)) as (e & es & r & ->). eauto. }
  assert (KEYS : map fst hs = order).
  { apply sorted_unique; [exact SH | exact S | ]. intros x. split; intros I.
    - apply in_map_iff in I. destruct I as ([x' w] & <- & I). cbn [fst]. apply IH in I.
      destruct I as [(j & p & Hp & <- & _) | [_ []]]. apply (Permutation_in _ (Permutation_sym P)). apply (Permutation_in _ T1).
      apply in_map. exact (nth_error_In _ _ Hp).
    - apply (Permutation_in _ P) in I. apply (Permutation_in _ (Permutation_sym T1)) in I. apply in_map_iff in I.
      destruct I as (p & <- & I). apply In_nth_error in I. destruct I as (j & Hp).
      assert (HH : exists w, k_host (0 + Z.of_nat j =? k_self t)%Z port p = Ok w).
      { unfold k_host. destruct (0 + Z.of_nat j =? k_self t)%Z; [eauto | ].
        rewrite Forall_forall in T3. destruct (T3 p (nth_error_In _ _ Hp)) as (e & es & r & ->). eauto. }
      destruct HH as (w & Hw). apply in_map_iff. exists (kp_name p, w). split; [reflexivity | ]. apply IH. left. eauto. }
  assert (MEI : In me order).
  { apply (Permutation_in _ (Permutation_sym P)). apply (Permutation_in _ T1). rewrite <- T2'. apply in_map. exact (nth_error_In _ _ N0). }
  assert (MEN : me <> []) by (intros ->; apply NE; apply (Permutation_in _ P); exact MEI).
  apply In_nth_error in MEI. destruct MEI as (i & NI).
  exists (mk_lcfg (l_parties c0 ++ hs) me (l_rest c0)), i. rewrite T6. cbn [app l_parties l_self l_rest].
  assert (FK : from_kuscia t = Ok (mk_lcfg hs me (l_rest c0))).
  { unfold from_kuscia. assert (A : at_z (k_parties t) (k_self t) = Ok p0) by (apply at_z_spec; eauto).
    rewrite A. cbn [bind]. rewrite T2', T5. cbn [bind]. rewrite EP, EH. cbn [bind]. now rewrite T6. }
  split; [ | split; [exact KEYS | split; [exact NI | split; [reflexivity | split; [ | split]]]]].
  - unfold kuscia_start. rewrite FK. cbn [bind l_self]. unfold link_rank. cbn [l_parties l_self].
    assert (NH : exists h, nth_error hs i = Some (me, h)).
    { rewrite <- KEYS, nth_error_map in NI. destruct (nth_error hs i) as [[k h] | ]; [ | discriminate NI].
      cbn in NI. injection NI as ->. eauto. }
    destruct NH as (h & NH).
    rewrite (last_rank_found hs 0 me None (sorted_nodup_b _ SH) i h NH). destruct me; [congruence | reflexivity].
  - intros c1 H1. congruence.
  - intros port' ports' HP. injection HP as <- <-. apply IH. left. exists j0, p0. split; [exact N0 | ]. split; [exact T2' | ].
    rewrite ES, Z.add_0_l, Z.eqb_refl. reflexivity.
  - intros p e es r I Hs NM. apply IH. left. apply In_nth_error in I. destruct I as (j & Hp). exists j, p. split; [exact Hp | ]. split; [reflexivity | ].
    assert (Z.of_nat j <> k_self t).
    { rewrite ES. intros C. apply Nat2Z.inj in C. subst j. rewrite N0 in Hp. congruence. }
    assert ((0 + Z.of_nat j =? k_self t)%Z = false) as -> by (apply Z.eqb_neq; lia).
    unfold k_host. now rewrite Hs.
Qed.

Lemma blt_before : forall a b, blt a b = true <-> before a b.
Proof.
  split.
  - revert b. induction a as [|x a IH]; intros [|y b] H; cbn [blt] in H; try discriminate; [constructor|].
    destruct (N.eqb_spec x y) as [E|E]; [subst; apply before_next; auto|apply before_byte; now apply N.ltb_lt].
  - induction 1 as [y b|x y a b H|x a b H IH]; cbn [blt]; [reflexivity| |].
    + destruct (N.eqb_spec x y); [lia|now apply N.ltb_lt].
    + now rewrite N.eqb_refl.
Qed.
Lemma sorted_before : forall l, StronglySorted lt_b l -> StronglySorted before l.
Proof.
  induction 1 as [|a l S IH F]; constructor; [exact IH|]. eapply Forall_impl; [|exact F].
  intros b B. now apply blt_before.
Qed.
