From Coq Require Import List NArith Lia Bool Permutation Arith.
From Verif Require Import Base BaseProofs Text TextProofs StoreModel StoreSpec StoreProofs SyncModel SyncProofs BucketModel BucketSpec.
Import ListNotations.

(* ------------------------------------------------------------------ *)
(** * Negotiation *)

Lemma count_ok : forall s bs, (0 < bs)%N -> (s + bs < max64)%N ->
  (u64 (s + bs + (max64 - 1)) / bs = (if s =? 0 then 0 else (s - 1) / bs + 1))%N.
Proof.
  intros s bs Hb H. assert (E : (u64 (s + bs + (max64 - 1)) = s + bs - 1)%N).
  { unfold u64. change 18446744073709551616%N with max64.
    replace (s + bs + (max64 - 1))%N with ((s + bs - 1) + 1 * max64)%N by (unfold max64 in *; lia).
    rewrite N.mod_add by discriminate. apply N.mod_small. lia. }
  rewrite E. destruct (N.eqb_spec s 0) as [->|Hs].
  - apply N.div_small. lia.
  - replace (s + bs - 1)%N with ((s - 1) + 1 * bs)%N by lia. rewrite N.div_add by lia. reflexivity.
Qed.

Lemma negotiate_loop_spec : forall bs sizes mx mn, (0 < bs)%N -> Forall (fun s => s + bs < max64)%N sizes ->
  let '(a, b) := negotiate_loop sizes bs mx mn in
  (mx <= a)%N /\ (b <= mn)%N /\
  Forall (fun s => s <= a * bs)%N sizes /\ Forall (fun s => b <= s)%N sizes /\
  (a = mx \/ exists s, In s sizes /\ s <> 0 /\ (a - 1) * bs < s)%N /\
  (b = mn \/ In b sizes).
Proof.
  intros bs. induction sizes as [|s l IH]; intros mx mn Hb H; cbn [negotiate_loop].
  - repeat split; auto; try lia.
  - inversion H as [|? ? Hs Hl]; subst.
    set (c := (u64 (s + bs + (max64 - 1)) / bs)%N).
    specialize (IH (N.max mx c) (N.min mn s) Hb Hl).
    destruct (negotiate_loop l bs (N.max mx c) (N.min mn s)) as [a b].
    destruct IH as (A & B & C & D & E & F). split; [lia|]. split; [lia|].
    assert (Hc : c = (if s =? 0 then 0 else (s - 1) / bs + 1)%N) by (apply count_ok; auto).
    assert (Hcs : (s <= c * bs)%N /\ (s <> 0 -> (c - 1) * bs < s)%N).
    { rewrite Hc. destruct (N.eqb_spec s 0); [lia|].
      pose proof (N.div_mod (s - 1) bs). pose proof (N.mod_lt (s - 1) bs).
      split; [nia|]. intros _. replace ((s - 1) / bs + 1 - 1)%N with ((s - 1) / bs)%N by lia. nia. }
    split; [constructor; auto; nia|]. split; [constructor; auto; lia|]. split.
    + destruct E as [E|(s' & I1 & I2 & I3)]; [|right; exists s'; cbn; auto].
      destruct (N.max_spec mx c) as [[? Em]|[? Em]]; rewrite Em in E; [|left; auto].
      destruct (N.eq_dec s 0) as [Z|Z].
      * left. rewrite Z in Hc. change (0 =? 0)%N with true in Hc. cbn in Hc. lia.
      * right. exists s. subst a. cbn. split; auto. split; auto. apply Hcs. auto.
    + destruct F as [F|F]; [|right; right; auto].
      destruct (N.min_spec mn s) as [[? Em]|[? Em]]; rewrite Em in F; [left; auto|right; left; auto].
Qed.

Lemma negotiate_spec : forall sizes bs, (0 < bs)%N -> Forall (fun s => s + bs < max64)%N sizes ->
  exists k, (forall self, In self sizes -> negotiate sizes self bs = Ok k) /\
    ((exists s, In s sizes) -> (k = 0 <-> In 0 sizes))%N /\
    (k <> 0 -> Forall (fun s => s <= k * bs) sizes /\ exists s, In s sizes /\ (k - 1) * bs < s)%N.
Proof.
  intros sizes bs Hb H. unfold negotiate.
  assert (Hb' : (bs =? 0)%N = false) by (apply N.eqb_neq; lia). rewrite Hb'.
  destruct (in_dec N.eq_dec 0%N sizes) as [Hz|Hz].
  - exists 0%N. split; [|split; [tauto|congruence]]. intros self Hs.
    pose proof (negotiate_loop_spec bs sizes 0 self Hb H) as X.
    destruct (negotiate_loop sizes bs 0 self) as [a b]. destruct X as (_ & _ & _ & D & _).
    rewrite Forall_forall in D. specialize (D _ Hz). destruct (N.eqb_spec b 0); [auto|lia].
  - exists (fst (negotiate_loop sizes bs 0 0)).
    assert (FS : forall l mx m1 m2, fst (negotiate_loop l bs mx m1) = fst (negotiate_loop l bs mx m2)).
    { induction l as [|s l IH]; intros; cbn [negotiate_loop]; auto. }
    split.
    + intros self Hs. rewrite (FS sizes 0 0 self)%N.
      pose proof (negotiate_loop_spec bs sizes 0 self Hb H) as X.
      destruct (negotiate_loop sizes bs 0 self) as [a b]. destruct X as (_ & _ & _ & _ & _ & F).
      destruct (N.eqb_spec b 0); [|auto]. subst. destruct F as [F|F]; [|contradiction]. subst. contradiction.
    + pose proof (negotiate_loop_spec bs sizes 0 0 Hb H) as X.
      destruct (negotiate_loop sizes bs 0 0) as [a b]. destruct X as (_ & _ & C & _ & E & _). cbn [fst]. split.
      * intros [s Hs]. split; [|tauto]. intros ->. rewrite Forall_forall in C. specialize (C s Hs).
        assert (s = 0)%N by lia. subst. auto.
      * intros Ha. split; auto. destruct E as [E|(s & I1 & I2 & I3)]; [congruence|eauto].
Qed.

(* ------------------------------------------------------------------ *)
(** * One bucket *)

Lemma pick_ok : forall rb (r : list (nat * N)), (forall i c, In (i, c) r -> i < length rb) ->
  exists res, pick_items rb (map fst r) = Ok res /\ length res = length r /\
    Forall2 (fun p it => nth_error rb (fst p) = Some it) r res.
Proof.
  intros rb. induction r as [|[i c] r IH]; intros H; cbn [map pick_items fst].
  - exists []. auto.
  - destruct IH as (res & E & L & F). { intros i' c' Hi. apply (H i' c'). right. auto. }
    destruct (nth_error rb i) as [it|] eqn:En.
    + rewrite E. cbn [bind]. exists (it :: res). split; auto. split; [cbn; congruence|]. constructor; auto.
    + apply nth_error_None in En. specialize (H i c (or_introl eq_refl)). lia.
Qed.

Lemma receiver_write_ok : forall res cnts, length res = length cnts ->
  receiver_write res cnts = Ok (combine (map b_index res) cnts).
Proof.
  induction res as [|i r IH]; intros [|c cs] H; cbn in *; try discriminate; auto.
  rewrite IH by congruence. reflexivity.
Qed.

Lemma nodup_nth : forall (A B : Type) (f : A -> B) l i j x y, NoDup (map f l) ->
  nth_error l i = Some x -> nth_error l j = Some y -> f x = f y -> i = j.
Proof.
  intros A B f l i j x y ND Hi Hj E. rewrite NoDup_nth_error in ND. apply ND.
  - rewrite map_length. apply nth_error_Some. congruence.
  - rewrite !nth_error_map, Hi, Hj. cbn. congruence.
Qed.

Lemma nodup_inj : forall (A B : Type) (f : A -> B) l x y, NoDup (map f l) -> In x l -> In y l -> f x = f y -> x = y.
Proof.
  intros A B f l x y ND Hx Hy E. apply In_nth_error in Hx. apply In_nth_error in Hy.
  destruct Hx as [i Hi]. destruct Hy as [j Hj]. assert (i = j) by (eapply nodup_nth; eauto). congruence.
Qed.

Lemma map_fst_combine : forall (A B : Type) (l : list A) (m : list B), length l = length m -> map fst (combine l m) = l.
Proof. induction l as [|a l IH]; intros [|b m] H; cbn in *; try discriminate; auto. rewrite IH by congruence. auto. Qed.

Lemma picked_in : forall rb (r : list (nat * N)) res,
  Forall2 (fun p it => nth_error rb (fst p) = Some it) r res ->
  forall x : bitem, In x res <-> exists i c, In (i, c) r /\ nth_error rb i = Some x.
Proof.
  intros rb r res F. induction F as [|[i c] it r res H F IH]; intros x; cbn [In].
  - split; [intros []|intros (i & c & [] & _)].
  - rewrite IH. cbn in H. split.
    + intros [->|(i' & c' & H1 & H2)]; [exists i, c; auto|exists i', c'; auto].
    + intros (i' & c' & [X|X] & H2); [left; congruence|right; eauto].
Qed.

Lemma picked_nodup : forall (B : Type) (f : bitem -> B) rb (r : list (nat * N)) res,
  Forall2 (fun p it => nth_error rb (fst p) = Some it) r res ->
  NoDup (map fst r) -> NoDup (map f rb) -> NoDup (map f res).
Proof.
  intros B f rb r res F N1 N2. induction F as [|[i c] it r res H F IH]; cbn [map]; [constructor|].
  cbn in N1. inversion N1 as [|? ? Nin N1']; subst. constructor; [|auto]. rewrite in_map_iff. intros (x & E & Hx).
  apply (picked_in _ _ _ F) in Hx. destruct Hx as (i' & c' & G1 & G2). cbn in H.
  assert (i' = i) by exact (nodup_nth _ _ f rb _ _ _ _ N2 G2 H E). subst. apply Nin. apply in_map_iff. exists (i, c'). auto.
Qed.

(** Facts about the receiver's result. *)
Lemma receiver_side : forall rb sb r, NoDup (map b_data rb) -> NoDup (map b_index rb) -> exact_on rb sb r ->
  exists res, pick_items rb (map fst r) = Ok res /\
    receiver_write res (map snd r) = Ok (combine (map b_index res) (map snd r)) /\
    own_matches rb sb (combine (map b_index res) (map snd r)) /\
    NoDup (map b_data res) /\
    (forall x, In x res <-> In x rb /\ In (b_data x) (map b_data sb)).
Proof.
  intros rb sb r ND NI [R1 R2].
  destruct (pick_ok rb r) as (res & E & L & F).
  { intros i c Hi. apply R2 in Hi. destruct Hi as (x & y & Hx & _). apply nth_error_Some. congruence. }
  exists res. split; auto. split; [apply receiver_write_ok; rewrite map_length; auto|].
  pose proof (picked_in _ _ _ F) as M.
  assert (MC : forall i c, In (i, c) (combine (map b_index res) (map snd r)) <->
     exists j x, In (j, c) r /\ nth_error rb j = Some x /\ b_index x = i).
  { clear - F. induction F as [|[i c] it r res H F IH]; intros a b; cbn [combine map In snd].
    - split; [intros []|intros (j & x & [] & _)].
    - rewrite IH. cbn in H. split.
      + intros [X|(j & x & H1 & H2 & H3)]; [injection X as <- <-; eauto 6|eauto 6].
      + intros (j & x & [X|X] & H2 & H3); [injection X as <- <-; left; congruence|right; eauto]. }
  split; [|split].
  - split.
    + rewrite map_fst_combine by (rewrite !map_length; auto). eapply picked_nodup; eauto.
    + intros i c. rewrite MC. split.
      * intros (j & x & H1 & H2 & H3). apply R2 in H1. destruct H1 as (x' & y & G1 & G2 & G3 & G4).
        exists x, y. assert (x' = x) by congruence. subst x'. split; [eapply nth_error_In; eauto|auto].
      * intros (x & y & G1 & G2 & G3 & G4 & G5). apply In_nth_error in G1. destruct G1 as [j Hj].
        exists j, x. split; auto. apply R2. eauto 6.
  - eapply picked_nodup; eauto.
  - intros x. rewrite M. split.
    + intros (i & c & H1 & H2). split; [eapply nth_error_In; eauto|].
      apply R2 in H1. destruct H1 as (x' & y & G1 & G2 & G3 & G4). assert (x' = x) by congruence. subst x'.
      rewrite <- G3. apply in_map. auto.
    + intros [H1 H2]. apply In_nth_error in H1. destruct H1 as [j Hj]. apply in_map_iff in H2.
      destruct H2 as (y & G1 & G2). exists j, (b_dup y). split; auto. apply R2. exists x, y. auto.
Qed.

(** The broadcast. *)
Lemma offer_nonempty : forall res, res <> [] -> fst (receiver_offer res) <> [].
Proof. intros [|x r] H; [congruence|cbn; discriminate]. Qed.

Lemma broadcast_two : forall (first : bool) o, nth (if first then 1 else 0)
   match broadcast_result (if first then [o; ([], [])] else [([], []); o]) with Ok a => a | _ => [] end ([], []) =
   (match fst o with [] => ([], []) | _ => o end) /\
   exists a, broadcast_result (if first then [o; ([], [])] else [([], []); o]) = Ok a.
Proof.
  intros first [res dup]. destruct res as [|r0 res].
  - destruct first; cbn; split; eauto; destruct dup; auto.
  - destruct first.
    + pose proof (broadcast_one 0 1 (r0 :: res) dup) as X. cbn [repeat app Nat.add] in X.
      rewrite X by discriminate. cbn. eauto.
    + pose proof (broadcast_one 1 0 (r0 :: res) dup) as X. cbn [repeat app Nat.add] in X.
      rewrite X by discriminate. cbn. eauto.
Qed.

Lemma dup_get_offer : forall res i, i < length res ->
  match dup_get (snd (receiver_offer res)) (N.of_nat i) with Some c => c | None => 0%N end =
  nth i (map b_dup res) 0%N.
Proof.
  intros res i Hi. unfold receiver_offer. cbn [snd].
  assert (X : forall l k i, i < length l ->
     match dup_get (flat_map (fun p => if (0 <? b_dup (snd p))%N then [(N.of_nat (fst p), b_dup (snd p))] else []) (number k l)) (N.of_nat (k + i)) with Some c => c | None => 0%N end =
     nth i (map b_dup l) 0%N).
  { clear. induction l as [|x l IH]; intros k i Hi; [cbn in Hi; lia|]. cbn [number flat_map fst snd].
    assert (Lt : forall l k j, j < k -> dup_get (flat_map (fun p => if (0 <? b_dup (snd p))%N then [(N.of_nat (fst p), b_dup (snd p))] else []) (number k l)) (N.of_nat j) = None).
    { clear. induction l as [|x l IH]; intros k j H; cbn [number flat_map fst snd]; auto.
      destruct (0 <? b_dup x)%N; cbn [app dup_get]; [|apply IH; lia].
      destruct (N.eqb_spec (N.of_nat k) (N.of_nat j)); [lia|apply IH; lia]. }
    destruct i as [|i].
    - rewrite Nat.add_0_r. cbn [map nth]. destruct (N.ltb_spec 0 (b_dup x)); cbn [app dup_get].
      + rewrite N.eqb_refl. reflexivity.
      + rewrite Lt by lia. lia.
    - cbn [map nth]. cbn [length] in Hi. rewrite <- (IH (S k) i) by lia.
      replace (k + S i) with (S k + i) by lia. destruct (N.ltb_spec 0 (b_dup x)); cbn [app dup_get]; auto.
      destruct (N.eqb_spec (N.of_nat k) (N.of_nat (S k + i))); [lia|auto]. }
  apply (X res 0 i Hi).
Qed.

Lemma number_in : forall (A : Type) (l : list A) k i x, In (i, x) (number k l) <-> k <= i /\ nth_error l (i - k) = Some x.
Proof.
  induction l as [|a l IH]; intros k i x; cbn [number In].
  - split; [tauto|]. intros [_ H]. destruct (i - k); discriminate.
  - rewrite IH. split.
    + intros [E|[H1 H2]]; [injection E as -> ->; rewrite Nat.sub_diag; auto|].
      split; [lia|]. replace (i - k) with (S (i - S k)) by lia. auto.
    + intros [H1 H2]. destruct (Nat.eq_dec i k); [subst; rewrite Nat.sub_diag in H2; injection H2 as ->; auto|].
      right. split; [lia|]. replace (i - k) with (S (i - S k)) in H2 by lia. auto.
Qed.

Lemma peer_result_spec : forall res d, NoDup (map b_data res) ->
  match peer_result (receiver_offer res) d with
  | Some c => exists x, In x res /\ b_data x = d /\ b_dup x = c
  | None => ~ In d (map b_data res)
  end.
Proof.
  intros res d ND. unfold peer_result.
  destruct (find _ _) as [[i y]|] eqn:E; cbn [option_map].
  - apply find_some in E. destruct E as [E1 E2]. apply in_rev in E1. cbn [snd fst] in *. apply beqb_spec in E2. subst y.
    unfold receiver_offer in E1. cbn [fst] in E1. apply number_in in E1. destruct E1 as [_ E1].
    rewrite Nat.sub_0_r in E1. rewrite nth_error_map in E1. destruct (nth_error res i) as [x|] eqn:Ex; [|discriminate].
    cbn in E1. injection E1 as Ed. exists x. split; [eapply nth_error_In; eauto|]. split; auto.
    rewrite dup_get_offer by (apply nth_error_Some; congruence).
    symmetry. apply nth_error_nth. rewrite nth_error_map, Ex. reflexivity.
  - intros H. apply In_nth_error in H. destruct H as [i Hi].
    assert (X : beqb d d = false); [|rewrite (proj2 (beqb_spec d d) eq_refl) in X; discriminate].
    apply (find_none _ _ E (i, d)).
    apply -> in_rev. apply number_in. rewrite Nat.sub_0_r. split; [lia|auto].
Qed.

Lemma same_length_same_set : forall (A : Type) (l m : list A), NoDup l -> NoDup m -> length l = length m ->
  incl l m -> incl m l.
Proof. intros. apply NoDup_length_incl; auto. lia. Qed.

Lemma sender_side : forall rb sb res, NoDup (map b_data rb) -> NoDup (map b_data sb) -> NoDup (map b_index sb) ->
  NoDup (map b_data res) -> (forall x, In x res <-> In x rb /\ In (b_data x) (map b_data sb)) ->
  own_matches sb rb (sender_write (match fst (receiver_offer res) with [] => ([], []) | _ => receiver_offer res end) sb).
Proof.
  intros rb sb res N1 N2 N3 N4 M.
  assert (Hspec : forall it c, In it sb -> (peer_result (receiver_offer res) (b_data it) = Some c <->
     exists y, In y rb /\ b_data y = b_data it /\ b_dup y = c)).
  { intros it c Hit. pose proof (peer_result_spec res (b_data it) N4) as P.
    destruct (peer_result (receiver_offer res) (b_data it)) as [c'|].
    - destruct P as (x & P1 & P2 & P3). apply M in P1. destruct P1 as [P1 _]. split.
      + intros X. injection X as <-. eauto.
      + intros (y & Y1 & Y2 & Y3). assert (x = y) by (apply (nodup_inj _ _ b_data rb); auto; congruence). congruence.
    - split; [discriminate|]. intros (y & Y1 & Y2 & Y3). exfalso. apply P. rewrite <- Y2. apply in_map. apply M.
      split; auto. rewrite Y2. apply in_map. auto. }
  destruct res as [|x0 res0] eqn:Er.
  { cbn. split; [constructor|]. intros i c. split; [intros []|]. intros (x & y & H1 & H2 & H3 & _).
    destruct (M y) as [_ X]. apply X. split; auto. rewrite H3. apply in_map. auto. }
  rewrite <- Er in *. assert (Hn : fst (receiver_offer res) <> []) by (apply offer_nonempty; subst; discriminate).
  destruct (fst (receiver_offer res)) as [|d0 ds] eqn:Ef; [congruence|]. unfold sender_write. rewrite Ef.
  destruct (Nat.eqb_spec (length (d0 :: ds)) (length sb)) as [El|El].
  - (* every own item is matched *)
    assert (All : forall it, In it sb -> exists c, peer_result (receiver_offer res) (b_data it) = Some c).
    { assert (I : incl (map b_data sb) (map b_data res)).
      { apply same_length_same_set; auto.
        - rewrite !map_length. rewrite <- El, <- Ef. unfold receiver_offer. cbn [fst]. rewrite map_length. auto.
        - intros d Hd. apply in_map_iff in Hd. destruct Hd as (x & <- & Hx). apply M in Hx. tauto. }
      intros it Hit. pose proof (peer_result_spec res (b_data it) N4) as P.
      destruct (peer_result (receiver_offer res) (b_data it)) as [c|]; eauto.
      exfalso. apply P. apply I. apply in_map. auto. }
    split.
    + rewrite map_map. cbn [fst]. auto.
    + intros i c. rewrite in_map_iff. split.
      * intros (it & X & Hit). injection X as <- <-. destruct (All it Hit) as [c Hc]. rewrite Hc.
        apply Hspec in Hc; auto. destruct Hc as (y & Y1 & Y2 & Y3). eauto 8.
      * intros (x & y & H1 & H2 & H3 & H4 & H5). exists x. split; auto.
        assert (X : peer_result (receiver_offer res) (b_data x) = Some c) by (apply Hspec; eauto).
        rewrite X. congruence.
  - split.
    + clear - N3. induction sb as [|it sb IH]; cbn [flat_map map]; [constructor|].
      cbn in N3. inversion N3; subst. rewrite map_app.
      destruct (peer_result _ (b_data it)); cbn [map app fst]; auto. constructor; auto.
      rewrite in_map_iff. intros ([i c] & E & Hi). cbn in E. subst i. apply in_flat_map in Hi.
      destruct Hi as (it' & I1 & I2). destruct (peer_result _ (b_data it')); cbn in I2; [|tauto].
      destruct I2 as [I2|[]]. injection I2 as E1 E2. apply H1. rewrite <- E1. apply in_map. auto.
    + intros i c. rewrite in_flat_map. split.
      * intros (it & Hit & X). destruct (peer_result (receiver_offer res) (b_data it)) as [c'|] eqn:Ep; cbn in X; [|tauto].
        destruct X as [X|[]]. injection X as <- <-. apply Hspec in Ep; auto. destruct Ep as (y & Y1 & Y2 & Y3). eauto 8.
      * intros (x & y & H1 & H2 & H3 & H4 & H5). exists x. split; auto.
        assert (X : peer_result (receiver_offer res) (b_data x) = Some c) by (apply Hspec; eauto).
        rewrite X. cbn. left. congruence.
Qed.

Lemma do_bucket_exact : forall psi broadcast first rb sb,
  NoDup (map b_data rb) -> NoDup (map b_data sb) -> NoDup (map b_index rb) -> NoDup (map b_index sb) ->
  (rb <> [] -> sb <> [] -> exact_on rb sb (psi rb sb)) ->
  exists rw sw, do_bucket psi broadcast first rb sb = Ok (rw, sw) /\ own_matches rb sb rw /\
    if broadcast then own_matches sb rb sw else sw = [].
Proof.
  intros psi broadcast first rb sb D1 D2 I1 I2 Hpsi. unfold do_bucket.
  destruct (Nat.eqb_spec (Nat.min (length rb) (length sb)) 0) as [Z|Z].
  { exists [], []. split; auto. assert (Hz : rb = [] \/ sb = []) by (destruct rb, sb; auto; cbn in Z; lia).
    assert (own_matches rb sb [] /\ own_matches sb rb []) as [A B].
    { split; (split; [constructor|]); intros i c; (split; [intros []|]); intros (x & y & H1 & H2 & _);
        destruct Hz; subst; cbn in *; auto. }
    destruct broadcast; auto. }
  assert (Ex : exact_on rb sb (psi rb sb)) by (apply Hpsi; intro; subst; cbn in Z; lia).
  destruct (receiver_side rb sb (psi rb sb) D1 I1 Ex) as (res & E1 & E2 & E3 & E4 & E5).
  rewrite E1. cbn [bind]. rewrite E2. cbn [bind]. destruct broadcast.
  - destruct (broadcast_two first (receiver_offer res)) as [B [a Ha]]. rewrite Ha in B.
    match goal with |- context[broadcast_result ?x] => replace (broadcast_result x) with (Ok a) by (symmetry; exact Ha) end. cbn [bind].
    eexists. eexists. split; [reflexivity|]. split; auto. rewrite B. eapply sender_side; eauto.
  - eexists. eexists. split; [reflexivity|]. auto.
Qed.

(* ------------------------------------------------------------------ *)
(** * All buckets *)

Section Buckets.
Variable hash : bytes -> N.

Lemma number_fst : forall (A : Type) (l : list A) i, map fst (number i l) = seq i (length l).
Proof. induction l as [|a l IH]; intros i; cbn [number map fst length seq]; [auto|rewrite IH; auto]. Qed.

Lemma to_items_index : forall items i, map b_index (to_items i items) = map N.of_nat (seq i (length items)).
Proof. intros. unfold to_items. rewrite map_map. cbn [b_index]. rewrite <- (map_map fst N.of_nat), number_fst. auto. Qed.

Lemma to_items_data : forall items i, map b_data (to_items i items) = map base64 (map fst items).
Proof.
  intros items. induction items as [|x l IH]; intros i; auto. rewrite to_items_cons. cbn [map b_data]. rewrite IH. auto.
Qed.

Lemma nodup_map_inj : forall (A B : Type) (f : A -> B) l,
  (forall x y, In x l -> In y l -> f x = f y -> x = y) -> NoDup l -> NoDup (map f l).
Proof.
  induction l as [|a l IH]; intros Hf ND; cbn [map]; [constructor|]. inversion ND; subst. constructor.
  - rewrite in_map_iff. intros (x & E & Hx). assert (x = a) by (apply Hf; cbn; auto). subst. auto.
  - apply IH; auto. intros x y Hx Hy. apply Hf; right; auto.
Qed.

Lemma nodup_filter_map : forall (A B : Type) (f : A -> B) P l, NoDup (map f l) -> NoDup (map f (filter P l)).
Proof.
  induction l as [|a l IH]; intros ND; cbn in *; [constructor|]. inversion ND; subst.
  destruct (P a); auto. cbn [map]. constructor; auto. rewrite in_map_iff. intros (x & E & Hx).
  apply filter_In in Hx. apply H1. rewrite <- E. apply in_map. tauto.
Qed.

Lemma good_nodup_data : forall num b items, Forall good_input items -> NoDup (map fst items) ->
  NoDup (map b_data (in_bucket hash num b (to_items 0 items))).
Proof.
  intros num b items G ND. apply nodup_filter_map. rewrite to_items_data. apply nodup_map_inj; auto.
  intros x y Hx Hy. apply base64_inj.
  - apply in_map_iff in Hx. destruct Hx as (p & <- & Hp). rewrite Forall_forall in G. apply (G p Hp).
  - apply in_map_iff in Hy. destruct Hy as (p & <- & Hp). rewrite Forall_forall in G. apply (G p Hp).
Qed.

Lemma good_nodup_index : forall num b items, NoDup (map b_index (in_bucket hash num b (to_items 0 items))).
Proof.
  intros. apply nodup_filter_map. rewrite to_items_index. apply nodup_map_inj; [intros; lia|apply seq_NoDup].
Qed.

(** own_matches is a property of the set of written pairs: it determines them up
    to order. *)
Lemma own_matches_perm : forall own other w1 w2, own_matches own other w1 -> own_matches own other w2 -> Permutation w1 w2.
Proof.
  intros own other w1 w2 [A1 A2] [B1 B2]. apply NoDup_Permutation.
  - eapply NoDup_map_inv; eauto.
  - eapply NoDup_map_inv; eauto.
  - intros [i c]. rewrite A2, B2. tauto.
Qed.

Lemma match_bin_own : forall s p, NoDup (map b_data p) -> NoDup (map b_index s) -> own_matches s p (match_bin s p).
Proof.
  intros s p Hp Hs. unfold match_bin. split.
  - induction s as [|it s IH]; cbn [flat_map]; [constructor|]. rewrite map_app. cbn in Hs. inversion Hs; subst.
    destruct (set_find p (b_data it)); cbn [map app fst]; auto. constructor; auto.
    rewrite in_map_iff. intros ([i c] & E & Hi). cbn in E. subst i. apply in_flat_map in Hi.
    destruct Hi as (it' & I1 & I2). destruct (set_find p (b_data it')); cbn in I2; [|tauto].
    destruct I2 as [I2|[]]. injection I2 as E1 E2. apply H1. rewrite <- E1. apply in_map. auto.
  - intros i c. rewrite in_flat_map. split.
    + intros (it & Hit & X). destruct (set_find p (b_data it)) as [q|] eqn:Ef; cbn in X; [|tauto].
      destruct X as [X|[]]. injection X as <- <-. apply find_some in Ef. destruct Ef as [E1 E2].
      apply beqb_spec in E2. eauto 8.
    + intros (x & y & H1 & H2 & H3 & H4 & H5). exists x. split; auto. unfold set_find.
      destruct (find _ p) as [q|] eqn:Ef.
      * apply find_some in Ef. destruct Ef as [E1 E2]. apply beqb_spec in E2.
        assert (q = y) by (apply (nodup_inj _ _ b_data p); auto; congruence). subst. cbn. auto.
      * pose proof (find_none _ _ Ef y H2) as X. cbn in X. rewrite H3 in X.
        rewrite (proj2 (beqb_spec _ _) eq_refl) in X. discriminate.
Qed.

Lemma online_loop_exact : forall psi broadcast first num rc sc self peer bins,
  Forall good_input self -> Forall good_input peer -> NoDup (map fst self) -> NoDup (map fst peer) ->
  (forall b, b < num -> hb_load rc b = Ok (in_bucket hash num b (to_items 0 self))) ->
  (forall b, b < num -> hb_load sc b = Ok (in_bucket hash num b (to_items 0 peer))) ->
  (forall rb sb, rb <> [] -> sb <> [] -> NoDup (map b_data rb) -> NoDup (map b_data sb) -> exact_on rb sb (psi rb sb)) ->
  Forall (fun b => b < num) bins ->
  exists rw sw, online_loop psi broadcast first rc sc bins = Ok (rw, sw) /\
    Permutation rw (flat_map (fun b => bin_spec hash num b self peer) bins) /\
    Permutation sw (if broadcast then flat_map (fun b => bin_spec hash num b peer self) bins else []).
Proof.
  intros psi broadcast first num rc sc self peer bins G1 G2 N1 N2 L1 L2 Hpsi.
  induction bins as [|b bins IH]; intros Hb; cbn [online_loop flat_map].
  - exists [], []. split; auto. split; auto. destruct broadcast; auto.
  - inversion Hb as [|? ? Hb1 Hb2]; subst. rewrite L1, L2 by auto. cbn [bind].
    destruct (do_bucket_exact psi broadcast first _ _
       (good_nodup_data num b self G1 N1) (good_nodup_data num b peer G2 N2)
       (good_nodup_index num b self) (good_nodup_index num b peer)) as (rw & sw & E & M1 & M2).
    { intros. apply Hpsi; auto using good_nodup_data. }
    rewrite E. cbn [bind]. destruct (IH Hb2) as (rw' & sw' & E' & P1 & P2). rewrite E'. cbn [bind].
    eexists. eexists. split; [reflexivity|]. split.
    + apply Permutation_app; auto. rewrite <- match_bin_spec by auto.
      eapply own_matches_perm; [exact M1|]. apply match_bin_own; auto using good_nodup_data, good_nodup_index.
    + destruct broadcast.
      * apply Permutation_app; auto. rewrite <- match_bin_spec by auto.
        eapply own_matches_perm; [exact M2|]. apply match_bin_own; auto using good_nodup_data, good_nodup_index.
      * subst sw. exact P2.
Qed.

Lemma online_exact : forall psi (broadcast first : bool) num self peer,
  0 < num -> Forall good_input self -> Forall good_input peer ->
  NoDup (map fst self) -> NoDup (map fst peer) ->
  (N.of_nat (length self) < max64)%N -> (N.of_nat (length peer) < max64)%N ->
  (forall rb sb, rb <> [] -> sb <> [] -> NoDup (map b_data rb) -> NoDup (map b_data sb) -> exact_on rb sb (psi rb sb)) ->
  exists rc sc rw sw,
    omap (fun c => hb_write_all hash c self) (hb_open [] num) = Ok rc /\
    omap (fun c => hb_write_all hash c peer) (hb_open [] num) = Ok sc /\
    online psi broadcast first rc sc = Ok (rw, sw) /\
    Permutation rw (matches self peer) /\
    Permutation sw (if broadcast then matches peer self else []).
Proof.
  intros psi broadcast first num self peer Hn G1 G2 N1 N2 B1 B2 Hpsi.
  destruct (fresh_load hash num self) as (c & rc & O1 & W1 & U1 & _ & L1); auto.
  destruct (fresh_load hash num peer) as (c2 & sc & O2 & W2 & U2 & _ & L2); auto.
  destruct (online_loop_exact psi broadcast first num rc sc self peer (seq 0 num)) as (rw & sw & E & P1 & P2);
    auto using Forall_seq.
  exists rc, sc, rw, sw. rewrite O1 in *. injection O2 as <-. unfold omap. cbn [bind]. rewrite W1, W2.
  split; auto. split; auto. unfold online. rewrite U1. split; auto. split.
  - rewrite P1. apply bins_perm. auto.
  - rewrite P2. destruct broadcast; auto. apply bins_perm. auto.
Qed.
End Buckets.
