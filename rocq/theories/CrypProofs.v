(** Proofs about the cryptors. *)
From Coq Require Import List NArith Arith Bool Lia Permutation.
From Verif Require Import Base BaseProofs Text TextProofs StoreModel PirPackModel CuckooProofs CrypModel CrypSpec.
Import ListNotations.
Local Open Scope nat_scope.

Lemma upd_nth : forall (A : Type) (f : A -> A) l n i, nth_error (upd n f l) i =
  if Nat.eqb n i then option_map f (nth_error l i) else nth_error l i.
Proof.
  intros A f. induction l as [|x l IH]; intros [|n] [|i]; cbn; try reflexivity.
  - destruct (n =? i); reflexivity.
  - apply IH.
Qed.

Lemma nth_err_ext : forall (A : Type) (l l' : list A), (forall i, nth_error l i = nth_error l' i) -> l = l'.
Proof.
  induction l as [|x l IH]; intros [|y l'] H; [reflexivity|specialize (H 0); discriminate H|specialize (H 0); discriminate H|].
  f_equal; [specialize (H 0); cbn in H; congruence|]. apply IH. intros i. exact (H (S i)).
Qed.

Lemma image_nth : forall (A B : Type) (f : A -> option B) l ys, image f l = Some ys ->
  length ys = length l /\ forall i x, nth_error l i = Some x -> nth_error ys i = f x.
Proof.
  induction l as [|x l IH]; cbn; intros ys H.
  - injection H as <-. split; [reflexivity|]. intros [|i] x E; discriminate E.
  - destruct (f x) as [y|] eqn:E; [|discriminate]. destruct (image f l) as [zs|] eqn:E'; [|discriminate].
    injection H as <-. destruct (IH _ eq_refl) as (L & N). split; [cbn; congruence|].
    intros [|i] z Ez; cbn in *; [injection Ez as <-; congruence|apply N; exact Ez].
Qed.
Lemma image_none : forall (A B : Type) (f : A -> option B) l, image f l = None -> exists i x, nth_error l i = Some x /\ f x = None.
Proof.
  induction l as [|x l IH]; cbn; intros H; [discriminate|].
  destruct (f x) eqn:E.
  - destruct (image f l) eqn:E'; [discriminate|]. destruct (IH eq_refl) as (i & z & A1 & A2). exists (S i), z. auto.
  - exists 0, x. auto.
Qed.
Lemma image_some_all : forall (A B : Type) (f : A -> option B) l ys x, image f l = Some ys -> In x l -> exists y, f x = Some y.
Proof.
  induction l as [|z l IH]; cbn; intros ys x H HI; [contradiction|].
  destruct (f z) as [y|] eqn:E; [|discriminate]. destruct (image f l) as [zs|]; [|discriminate].
  destruct HI as [<- | HI]; [eauto|eapply IH; eauto].
Qed.

(** The common argument: steps that only write the right values into a list of slots. *)
Section Slots.
Variables (A B T S : Type) (f : A -> option B) (xs : list A) (slots : S -> list B) (step : S -> T -> outcome S).
Variable covers : T -> nat -> Prop.
Variable good : T -> Prop.
Hypothesis Hthrow : forall s t i x, good t -> length (slots s) = length xs -> covers t i -> nth_error xs i = Some x -> f x = None -> step s t = Throw.
Hypothesis Hgood : forall s t, good t -> length (slots s) = length xs ->
  step s t = Throw /\ (exists i x, nth_error xs i = Some x /\ f x = None) \/
  exists s', step s t = Ok s' /\ length (slots s') = length xs /\
    (forall i x y, nth_error xs i = Some x -> f x = Some y -> covers t i -> nth_error (slots s') i = Some y) /\
    (forall i x y, nth_error xs i = Some x -> f x = Some y -> nth_error (slots s) i = Some y -> nth_error (slots s') i = Some y).

Lemma slots_run : forall order s, Forall good order -> length (slots s) = length xs ->
  (exists s', steps step s order = Ok s' /\ length (slots s') = length xs /\
    (forall t i x, In t order -> covers t i -> nth_error xs i = Some x -> f x <> None) /\
    (forall i x y, nth_error xs i = Some x -> f x = Some y ->
       (exists t, In t order /\ covers t i) \/ nth_error (slots s) i = Some y -> nth_error (slots s') i = Some y)) \/
  (steps step s order = Throw /\ exists i x, nth_error xs i = Some x /\ f x = None).
Proof using Hthrow Hgood.
  induction order as [|t order IH]; intros s G L; cbn [steps].
  - left. exists s. repeat split; auto.
    intros i x y E1 E2 [(t & [] & _) | H]. exact H.
  - inversion G as [|? ? G1 G2]; subst.
    destruct (Hgood s t G1 L) as [(E & W) | (s1 & E & L1 & C1 & C2)].
    + right. rewrite E. split; [reflexivity|exact W].
    + rewrite E. cbn [bind]. destruct (IH s1 G2 L1) as [(s' & E' & L' & N' & D') | (E' & W)].
      * left. exists s'. split; [exact E'|]. split; [exact L'|]. split.
        -- intros t' i x [<- | HI] Hc Hx; [|eapply N'; eauto].
           intros Hn. rewrite (Hthrow s t i x G1 L Hc Hx Hn) in E. discriminate E.
        -- intros i x y Hx Hy [(t' & [<- | HI] & Hc) | H].
           ++ eapply D'; eauto.
           ++ eapply D'; eauto.
           ++ eapply D'; eauto.
      * right. split; [exact E'|exact W].
Qed.

Lemma slots_result : forall order s, Forall good order -> length (slots s) = length xs ->
  (forall i, i < length xs -> exists t, In t order /\ covers t i) ->
  match image f xs with
  | Some ys => exists s', steps step s order = Ok s' /\ slots s' = ys
  | None => steps step s order = Throw
  end.
Proof using Hthrow Hgood.
  intros order s G L Cv. destruct (slots_run order s G L) as [(s' & E & L' & N' & D') | (E & (i & x & Hx & Hn))].
  - destruct (image f xs) as [ys|] eqn:Ei.
    + exists s'. split; [exact E|]. destruct (image_nth _ _ _ _ _ Ei) as (Ly & Ny).
      apply nth_err_ext. intros i. destruct (nth_error xs i) as [x|] eqn:Hx.
      * assert (Hi : i < length xs) by (apply nth_error_Some; congruence).
        destruct (Cv i Hi) as (t & Ht & Hc).
        destruct (f x) as [y|] eqn:Hy; [|exfalso; exact (N' t i x Ht Hc Hx Hy)].
        rewrite (Ny i x Hx), Hy. eapply D'; eauto.
      * apply nth_error_None in Hx. rewrite (proj2 (nth_error_None ys i)) by lia.
        apply nth_error_None. lia.
    + exfalso. destruct (image_none _ _ _ _ Ei) as (i & x & Hx & Hn).
      assert (Hi : i < length xs) by (apply nth_error_Some; congruence).
      destruct (Cv i Hi) as (t & Ht & Hc). exact (N' t i x Ht Hc Hx Hn).
  - destruct (image f xs) as [ys|] eqn:Ei; [|exact E].
    exfalso. destruct (image_some_all _ _ _ _ _ x Ei (nth_error_In _ _ Hx)) as (y & Hy). congruence.
Qed.
End Slots.

(** The loops over single indices. *)
Lemma par_map_ok : forall (A B : Type) (f : A -> option B) start xs order,
  Permutation (seq 0 (length xs)) order -> par_map f start xs order = all_or_throw (image f xs).
Proof.
  intros A B f start xs order P. unfold par_map.
  pose proof (slots_result A B nat (list B) f xs (fun s => s) (one_step f xs) (fun t i => t = i) (fun t => t < length xs)) as H.
  assert (H1 : forall s t i x, t < length xs -> length s = length xs -> t = i -> nth_error xs i = Some x -> f x = None -> one_step f xs s t = Throw).
  { intros s t i x _ _ -> Hx Hn. unfold one_step. rewrite Hx, Hn. reflexivity. }
  specialize (H H1). clear H1.
  match type of H with ?X -> _ => assert (H1 : X) end.
  { intros s t Ht L. unfold one_step. destruct (nth_error xs t) as [x|] eqn:Hx; [|apply nth_error_None in Hx; lia].
    destruct (f x) as [y|] eqn:Hy.
    - right. eexists. split; [reflexivity|]. split; [rewrite upd_len; exact L|]. split.
      + intros i x' y' Hx' Hy' <-. rewrite upd_nth, Nat.eqb_refl.
        destruct (nth_error s t) eqn:Es; [|apply nth_error_None in Es; lia]. cbn. congruence.
      + intros i x' y' Hx' Hy' Hs. rewrite upd_nth. destruct (Nat.eqb_spec t i) as [->|_]; [|exact Hs].
        rewrite Hs. cbn. congruence.
    - left. split; [reflexivity|eauto]. }
  specialize (H H1 order (repeat start (length xs))). clear H1.
  assert (G : Forall (fun t => t < length xs) order).
  { apply Forall_forall. intros t Ht. eapply Permutation_in in Ht; [|symmetry; exact P]. apply in_seq in Ht. lia. }
  specialize (H G (repeat_length _ _)).
  assert (C : forall i, i < length xs -> exists t, In t order /\ t = i).
  { intros i Hi. exists i. split; [|reflexivity]. eapply Permutation_in; [exact P|]. apply in_seq. lia. }
  specialize (H C). destruct (image f xs) as [ys|]; cbn.
  - destruct H as (s' & -> & ->). reflexivity.
  - exact H.
Qed.

(** The batches of the ranges. *)
Lemma range_batches_ok : forall fuel idx n, n <= fuel ->
  Forall (fun b => idx <= fst b /\ 1 <= snd b /\ snd b <= 8 /\ fst b + snd b <= idx + n) (range_batches fuel idx n) /\
  forall i, idx <= i < idx + n -> exists b, In b (range_batches fuel idx n) /\ fst b <= i < fst b + snd b.
Proof.
  induction fuel as [|fuel IH]; intros idx n Hn; cbn [range_batches].
  - split; [constructor|]. intros i Hi. lia.
  - destruct (Nat.eqb_spec n 0) as [->|N0].
    + split; [constructor|]. intros i Hi. lia.
    + destruct (IH (idx + 8) (n - 8) ltac:(lia)) as (F & C). split.
      * constructor; [cbn [fst snd]; lia|]. destruct (Nat.le_gt_cases n 8) as [Hs|Hs].
        -- replace (n - 8) with 0 by lia. destruct fuel; cbn; constructor.
        -- eapply Forall_impl; [|exact F]. cbv beta. intros b Hb. lia.
      * intros i Hi. destruct (Nat.lt_ge_cases i (idx + 8)) as [Hl|Hl].
        -- exists (idx, Nat.min 8 n). split; [left; reflexivity|cbn [fst snd]; lia].
        -- destruct (C i ltac:(lia)) as (b & B1 & B2). exists b. split; [right; exact B1|exact B2].
Qed.
Lemma all_batches_ok : forall sizes start,
  Forall (fun b => start <= fst b /\ 1 <= snd b /\ snd b <= 8 /\ fst b + snd b <= start + list_sum sizes) (all_batches start sizes) /\
  forall i, start <= i < start + list_sum sizes -> exists b, In b (all_batches start sizes) /\ fst b <= i < fst b + snd b.
Proof.
  induction sizes as [|n sizes IH]; intros start.
  - split; [constructor|]. cbn. intros i Hi. lia.
  - change (list_sum (n :: sizes)) with (n + list_sum sizes). cbn [all_batches].
    destruct (range_batches_ok n start n (le_n _)) as (F1 & C1). destruct (IH (start + n)) as (F2 & C2). split.
    + apply Forall_app. split; (eapply Forall_impl; [|eassumption]); cbv beta; intros b Hb; lia.
    + intros i Hi. destruct (Nat.lt_ge_cases i (start + n)) as [Hl|Hl].
      * destruct (C1 i ltac:(lia)) as (b & B1 & B2). exists b. split; [apply in_or_app; left; exact B1|exact B2].
      * destruct (C2 i ltac:(lia)) as (b & B1 & B2). exists b. split; [apply in_or_app; right; exact B1|exact B2].
Qed.

Section Ipp.
Variable lane : bytes -> bytes -> bytes * bool.
Variable key : bytes.
Variable points : list bytes.
Let f (p : bytes) : option bytes := if snd (lane key p) then Some (fst (lane key p)) else None.

Lemma lane_points_ok : forall idx len l, 1 <= len -> idx + len <= length points ->
  exists ps, map_out (lane_point points idx len) l = Ok ps /\ length ps = length l /\
    (forall j i, nth_error l j = Some i -> i < len -> nth_error ps j = nth_error points (idx + i)) /\
    (forall p, In p ps -> In p points).
Proof.
  intros idx len l H1 H2. induction l as [|i l IH]; cbn [map_out].
  - exists []. split; [reflexivity|]. split; [reflexivity|]. split; [intros [|j] i E; discriminate E|intros p []].
  - destruct IH as (ps & E & L & N & I). unfold lane_point at 1.
    destruct (nth_error points (if i <? len then idx + i else idx)) as [p|] eqn:Ep.
    + cbn [bind]. rewrite E. cbn [bind]. exists (p :: ps). split; [reflexivity|]. split; [cbn; congruence|]. split.
      * intros [|j] i' Ej Hi; cbn [nth_error] in *; [|apply N; assumption]. injection Ej as <-.
        revert Ep. destruct (Nat.ltb_spec i len); [congruence|lia].
      * intros q [<- | Hq]; [eapply nth_error_In; exact Ep|apply I; exact Hq].
    + apply nth_error_None in Ep. revert Ep. destruct (Nat.ltb_spec i len); lia.
Qed.

Lemma put_len : forall idx len l s, length (ms_out (fold_left (put_lane idx len) l s)) = length (ms_out s).
Proof.
  intros idx len. induction l as [|y l IH]; intros s; cbn [fold_left]; [reflexivity|].
  rewrite IH. unfold put_lane. destruct (fst y <? len); cbn [ms_out]; [apply upd_len|reflexivity].
Qed.
(** Every write goes to its own point's slot with that point's value. *)
Lemma put_keeps : forall idx len l s i v, (forall j y, In (j, y) l -> j < len -> idx + j = i -> y = v) ->
  nth_error (ms_out s) i = Some v -> nth_error (ms_out (fold_left (put_lane idx len) l s)) i = Some v.
Proof.
  intros idx len. induction l as [|[j y] l IH]; intros s i v H E; cbn [fold_left]; [exact E|].
  apply IH; [intros j' y' Hj; apply H; right; exact Hj|].
  unfold put_lane. cbn [fst snd]. destruct (Nat.ltb_spec j len) as [Hl|Hl]; cbn [ms_out]; [|exact E].
  rewrite upd_nth. destruct (Nat.eqb_spec (idx + j) i) as [Ei|_]; [|exact E].
  rewrite E. cbn. f_equal. apply (H j y); [left; reflexivity|exact Hl|exact Ei].
Qed.
Lemma put_sets : forall idx len l s i v j, (forall j y, In (j, y) l -> j < len -> idx + j = i -> y = v) ->
  In (j, v) l -> j < len -> idx + j = i -> i < length (ms_out s) ->
  nth_error (ms_out (fold_left (put_lane idx len) l s)) i = Some v.
Proof.
  intros idx len. induction l as [|[j' y] l IH]; intros s i v j H HI Hj Ei Hb; [contradiction|].
  destruct HI as [E | HI].
  - injection E as -> ->. cbn [fold_left]. apply put_keeps; [intros j' y' Hj'; apply H; right; exact Hj'|].
    unfold put_lane. cbn [fst snd]. destruct (Nat.ltb_spec j len); [|lia]. cbn [ms_out].
    rewrite upd_nth, Ei, Nat.eqb_refl. destruct (nth_error (ms_out s) i) eqn:Es; [reflexivity|].
    apply nth_error_None in Es. lia.
  - cbn [fold_left]. apply (IH _ i v j); auto.
    + intros j0 y0 Hj0. apply H. right. exact Hj0.
    + unfold put_lane. destruct (fst (j', y) <? len); cbn [ms_out]; [rewrite upd_len|]; exact Hb.
Qed.

Lemma combine_nth : forall (A B : Type) (a : list A) (b : list B) x y, In (x, y) (List.combine a b) ->
  exists j, nth_error a j = Some x /\ nth_error b j = Some y.
Proof.
  intros A B. induction a as [|u a IH]; intros [|v b] x y HI; cbn in HI; try contradiction.
  destruct HI as [E | HI]; [injection E as <- <-; exists 0; auto|].
  destruct (IH _ _ _ HI) as (j & J). exists (S j). exact J.
Qed.
Lemma nth_combine : forall (A B : Type) (a : list A) (b : list B) x y j, nth_error a j = Some x -> nth_error b j = Some y ->
  In (x, y) (List.combine a b).
Proof.
  intros A B. induction a as [|u a IH]; intros [|v b] x y [|j] E1 E2; cbn in *; try discriminate.
  - left. congruence.
  - right. eapply IH; eauto.
Qed.
Lemma nth_seq : forall n start j i, nth_error (seq start n) j = Some i -> i = start + j /\ j < n.
Proof.
  induction n as [|n IH]; intros start [|j] i E; cbn in E; try discriminate.
  - injection E as <-. lia.
  - destruct (IH _ _ _ E). lia.
Qed.
Lemma seq_nth_err : forall n start j, j < n -> nth_error (seq start n) j = Some (start + j).
Proof.
  induction n as [|n IH]; intros start [|j] H; [lia|lia| |]; cbn [seq nth_error].
  - f_equal. lia.
  - rewrite IH by lia. f_equal. lia.
Qed.

Lemma mask_batch_ok : forall s b, 1 <= snd b /\ snd b <= 8 /\ fst b + snd b <= length points -> length (ms_out s) = length points ->
  (mask_batch lane key points s b = Throw /\ exists i x, nth_error points i = Some x /\ f x = None) \/
  (exists s', mask_batch lane key points s b = Ok s' /\ length (ms_out s') = length points /\
    (forall i x y, nth_error points i = Some x -> f x = Some y -> fst b <= i < fst b + snd b -> nth_error (ms_out s') i = Some y) /\
    (forall i x y, nth_error points i = Some x -> f x = Some y -> nth_error (ms_out s) i = Some y -> nth_error (ms_out s') i = Some y)).
Proof.
  intros s [idx len] (H1 & H2 & H3) L. cbn [fst snd] in *. unfold mask_batch. cbn [fst snd].
  destruct (lane_points_ok idx len (seq 0 8) H1 H3) as (ps & -> & Lp & Np & Ip). cbn [bind].
  destruct (forallb (fun p => snd (lane key p)) ps) eqn:F.
  - right. cbn [enforce].
    match goal with |- context [Ok ?s'] => exists s' end. split; [reflexivity|]. split; [rewrite put_len; exact L|].
    assert (W : forall i x y, nth_error points i = Some x -> f x = Some y ->
      forall j v, In (j, v) (List.combine (seq 0 8) (map (fun p => fst (lane key p)) ps)) -> j < len -> idx + j = i -> v = y).
    { intros i x y Hx Hy j v HI Hj Ei. destruct (combine_nth _ _ _ _ _ _ HI) as (n & N1 & N2).
      pose proof (Np n j N1 Hj) as Hp. rewrite nth_error_map in N2. rewrite Hp, Ei, Hx in N2. cbn in N2.
      unfold f in Hy. destruct (snd (lane key x)); congruence. }
    split.
    + intros i x y Hx Hy Hi. apply (put_sets _ _ _ _ i y (i - idx)).
      * exact (W i x y Hx Hy).
      * apply (nth_combine _ _ _ _ _ _ (i - idx)).
        -- rewrite seq_nth_err by lia. reflexivity.
        -- rewrite nth_error_map. rewrite (Np (i - idx) (i - idx)); [|rewrite seq_nth_err by lia; reflexivity|lia].
           replace (idx + (i - idx)) with i by lia. rewrite Hx. cbn. unfold f in Hy. destruct (snd (lane key x)); congruence.
      * lia.
      * lia.
      * rewrite L. lia.
    + intros i x y Hx Hy Hs. apply put_keeps; [exact (W i x y Hx Hy)|exact Hs].
  - left. cbn [enforce]. split; [reflexivity|].
    assert (Ex : exists p, In p ps /\ snd (lane key p) = false).
    { clear -F. induction ps as [|p ps IH]; cbn in F; [discriminate|].
      destruct (snd (lane key p)) eqn:E; [|exists p; split; [left; reflexivity|exact E]].
      destruct (IH F) as (q & Q1 & Q2). exists q. split; [right; exact Q1|exact Q2]. }
    destruct Ex as (p & P1 & P2). apply Ip in P1. apply In_nth_error in P1. destruct P1 as (i & Hi).
    exists i, p. split; [exact Hi|]. unfold f. rewrite P2. reflexivity.
Qed.
Lemma mask_batch_throw : forall s b i x, 1 <= snd b /\ snd b <= 8 /\ fst b + snd b <= length points -> length (ms_out s) = length points ->
  fst b <= i < fst b + snd b -> nth_error points i = Some x -> f x = None -> mask_batch lane key points s b = Throw.
Proof.
  intros s [idx len] i x (H1 & H2 & H3) L Hi Hx Hn. cbn [fst snd] in *. unfold mask_batch. cbn [fst snd].
  destruct (lane_points_ok idx len (seq 0 8) H1 H3) as (ps & -> & Lp & Np & Ip). cbn [bind].
  assert (In x ps).
  { apply (nth_error_In ps (i - idx)). rewrite (Np (i - idx) (i - idx)); [|rewrite seq_nth_err by lia; reflexivity|lia].
    replace (idx + (i - idx)) with i by lia. exact Hx. }
  destruct (forallb (fun p => snd (lane key p)) ps) eqn:F; [|reflexivity].
  rewrite forallb_forall in F. specialize (F x H). unfold f in Hn. rewrite F in Hn. discriminate Hn.
Qed.

Lemma ipp_mask_ok : forall sizes order, list_sum sizes = length points -> Permutation (all_batches 0 sizes) order ->
  ipp_mask lane key points order = all_or_throw (image f points).
Proof.
  intros sizes order Hs P. unfold ipp_mask.
  pose proof (slots_result bytes bytes (nat * nat) mask_state f points ms_out (mask_batch lane key points)
    (fun b i => fst b <= i < fst b + snd b) (fun b => 1 <= snd b /\ snd b <= 8 /\ fst b + snd b <= length points)) as H.
  specialize (H (fun s t i x G L C X N => mask_batch_throw s t i x G L C X N) (fun s t G L => mask_batch_ok s t G L)
    order (mk_ms (repeat [] (length points)) (repeat [] 8))).
  destruct (all_batches_ok sizes 0) as (F & C). rewrite Hs in F, C. cbn [Nat.add] in F, C.
  match type of H with ?X -> _ => assert (H1 : X) end.
  { apply Forall_forall. intros b Hb. eapply Permutation_in in Hb; [|symmetry; exact P].
    rewrite Forall_forall in F. specialize (F b Hb). cbv beta in F. lia. }
  specialize (H H1 (repeat_length _ _)). clear H1.
  match type of H with ?X -> _ => assert (H1 : X) end.
  { intros i Hi. destruct (C i ltac:(lia)) as (b & B1 & B2). exists b. split; [eapply Permutation_in; eassumption|exact B2]. }
  specialize (H H1). destruct (image f points) as [ys|]; cbn [all_or_throw].
  - destruct H as (s' & -> & <-). reflexivity.
  - rewrite H. reflexivity.
Qed.
End Ipp.

Lemma image_ext : forall (A B : Type) (f g : A -> option B) l, (forall x, f x = g x) -> image f l = image g l.
Proof. intros A B f g l H. induction l as [|x l IH]; cbn; [reflexivity|]. rewrite H, IH. reflexivity. Qed.
Lemma image_len : forall (A B : Type) (f : A -> option B) l ys, image f l = Some ys -> length ys = length l.
Proof. intros A B f l ys H. apply (image_nth _ _ _ _ _ H). Qed.
Lemma image_total : forall (A B : Type) (f : A -> B) l, image (fun x => Some (f x)) l = Some (map f l).
Proof. induction l as [|x l IH]; cbn; [reflexivity|]. rewrite IH. reflexivity. Qed.

Section Agree.
Variables (mul : group -> N -> bytes -> option bytes) (lane : bytes -> bytes -> bytes * bool) (hash_to : hash_kind -> bytes -> bytes).
Hypothesis Hag : libraries_agree mul lane.

Lemma ecc_mask_ok : forall m t c key points r, create_cryptor m t = Ok c -> run_of (length points) r ->
  ecc_mask mul lane c key points r = all_or_throw (image (mul (c_group c) (scalar key)) points).
Proof using Hag.
  intros m t c key points r Hc (P & sizes & Hs & Pb). unfold ecc_mask.
  assert (Hg : c_lib c = LIpp -> c_group c = GCurve25519).
  { unfold create_cryptor, ipp_cryptor, fourq_cryptor in Hc.
    destruct t as [|[[[p|p|]|[p|p|]|]|[[p|p|]|[p|p|]|]|]]; try discriminate Hc;
    repeat match type of Hc with context [if ?b then _ else _] => destruct b end; try discriminate Hc;
    injection Hc as <-; cbn; intros; congruence. }
  destruct (c_lib c) eqn:El; [|apply par_map_ok; exact P..].
  rewrite (ipp_mask_ok lane key points sizes _ Hs Pb), Hg by reflexivity. f_equal. apply image_ext. intros p. symmetry. apply Hag.
Qed.

Lemma double_ok : forall m t c m' t' c' key key' items r1 r2 r3, create_cryptor m t = Ok c -> create_cryptor m' t' = Ok c' ->
  run_of (length items) r1 -> run_of (length items) r2 -> run_of (length items) r3 -> c_group c = c_group c' ->
  double_mask mul lane hash_to c c' key key' items r1 r2 r3 =
  all_or_throw (image (fun x => mul2 mul (c_group c) (scalar key) (scalar key') (hash_to (c_hash c) x)) items).
Proof using Hag.
  intros m t c m' t' c' key key' items r1 r2 r3 H H' R1 R2 R3 Hg. unfold double_mask, hash_inputs.
  rewrite par_map_ok by apply R1. rewrite image_total. cbn [all_or_throw bind].
  rewrite (ecc_mask_ok m t c) by (try exact H; rewrite map_length; exact R2).
  destruct (image (mul (c_group c) (scalar key)) (map (hash_to (c_hash c)) items)) as [ys|] eqn:E.
  - cbn [all_or_throw bind]. pose proof (image_len _ _ _ _ _ E) as Ly. rewrite map_length in Ly.
    rewrite (ecc_mask_ok m' t' c') by (try exact H'; rewrite Ly; exact R3). rewrite <- Hg. f_equal.
    clear R1 R2 R3 Ly. revert ys E. induction items as [|x items IH]; cbn; intros ys E.
    + injection E as <-. reflexivity.
    + unfold mul2 at 1. destruct (mul (c_group c) (scalar key) (hash_to (c_hash c) x)) as [q|]; [|discriminate].
      destruct (image _ (map _ items)) as [zs|] eqn:Ez; [|discriminate]. injection E as <-. cbn.
      rewrite (IH _ eq_refl). reflexivity.
  - cbn [all_or_throw bind]. clear R1 R2 R3.
    replace (image (fun x => mul2 mul (c_group c) (scalar key) (scalar key') (hash_to (c_hash c) x)) items) with (@None (list bytes)); [reflexivity|].
    revert E. induction items as [|x items IH]; cbn; intros E; [discriminate|].
    unfold mul2 at 1. destruct (mul (c_group c) (scalar key) (hash_to (c_hash c) x)) as [q|]; [|reflexivity].
    destruct (image _ (map _ items)) as [zs|] eqn:Ez; [discriminate|].
    destruct (mul (c_group c) (scalar key') q); [|reflexivity]. rewrite <- (IH eq_refl). reflexivity.
Qed.
End Agree.
