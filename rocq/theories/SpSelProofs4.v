(** Expansion as a whole, and the two dimensions. *)
From Coq Require Import List Arith NArith ZArith Lia Setoid Morphisms Ring Bool.
From Verif Require Import Base SpGadgetModel SpDecodeSpec SpDecodeProofs2 SpRingModel SpRingSpec SpRingProofs SpRingProofs2
  SpSelModel SpSelSpec SpSelProofs SpSelProofs2 SpSelProofs3.
Import ListNotations.
Local Open Scope Z_scope.

Lemma expand_noise_S : forall Be K i, expand_noise Be K (S i) = 2 * expand_noise Be K i + K.
Proof. intros Be K i. unfold expand_noise. rewrite Nat2Z.inj_succ, Z.pow_succ_r by lia. lia. Qed.

Lemma even_mod2 : forall x, (x mod 2 =? 1)%nat = negb (Nat.even x).
Proof.
  intros x. rewrite Nat.negb_even. destruct (Nat.odd x) eqn:E.
  - apply Nat.odd_spec in E as [m ->]. rewrite (Nat.mul_comm 2), Nat.add_comm, Nat.mod_add by lia. reflexivity.
  - rewrite <- Nat.negb_even in E. apply Bool.negb_false_iff, Nat.even_spec in E as [m ->]. rewrite (Nat.mul_comm 2), Nat.mod_mul by lia. reflexivity.
Qed.
Lemma even_mod2_0 : forall x, (x mod 2 =? 0)%nat = Nat.even x.
Proof.
  intros x. destruct (Nat.even x) eqn:E.
  - apply Nat.even_spec in E as [m ->]. rewrite (Nat.mul_comm 2), Nat.mod_mul by lia. reflexivity.
  - rewrite <- Nat.negb_odd in E. apply Bool.negb_false_iff, Nat.odd_spec in E as [m ->].
    rewrite (Nat.mul_comm 2), Nat.add_comm, Nat.mod_add by lia. reflexivity.
Qed.
Lemma even_pow : forall i, (0 < i)%nat -> Nat.even (2 ^ i) = true.
Proof. intros [|i] H; [lia|]. rewrite Nat.pow_succ_r'. apply even_2. Qed.
Lemma even_sub_pow : forall x i, (0 < i)%nat -> (2 ^ i <= x)%nat -> Nat.even (x - 2 ^ i) = Nat.even x.
Proof. intros x i Hi H. rewrite Nat.even_sub by exact H. rewrite even_pow by exact Hi. destruct (Nat.even x); reflexivity. Qed.

Section Y.
Variable P : sel_params.
Local Notation n := (sp_len P).
Local Notation q := (sp_q P).
Variable L : nat.
Hypothesis HL : sp_len P = (2 ^ L)%nat.
Hypothesis Hq0 : 0 < q.
Hypothesis Hqm : q < 2 ^ Z.of_nat (sp_ml P).
Hypothesis Hml : (sp_ml P <= 64)%nat.
Local Notation Hn := (n_pos P L HL).
Local Notation "a == b" := (peq n q a b) (at level 70).
Local Infix "*p" := (pmul n) (at level 40).
Local Infix "+p" := padd (at level 50).
Local Notation phase := (ph n).
Local Notation nr := (near n q).
Add Ring rg : (pring n q Hn) (setoid (peq_equiv n q) (peq_eqe n q Hn)).

Section Exp.
Variables (s sigma : poly) (Be K : Z) (left right : list (nat -> ct)) (query : ct) (g stop maxr : nat).
Hypothesis Hquery : nr Be (phase s query) sigma.
Hypothesis Hdl : (1 <= sp_left P)%nat.
Hypothesis Hdr : (1 <= sp_right P)%nat.
Hypothesis HKl : switch_noise n (sp_left P) (bits_for P (sp_left P)) Be <= K.
Hypothesis HKr : switch_noise n (sp_right P) (bits_for P (sp_right P)) Be <= K.
Hypothesis Hg : (g <= L)%nat.
Hypothesis Hleft : forall i, (i < g)%nat -> key_ok P s Be i (sp_left P) (nth i left (fun _ => ct_zero)).
Hypothesis Hright : forall i, (i <= stop)%nat -> key_ok P s Be i (sp_right P) (nth i right (fun _ => ct_zero)).
Hypothesis Hstop : (0 < stop)%nat.
Hypothesis Hsg : (stop < g)%nat.

Local Notation V i := (coefficient_expansion P i stop maxr left right (fun x => if Nat.eqb x 0 then query else ct_zero)).
Local Notation good i x c := (nr (expand_noise Be K i) (phase s c) (sel i x sigma)).

Lemma step_first : forall i x c m w, (i < g)%nat -> (1 <= m)%nat -> key_ok P s Be i m w ->
  switch_noise n m (bits_for P m) Be <= K -> good i x c -> good (S i) x (expand_one P i m w c).
Proof using All.
  intros i x c m w Hi Hm Hk HK Hc.
  pose proof (expand_one_near P L HL Hq0 Hqm Hml s Be i m w c (sel i x sigma) (expand_noise Be K i) ltac:(lia) Hm Hk
                (fun z _ H => sel_support i x sigma z H) Hc) as G.
  assert (E : peq n q (fun z => if (z mod 2 ^ (i + 1) =? 0)%nat then 2 * sel i x sigma z else 0) (sel (S i) x sigma)).
  { apply peq_pt. intros z _. rewrite sel_first. f_equal. lia. }
  rewrite E in G. apply (near_weaken n q Hn _ _ _ _ G). rewrite expand_noise_S. lia.
Qed.

Lemma step_second : forall i j c m w, (i < g)%nat -> (1 <= m)%nat -> key_ok P s Be i m w ->
  switch_noise n m (bits_for P m) Be <= K -> good i j c ->
  good (S i) (j + 2 ^ i)%nat (expand_one P i m w (ct_scale P (neg1 P i) c)).
Proof using All.
  intros i j c m w Hi Hm Hk HK Hc.
  assert (Hc' : nr (expand_noise Be K i) (phase s (ct_scale P (neg1 P i) c)) (neg1 P i *p sel i j sigma)).
  { rewrite (phase_scale P Hn Hq0 Hqm Hml). apply (near_neg1 P L HL Hq0 Hqm Hml); [lia|exact Hc]. }
  pose proof (expand_one_near P L HL Hq0 Hqm Hml s Be i m w _ (neg1 P i *p sel i j sigma) (expand_noise Be K i) ltac:(lia) Hm Hk
                (neg1_support P L HL i j sigma ltac:(lia)) Hc') as G.
  assert (E : peq n q (fun z => if (z mod 2 ^ (i + 1) =? 0)%nat then 2 * (neg1 P i *p sel i j sigma) z else 0) (sel (S i) (j + 2 ^ i) sigma)).
  { apply peq_pt. intros z Hz. rewrite (sel_second P L HL) by lia. f_equal. lia. }
  rewrite E in G. apply (near_weaken n q Hn _ _ _ _ G). rewrite expand_noise_S. lia.
Qed.

(** Which key action_expand uses, when it does not return at once. *)
Lemma action_even : forall i j, (i < g)%nat -> Nat.even j = true -> (i = 0%nat -> j = 0%nat) ->
  exists m w, (1 <= m)%nat /\ key_ok P s Be i m w /\ switch_noise n m (bits_for P m) Be <= K
  /\ forall c, action_expand P stop maxr left right i j c = expand_one P i m w c.
Proof using All.
  intros i j Hi Ej H0. destruct (Nat.eqb_spec i 0) as [E0|N0].
  - exists (sp_right P), (nth i right (fun _ => ct_zero)). split; [exact Hdr|]. split; [apply Hright; lia|]. split; [exact HKr|].
    intros c. unfold action_expand. rewrite even_mod2, Ej, E0. cbn [negb Nat.eqb andb]. rewrite !andb_false_r. reflexivity.
  - exists (sp_left P), (nth i left (fun _ => ct_zero)). split; [exact Hdl|]. split; [apply Hleft; lia|]. split; [exact HKl|].
    intros c. unfold action_expand. rewrite even_mod2, even_mod2_0, Ej. apply Nat.eqb_neq in N0. rewrite N0. cbn [negb andb].
    rewrite !andb_false_r. reflexivity.
Qed.
Lemma action_odd : forall i j, (i <= stop)%nat -> Nat.even j = false -> (i = stop -> (j / 2 < maxr)%nat) ->
  exists m w, (1 <= m)%nat /\ key_ok P s Be i m w /\ switch_noise n m (bits_for P m) Be <= K
  /\ forall c, action_expand P stop maxr left right i j c = expand_one P i m w c.
Proof using All.
  intros i j Hi Ej H0.
  exists (sp_right P), (nth i right (fun _ => ct_zero)). split; [exact Hdr|]. split; [apply Hright; lia|]. split; [exact HKr|].
  intros c. unfold action_expand. rewrite even_mod2, even_mod2_0, Ej. cbn [negb andb]. rewrite !andb_true_r, !andb_false_r.
  replace (stop <? i)%nat with false by (symmetry; apply Nat.ltb_ge; lia). rewrite andb_false_r. cbn [orb].
  destruct (Nat.eqb_spec i stop) as [E|E]; [|rewrite andb_false_r; reflexivity].
  specialize (H0 E). replace (maxr <=? j / 2)%nat with false by (symmetry; apply Nat.leb_gt; lia). rewrite !andb_false_r. reflexivity.
Qed.

Lemma good_zero : good 0%nat 0%nat query.
Proof using All.
  assert (E : sel 0 0 sigma == sigma).
  { apply peq_pt. intros z _. unfold sel. rewrite Nat.pow_0_r, Nat.mod_1_r. cbn [Nat.eqb]. replace (0 + z)%nat with z by lia. lia. }
  rewrite E. apply (near_weaken n q Hn _ _ _ _ Hquery). unfold expand_noise. change (2 ^ Z.of_nat 0) with 1. lia.
Qed.

Lemma expand_even : forall i, (i <= g)%nat -> forall x, (x < 2 ^ i)%nat -> Nat.even x = true -> good i x (V i x).
Proof using All.
  induction i as [|i IH]; intros Hi x Hx Ex.
  - cbn in Hx. assert (x = 0%nat) by lia. subst x. exact good_zero.
  - cbn [coefficient_expansion]. unfold expand_round. replace (i + 1)%nat with (S i) by lia.
    destruct (Nat.ltb_spec x (2 ^ i)) as [Lt|Ge].
    + destruct (action_even i x ltac:(lia) Ex) as (m & w & A & B & C & D).
      { intros ->. cbn in Lt. lia. }
      rewrite D. apply step_first; auto. apply IH; [lia|exact Lt|exact Ex].
    + destruct (Nat.ltb_spec x (2 ^ S i)) as [_|]; [|lia]. cbv zeta.
      rewrite Nat.pow_succ_r' in Hx.
      destruct (Nat.eq_dec i 0) as [->|Ni]; [cbn in Ge, Hx; assert (x = 1%nat) by lia; subst x; discriminate|].
      rewrite <- (even_sub_pow x i) in Ex by lia.
      destruct (action_even i (x - 2 ^ i) ltac:(lia) Ex) as (m & w & A & B & C & D); [lia|].
      rewrite D. replace x with ((x - 2 ^ i) + 2 ^ i)%nat at 2 by lia. apply step_second; auto. apply IH; [lia|lia|exact Ex].
Qed.

Lemma expand_odd : forall i, (i <= S stop)%nat -> forall x, (x < 2 ^ i)%nat -> Nat.even x = false ->
  (i = S stop -> (x / 2 < maxr)%nat) -> good i x (V i x).
Proof using All.
  induction i as [|i IH]; intros Hi x Hx Ex Hm.
  - cbn in Hx. assert (x = 0%nat) by lia. subst x. discriminate.
  - cbn [coefficient_expansion]. unfold expand_round. replace (i + 1)%nat with (S i) by lia.
    destruct (Nat.ltb_spec x (2 ^ i)) as [Lt|Ge].
    + destruct (action_odd i x ltac:(lia) Ex) as (m & w & A & B & C & D).
      { intros ->. apply Hm. reflexivity. }
      rewrite D. apply step_first; auto; [lia|]. apply IH; [lia|exact Lt|exact Ex|lia].
    + destruct (Nat.ltb_spec x (2 ^ S i)) as [_|]; [|lia]. cbv zeta.
      rewrite Nat.pow_succ_r' in Hx.
      destruct (Nat.eq_dec i 0) as [->|Ni].
      * cbn in Ge, Hx. assert (x = 1%nat) by lia. subst x. cbn [Nat.pow Nat.sub].
        destruct (action_even 0 0 ltac:(lia) eq_refl (fun _ => eq_refl)) as (m & w & A & B & C & D).
        rewrite D. apply (step_second 0 0); auto; [lia|]. exact good_zero.
      * rewrite <- (even_sub_pow x i) in Ex by lia.
        destruct (action_odd i (x - 2 ^ i) ltac:(lia) Ex) as (m & w & A & B & C & D).
        { intros Es. specialize (Hm ltac:(lia)). pose proof (Nat.div_le_mono (x - 2 ^ i) x 2 ltac:(lia) ltac:(lia)). lia. }
        rewrite D. replace x with ((x - 2 ^ i) + 2 ^ i)%nat at 2 by lia. apply step_second; auto; [lia|]. apply IH; [lia|lia|exact Ex|lia].
Qed.

Lemma expand_keep : forall d x, (x < 2 ^ S stop)%nat -> Nat.even x = false -> V (S stop + d)%nat x = V (S stop) x.
Proof using All.
  induction d as [|d IH]; intros x Hx Ex; [rewrite Nat.add_0_r; reflexivity|].
  rewrite <- (IH x Hx Ex). replace (S stop + S d)%nat with (S (S stop + d)) by lia. cbn [coefficient_expansion]. unfold expand_round.
  assert (Hp : (2 ^ S stop <= 2 ^ (S stop + d))%nat) by (apply Nat.pow_le_mono_r; lia).
  destruct (Nat.ltb_spec x (2 ^ (S stop + d))) as [_|]; [|lia]. unfold action_expand. rewrite even_mod2, Ex. cbn [negb].
  replace (0 <? stop)%nat with true by (symmetry; apply Nat.ltb_lt; lia).
  replace (stop <? S stop + d)%nat with true by (symmetry; apply Nat.ltb_lt; lia). reflexivity.
Qed.

Lemma expand_all : (maxr <= 2 ^ stop)%nat ->
  (forall i, (2 * i < 2 ^ g)%nat -> good g (2 * i)%nat (V g (2 * i)%nat))
  /\ forall i, (i < maxr)%nat -> good (S stop) (2 * i + 1)%nat (V g (2 * i + 1)%nat).
Proof using All.
  intros Hm. split.
  - intros i Hi. apply expand_even; [lia|exact Hi|apply even_2].
  - intros i Hi. assert (Hx : (2 * i + 1 < 2 ^ S stop)%nat) by (rewrite Nat.pow_succ_r'; lia).
    replace g with (S stop + (g - S stop))%nat by lia. rewrite expand_keep by (auto using even_2_1).
    apply expand_odd; [lia|exact Hx|apply even_2_1|]. intros _. rewrite div_2_1. exact Hi.
Qed.
End Exp.
End Y.
