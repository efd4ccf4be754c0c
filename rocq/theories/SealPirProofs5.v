(** Supporting lemmas for C69: ExpandQuery and the ciphertexts of one dimension. *)
From Coq Require Import List Arith NArith ZArith Lia Bool.
From Verif Require Import Base StoreModel StoreProofs Text PirPackModel PirPackProofs PirPackProofs2 SpLoopModel SpLoopProofs NttModel
  SpArithModel SpDecodeSpec SpRingSpec SpDecodeProofs2 SpRingModel SpRingProofs SpRingProofs2 SpSelModel SpSelProofs3 SpSrvProofs1
  SealPirModel SealPirSpec SealPirProofs1 SealPirProofs2 SealPirProofs3 SealPirProofs4.
Import ListNotations.
Local Open Scope Z_scope.

Lemma nth_firstn_lt' : forall (X : Type) (l : list X) m i d, (i < m)%nat -> nth i (firstn m l) d = nth i l d.
Proof. intros X l m i d Hi. exact (nth_firstn_skipn X d l 0 m i Hi). Qed.

Lemma get_lt' : forall (X : Type) (d : X) p l m, length l = m -> (p < m)%nat -> get p l = Ok (nth p l d).
Proof. intros X d p l m <- H. apply get_lt. exact H. Qed.

Lemma nth_combine_seq : forall (X : Type) (l : list X) s i dx, (i < length l)%nat ->
  nth i (List.combine (seq s (length l)) l) (0%nat, dx) = ((s + i)%nat, nth i l dx).
Proof.
  intros X. induction l as [|y l IH]; intros s i dx Hi; [cbn in Hi; lia|]. cbn [length seq List.combine].
  destruct i as [|i]; cbn [nth]; [f_equal; lia|]. rewrite IH by (cbn in Hi; lia). f_equal. lia.
Qed.

Lemma nth_concat_fixed : forall (X : Type) (es : list (list X)) w j x d, (forall i, (i < j)%nat -> length (nth i es []) = w) -> (j < length es)%nat ->
  (x < length (nth j es []))%nat -> nth (j * w + x) (concat es) d = nth x (nth j es []) d.
Proof.
  intros X es w j. revert es. induction j as [|j IH]; intros [|e es] x d Hw Hj Hx; cbn [length] in Hj; try lia.
  - cbn [concat nth Nat.mul Nat.add] in *. apply app_nth1. exact Hx.
  - cbn [concat nth] in *. pose proof (Hw 0%nat ltac:(lia)) as W0. cbn [nth] in W0. rewrite app_nth2 by lia. rewrite W0.
    replace (S j * w + x - w)%nat with (j * w + x)%nat by lia. apply IH; [|lia|exact Hx]. intros i Hi. apply (Hw (S i)). lia.
Qed.

Lemma concat_len_fixed : forall (X : Type) (es : list (list X)) w j, length es = S j -> (forall i, (i < j)%nat -> length (nth i es []) = w) ->
  length (concat es) = (j * w + length (nth j es []))%nat.
Proof.
  intros X es w j. revert es. induction j as [|j IH]; intros [|e es] Hl Hw; cbn [length] in Hl; try lia.
  - destruct es; cbn [length] in Hl; [|lia]. cbn [concat nth]. rewrite app_nil_r. lia.
  - cbn [concat nth]. rewrite app_length. pose proof (Hw 0%nat ltac:(lia)) as W0. cbn [nth] in W0. rewrite W0, IH; [lia|lia|].
    intros i Hi. apply (Hw (S i)). lia.
Qed.

Section Expand.
Variable P : seal_params.
Variables (moduli last : list N) (throws : bool) (galois : cipher -> nat -> cipher) (cadd : cipher -> cipher -> cipher)
  (cmul : cipher -> list N -> outcome cipher) (mod_switch : cipher -> cipher) (encrypt : nat -> list N -> cipher) (decrypt : cipher -> list N)
  (t : N) (Enc : Z -> cipher -> (nat -> Z) -> Prop) (e0 A E : Z) (L : nat).
Let n := sl_n P.
Let T := Z.of_N t.
Hypothesis Sch : seal_scheme n t moduli last throws galois cadd cmul mod_switch encrypt decrypt Enc e0 A E.
Hypothesis HL : n = (2 ^ L)%nat.
Hypothesis Hq : Forall (fun q => (0 < q < 2 ^ 64)%N) moduli.
Hypothesis HA : 0 <= A.
Hypothesis He0 : 0 <= e0.
Hypothesis Ht : (2 < t)%N.

Let SP : sel_params := SelParams n 0 0 0 0 0 0 0 0 0 0.
Lemma Hn0 : (0 < n)%nat.
Proof using Sch HL Hq HA He0 Ht. rewrite HL. pose proof (Nat.pow_nonzero 2 L). lia. Qed.

Lemma galelt_t : forall i, galelt P i = round_t SP i.
Proof using Sch HL Hq HA He0 Ht.
  intros i. unfold galelt, round_t. fold n. change (sp_len SP) with n. pose proof (Nat.pow_nonzero 2 i).
  replace (n + 2 ^ i)%nat with (n + 1 * 2 ^ i)%nat by lia. rewrite Nat.div_add by lia. reflexivity.
Qed.

Lemma pow_bound : forall i, (i < L)%nat -> (2 * 2 ^ i <= n)%nat.
Proof using Sch HL Hq HA He0 Ht. intros i Hi. rewrite HL. replace (2 * 2 ^ i)%nat with (2 ^ (S i))%nat by reflexivity. apply Nat.pow_le_mono_r; lia. Qed.

Lemma pair_ok : forall i x e c m sigma, (i < L)%nat -> Enc e c m -> peq n T m (sel i x sigma) ->
  Enc (2 * e + 2 * A) (fst (expand_pair P galois cadd moduli i c)) (sel (i + 1) x sigma)
  /\ Enc (2 * e + 2 * A) (snd (expand_pair P galois cadd moduli i c)) (sel (i + 1) (x + 2 ^ i) sigma).
Proof using Sch HL Hq HA He0 Ht.
  intros i x e c m sigma Hi Hc0 Hm. pose proof Hn0 as Hn. pose proof (pow_bound i Hi) as B2. pose proof (Nat.pow_nonzero 2 i) as Nz.
  assert (HSP : sp_len SP = (2 ^ L)%nat) by exact HL.
  set (f := sel i x sigma) in *. set (g := paut n (round_t SP i) f).
  assert (Hc : Enc e c f) by (eapply (ss_weaken _ _ _ _ _ _ _ _ _ _ _ _ _ _ _ Sch); [exact Hc0|lia|exact Hm]).
  destruct (round_inverse SP L HSP i Hi) as [t' Hinv]. change (sp_len SP) with n in Hinv.
  assert (Hodd : Nat.odd (round_t SP i) = true).
  { rewrite (round_t_val SP L HSP i Hi). rewrite Nat.odd_add, Nat.odd_mul. reflexivity. }
  assert (Hlt : (round_t SP i < 2 * n)%nat).
  { rewrite (round_t_val SP L HSP i Hi). pose proof (n_split SP L HSP i Hi) as S. change (sp_len SP) with n in S.
    assert (2 * 2 ^ (L - i - 1) <= n)%nat by (rewrite S; nia). lia. }
  assert (Hr : Enc (e + A) (galois c (galelt P i)) g).
  { rewrite galelt_t. eapply (ss_galois _ _ _ _ _ _ _ _ _ _ _ _ _ _ _ Sch); [exact Hc|exact Hodd|exact Hlt|].
    intros k Hk. unfold g. rewrite (aut_at n Hn _ t' Hinv f k Hk). apply eqm_refl'. }
  assert (Hfg : forall z, (z < n)%nat -> f z + g z = if (z mod 2 ^ (i + 1) =? 0)%nat then 2 * f z else 0).
  { intros z Hz. exact (half_sum SP L HSP i f Hi ltac:(intros y _; apply sel_support) z Hz). }
  unfold expand_pair. cbn [fst snd]. fold n. split.
  - eapply (ss_weaken _ _ _ _ _ _ _ _ _ _ _ _ _ _ _ Sch); [apply (ss_add _ _ _ _ _ _ _ _ _ _ _ _ _ _ _ Sch); [exact Hc|exact Hr]|lia|].
    intros z Hz. cbn beta. rewrite Hfg by exact Hz. unfold f. rewrite sel_first. apply eqm_refl'.
  - assert (Ei : ((2 * n - 2 ^ i + n) mod (2 * n))%nat = (n - 2 ^ i)%nat).
    { replace (2 * n - 2 ^ i + n)%nat with ((n - 2 ^ i) + 1 * (2 * n))%nat by lia. rewrite Nat.mod_add by lia. apply Nat.mod_small. lia. }
    rewrite Ei.
    destruct (mulx_ok P moduli Hn Hq (2 * n - 2 ^ i) c (ss_form _ _ _ _ _ _ _ _ _ _ _ _ _ _ _ Sch _ _ _ Hc) ltac:(fold n; lia)) as [F1 R1].
    destruct (mulx_ok P moduli Hn Hq (n - 2 ^ i) _ (ss_form _ _ _ _ _ _ _ _ _ _ _ _ _ _ _ Sch _ _ _ Hr) ltac:(fold n; lia)) as [F2 R2].
    eapply (ss_weaken _ _ _ _ _ _ _ _ _ _ _ _ _ _ _ Sch); [apply (ss_add _ _ _ _ _ _ _ _ _ _ _ _ _ _ _ Sch);
      [eapply (ss_rotate _ _ _ _ _ _ _ _ _ _ _ _ _ _ _ Sch); [exact Hc| |exact F1|exact R1]; lia
      |eapply (ss_rotate _ _ _ _ _ _ _ _ _ _ _ _ _ _ _ Sch); [exact Hr| |exact F2|exact R2]; lia]|lia|].
    intros z Hz. cbn beta. rewrite !(xpow_at n Hn) by lia.
    replace ((2 * n - 2 ^ i) mod n)%nat with (n - 2 ^ i)%nat
      by (replace (2 * n - 2 ^ i)%nat with ((n - 2 ^ i) + 1 * n)%nat by lia; rewrite Nat.mod_add by lia; symmetry; apply Nat.mod_small; lia).
    rewrite (Nat.mod_small (n - 2 ^ i) n) by lia.
    destruct (Nat.ltb_spec (2 * n - 2 ^ i) n); [lia|]. destruct (Nat.ltb_spec (n - 2 ^ i) n); [|lia].
    match goal with |- eqm _ ?a ?b => replace a with b; [apply eqm_refl'|] end.
    rewrite <- (sel_second SP L HSP i x sigma z Hi Hz). rewrite (neg1_mul SP L HSP i _ z Hi Hz). change (sp_len SP) with n. fold f.
    assert (D2 : (2 ^ (i + 1))%nat = (2 * 2 ^ i)%nat) by (rewrite Nat.add_1_r; reflexivity).
    assert (Half : forall y, (y < n)%nat -> f y - g y = if (y mod 2 ^ (i + 1) =? 0)%nat then 0 else 2 * f y).
    { intros y Hy. specialize (Hfg y Hy). destruct (_ =? _)%nat; lia. }
    assert (Sup : forall y, (y mod 2 ^ i =? 0)%nat = false -> f y = 0) by (intros y; apply sel_support).
    destruct (Nat.ltb_spec z (n - 2 ^ i)) as [Z1|Z1]; destruct (Nat.ltb_spec (z + 2 ^ i) n) as [Z2|Z2]; try lia.
    + replace (n + z - (n - 2 ^ i))%nat with (z + 2 ^ i)%nat by lia.
      transitivity (f (z + 2 ^ i)%nat - g (z + 2 ^ i)%nat); [|lia]. rewrite Half by exact Z2.
      destruct (Nat.eqb_spec (z mod 2 ^ (i + 1)) 0) as [M|M].
      * destruct (Nat.eqb_spec ((z + 2 ^ i) mod 2 ^ (i + 1)) 0) as [M'|M']; [|reflexivity]. exfalso.
        apply Nat.mod_divide in M; [|lia]. apply Nat.mod_divide in M'; [|lia]. destruct M as [a Ha], M' as [b Hb]. rewrite D2 in *.
        assert (2 * a + 1 = 2 * b)%nat; [|lia]. apply (Nat.mul_cancel_r _ _ (2 ^ i)); [lia|]. clear - Ha Hb. nia.
      * destruct (Nat.eqb_spec ((z + 2 ^ i) mod 2 ^ (i + 1)) 0) as [M'|M']; [reflexivity|].
        rewrite Sup; [reflexivity|]. apply Nat.eqb_neq. intros M2. apply Nat.mod_divide in M2; [|lia]. destruct M2 as [a Ha].
        destruct (Nat.Even_or_Odd a) as [[b Hb]|[b Hb]].
        -- apply M'. apply Nat.mod_divide; [lia|]. exists b. rewrite D2. nia.
        -- apply M. apply Nat.mod_divide; [lia|]. exists b. rewrite D2. nia.
    + replace (z - (n - 2 ^ i))%nat with (z + 2 ^ i - n)%nat by lia.
      transitivity (- (f (z + 2 ^ i - n)%nat - g (z + 2 ^ i - n)%nat)); [|lia]. rewrite Half by lia.
      pose proof (n_split SP L HSP i Hi) as S. change (sp_len SP) with n in S.
      destruct (Nat.eqb_spec (z mod 2 ^ (i + 1)) 0) as [M|M].
      * exfalso. apply Nat.mod_divide in M; [|lia]. destruct M as [a Ha]. rewrite D2 in *. set (w := (2 ^ (L - i - 1))%nat) in *.
        assert (2 * w <= 2 * a + 1)%nat by (apply (Nat.mul_le_mono_pos_r _ _ (2 ^ i)); [lia|]; clear - S Ha Z2; nia).
        assert (2 * a < 2 * w)%nat by (apply (Nat.mul_lt_mono_pos_r (2 ^ i)); [lia|]; clear - S Ha Hz; nia). lia.
      * destruct (Nat.eqb_spec ((z + 2 ^ i - n) mod 2 ^ (i + 1)) 0) as [M'|M']; [reflexivity|].
        rewrite Sup; [reflexivity|]. apply Nat.eqb_neq. intros M2. apply Nat.mod_divide in M2; [|lia]. destruct M2 as [a Ha].
        apply M'. assert (a = 0)%nat by nia. subst a. replace (z + 2 ^ i - n)%nat with 0%nat by lia. apply Nat.mod_0_l. lia.
Qed.

Lemma round_S : forall k, round_noise e0 A (S k) = 2 * round_noise e0 A k + 2 * A.
Proof using Sch HL Hq HA He0 Ht. intros k. unfold round_noise. rewrite Nat2Z.inj_succ, Z.pow_succ_r by lia. lia. Qed.
Lemma round_0 : round_noise e0 A 0 = e0.
Proof using Sch HL Hq HA He0 Ht. unfold round_noise. change (Z.of_nat 0) with 0. rewrite Z.pow_0_r. lia. Qed.
Lemma round_pos : forall k, 0 <= round_noise e0 A k.
Proof using Sch HL Hq HA He0 Ht. intros k. unfold round_noise. pose proof (Z.pow_pos_nonneg 2 (Z.of_nat k)). nia. Qed.
Lemma round_mono : forall k k', (k <= k')%nat -> round_noise e0 A k <= round_noise e0 A k'.
Proof using Sch HL Hq HA He0 Ht.
  intros k k' H. induction H as [|k' H IH]; [lia|]. rewrite round_S. pose proof (round_pos k'). lia.
Qed.

(** Entry x after i rounds. *)
Definition rounds (i : nat) (sigma : nat -> Z) (tmp : list cipher) : Prop :=
  length tmp = (2 ^ i)%nat /\ forall x, (x < 2 ^ i)%nat -> Enc (round_noise e0 A i) (nth x tmp []) (sel i x sigma).

Lemma rounds_loop : forall c sigma k, Enc e0 c sigma -> (k <= L)%nat ->
  exists tmp, loop k 0 (fun i tmp => let ps := map (expand_pair P galois cadd moduli i) tmp in Ok (map fst ps ++ map snd ps)) [c] = Ok tmp
    /\ rounds k sigma tmp.
Proof using Sch HL Hq HA He0 Ht.
  intros c sigma k Hc Hk.
  apply (loop_rule (list cipher) k 0 _ (fun i tmp => rounds i sigma tmp)).
  - split; [reflexivity|]. intros x Hx. cbn [Nat.pow] in Hx. assert (x = 0)%nat as -> by lia. cbn [nth].
    eapply (ss_weaken _ _ _ _ _ _ _ _ _ _ _ _ _ _ _ Sch); [exact Hc|rewrite round_0; lia|].
    intros z Hz. unfold sel. cbn [Nat.pow]. rewrite Nat.mod_1_r. cbn [Nat.eqb]. exists 0. change (Z.of_nat 0) with 0. rewrite Z.pow_0_r, Nat.add_0_l. lia.
  - intros i tmp Hi [Lt Ht']. eexists; split; [reflexivity|]. cbv zeta. split.
    + rewrite app_length, !map_length, Lt. replace (i + 1)%nat with (S i) by lia. cbn [Nat.pow]. lia.
    + intros x Hx. replace (i + 1)%nat with (S i) in Hx by lia. cbn [Nat.pow] in Hx. replace (i + 1)%nat with (S i) at 1 by lia. rewrite round_S.
      destruct (Nat.lt_ge_cases x (2 ^ i)) as [Hx'|Hx'].
      * rewrite app_nth1 by (rewrite !map_length; lia). rewrite (map_nth' (cipher * cipher) cipher fst _ ([], [])) by (rewrite map_length; lia).
        rewrite (map_nth' cipher (cipher * cipher) _ _ []) by lia. eapply pair_ok; [lia|apply Ht'; exact Hx'|intros z Hz; apply eqm_refl'].
      * rewrite app_nth2 by (rewrite !map_length; lia). rewrite !map_length, Lt. rewrite (map_nth' (cipher * cipher) cipher snd _ ([], [])) by (rewrite map_length; lia).
        rewrite (map_nth' cipher (cipher * cipher) _ _ []) by lia. replace x with ((x - 2 ^ i) + 2 ^ i)%nat at 2 by lia.
        eapply pair_ok; [lia|apply Ht'; lia|intros z Hz; apply eqm_refl'].
Qed.

Lemma sel_const : forall k m x sigma, (forall z, (m <= z)%nat -> sigma z = 0) -> (m <= 2 ^ k)%nat ->
  peq n T (sel k x sigma) (cpoly (2 ^ Z.of_nat k * sigma x)).
Proof using Sch HL Hq HA He0 Ht.
  clear. intros k m x sigma Hs Hm z Hz. unfold sel, cpoly. destruct z as [|z].
  - rewrite Nat.mod_0_l by (apply Nat.pow_nonzero; lia). cbn [Nat.eqb]. rewrite Nat.add_0_r. apply eqm_refl'.
  - destruct (Nat.eqb_spec (S z mod 2 ^ k) 0) as [M|M]; [|apply eqm_refl'].
    apply Nat.mod_divide in M; [|apply Nat.pow_nonzero; lia]. destruct M as [a Ha].
    assert (2 ^ k <= S z)%nat by (rewrite Ha; destruct a; [lia|]; cbn [Nat.mul]; lia). rewrite Hs by lia. rewrite Z.mul_0_r. apply eqm_refl'.
Qed.

Theorem expand_ok : forall c m sigma, Enc e0 c sigma -> (1 <= m <= n)%nat -> (forall z, (m <= z)%nat -> sigma z = 0) ->
  unless throws (fun l => length l = m /\ forall x, (x < m)%nat ->
      Enc (round_noise e0 A L) (nth x l []) (cpoly (2 ^ Z.of_nat (Nat.log2_up m) * sigma x)))
    (expand_query P galois cadd cmul moduli c m).
Proof using Sch HL Hq HA He0 Ht.
  intros c m sigma Hc Hm Hs. unfold expand_query. fold n. set (logm := Nat.log2_up m).
  assert (HLn : Nat.log2_up n = L) by (rewrite HL; apply Nat.log2_up_pow2; lia).
  assert (Hlm : (logm <= L)%nat) by (rewrite <- HLn; apply Nat.log2_up_le_mono; lia).
  assert (Hup : (m <= 2 ^ logm)%nat).
  { destruct (Nat.eq_dec m 1) as [->|M1]; [cbn; lia|]. apply Nat.log2_log2_up_spec. lia. }
  unfold enforce. rewrite HLn. destruct (Nat.leb_spec logm L) as [_|]; [|lia].
  destruct (Nat.eqb_spec logm 0) as [E0|E0].
  { apply unless_ok. rewrite E0 in Hup. cbn in Hup. assert (m = 1)%nat by lia. split; [cbn; lia|]. intros x Hx. assert (x = 0)%nat as -> by lia.
    cbn [nth]. eapply (ss_weaken _ _ _ _ _ _ _ _ _ _ _ _ _ _ _ Sch); [exact Hc| |].
    - etransitivity; [|apply (round_mono 0 L); lia]. rewrite round_0. lia.
    - intros z Hz. rewrite E0. change (Z.of_nat 0) with 0. rewrite Z.pow_0_r, Z.mul_1_l. unfold cpoly. destruct z; [apply eqm_refl'|].
      rewrite Hs by lia. apply eqm_refl'. }
  assert (Hlow : (2 ^ (logm - 1) < m)%nat).
  { pose proof (Nat.log2_up_spec m) as S. destruct (Nat.eq_dec m 1) as [M1|M1]; [subst m; cbn in E0; unfold logm in E0; cbn in E0; lia|].
    specialize (S ltac:(lia)). fold logm in S. replace (logm - 1)%nat with (pred logm) by lia. lia. }
  destruct (rounds_loop c sigma (logm - 1) Hc ltac:(lia)) as (tmp & Etmp & Ltmp & Htmp). 
  match goal with |- context [bind (loop ?a ?b ?f ?x) _] => change (loop a b f x) with (loop (logm - 1) 0 (fun i tmp => let ps := map (expand_pair P galois cadd moduli i) tmp in Ok (map fst ps ++ map snd ps)) [c]) end.
  rewrite Etmp. cbn [bind].
  set (k := (logm - 1)%nat) in *. assert (Ek : logm = S k) by lia. assert (Hup2 : (m <= 2 * 2 ^ k)%nat) by (rewrite Ek in Hup; exact Hup).
  eapply unless_bind; [apply (unless_map throws _ _ _ (fun jc (pr : cipher * cipher) =>
     (fst jc < 2 ^ k)%nat -> snd jc = nth (fst jc) tmp [] ->
     Enc (round_noise e0 A (S k)) (fst pr) (cpoly (2 ^ Z.of_nat logm * sigma (fst jc))) /\
     ((fst jc < m - 2 ^ k)%nat -> Enc (round_noise e0 A (S k)) (snd pr) (cpoly (2 ^ Z.of_nat logm * sigma (fst jc + 2 ^ k)%nat)))))|].
  - intros [j cj] Hjc. cbn [fst snd]. assert (Hj : (j < 2 ^ k)%nat /\ cj = nth j tmp []).
    { apply (In_nth _ _ (0%nat, [])) in Hjc as (i & Hi & Ei). rewrite combine_length, seq_length, Nat.min_id in Hi.
      rewrite nth_combine_seq in Ei by exact Hi. injection Ei as <- <-. split; [lia|reflexivity]. }
    destruct Hj as [Hj ->]. pose proof (Htmp j Hj) as Hcj.
    destruct (Nat.ltb_spec j (m - 2 ^ k)) as [Hjm|Hjm].
    + apply unless_ok. intros _ _. cbn [fst snd].
      destruct (pair_ok k j _ _ _ sigma ltac:(lia) Hcj ltac:(intros z Hz; apply eqm_refl')) as [P1 P2].
      rewrite Ek, round_S. replace (S k) with (k + 1)%nat by lia. split; [|intros _];
        (eapply (ss_weaken _ _ _ _ _ _ _ _ _ _ _ _ _ _ _ Sch); [eassumption|lia|apply (sel_const (k + 1) m); [exact Hs|]]);
        replace (k + 1)%nat with (S k) by lia; exact Hup2.
    + eapply unless_bind; [apply (ss_plain _ _ _ _ _ _ _ _ _ _ _ _ _ _ _ Sch _ _ _ [2%N] Hcj)|].
      * split; [cbn; pose proof Hn0; lia|constructor; [lia|constructor]].
      * intros y Hy. apply unless_ok. intros _ _. cbn [fst snd]. split; [|lia].
        eapply (ss_weaken _ _ _ _ _ _ _ _ _ _ _ _ _ _ _ Sch); [exact Hy|cbn [weight fold_right]; rewrite round_S; lia|].
        intros z Hz. rewrite (nega_comm n Hn0) by exact Hz. change (negacyclic n) with (pmul n).
        assert (Q2 : pmul n (lpoly [2%N]) (sel k j sigma) z = pmul n (pconst 2) (sel k j sigma) z).
        { apply nega_ext; [|reflexivity|exact Hz]. intros [|[|i]] Hi; reflexivity. }
        rewrite Q2, (const_mul n Hn0) by exact Hz. unfold sel, cpoly. rewrite Ek.
        rewrite Nat2Z.inj_succ, Z.pow_succ_r by lia. destruct z as [|z].
        -- rewrite Nat.mod_0_l by (apply Nat.pow_nonzero; lia). cbn [Nat.eqb]. rewrite Nat.add_0_r. exists 0. lia.
        -- destruct (Nat.eqb_spec (S z mod 2 ^ k) 0) as [M|M]; [|exists 0; lia].
           apply Nat.mod_divide in M; [|apply Nat.pow_nonzero; lia]. destruct M as [a Ha].
           assert (2 ^ k <= S z)%nat by (rewrite Ha; destruct a; [lia|]; cbn [Nat.mul]; lia). rewrite Hs by lia. exists 0. lia.
  - intros ps Hps. cbn beta in Hps. apply unless_ok. destruct (Forall2_nth' _ _ _ _ _ Hps) as [Lps Nps]. rewrite combine_length, seq_length, Nat.min_id in *.
    assert (Hlen : (length (map fst ps ++ map snd ps) = 2 * 2 ^ k)%nat) by (rewrite app_length, !map_length; lia).
    split; [rewrite firstn_length_le; lia|]. intros x Hx. rewrite nth_firstn_lt' by lia.
    eapply (ss_weaken _ _ _ _ _ _ _ _ _ _ _ _ _ _ _ Sch); [|apply (round_mono (S k) L); lia|intros z Hz; apply eqm_refl'].
    destruct (Nat.lt_ge_cases x (2 ^ k)) as [Hx'|Hx'].
    + rewrite app_nth1 by (rewrite map_length; lia). rewrite (map_nth' (cipher * cipher) cipher fst _ ([], [])) by lia.
      specialize (Nps x (0%nat, []) ([], []) ltac:(lia)). rewrite (nth_combine_seq cipher) in Nps by (rewrite Ltmp; lia). cbn [fst snd] in Nps. rewrite Nat.add_0_l in Nps. apply Nps; [exact Hx'|reflexivity].
    + rewrite app_nth2 by (rewrite map_length; lia). rewrite map_length, <- Lps, Ltmp. rewrite (map_nth' (cipher * cipher) cipher snd _ ([], [])) by lia.
      specialize (Nps (x - 2 ^ k)%nat (0%nat, []) ([], []) ltac:(lia)). rewrite (nth_combine_seq cipher) in Nps by (rewrite Ltmp; lia). cbn [fst snd] in Nps. rewrite Nat.add_0_l in Nps.
      destruct (Nps ltac:(lia) eq_refl) as [_ N2]. replace (x - 2 ^ k + 2 ^ k)%nat with x in N2 by lia. apply N2. lia.
Qed.

(** * One dimension *)


Lemma total_ok : forall ni, (1 <= ni)%nat -> let num := ceil_div ni n in
  (1 <= num)%nat /\ ((num - 1) * n < ni <= num * n)%nat
  /\ (forall j, (j < num - 1)%nat -> dim_total P ni num j = n) /\ dim_total P ni num (num - 1) = (ni - (num - 1) * n)%nat.
Proof using HL Sch Hq HA He0 Ht.
  intros ni Hni num. pose proof Hn0 as Hn. unfold num, ceil_div. fold n.
  pose proof (Nat.div_mod (ni + n - 1) n ltac:(lia)) as D. pose proof (Nat.mod_upper_bound (ni + n - 1) n ltac:(lia)) as B.
  set (q := ((ni + n - 1) / n)%nat) in *. set (r := ((ni + n - 1) mod n)%nat) in *.
  assert (Hq1 : (1 <= q)%nat) by (destruct q; lia).
  assert (Hlo : ((q - 1) * n < ni)%nat) by (rewrite Nat.mul_sub_distr_r; lia).
  split; [exact Hq1|]. split; [lia|]. split.
  - intros j Hj. unfold dim_total. fold n. destruct (Nat.eqb_spec j (q - 1)); [lia|reflexivity].
  - unfold dim_total. fold n. rewrite Nat.eqb_refl. cbn [andb].
    set (x := (ni - (q - 1) * n)%nat). assert (Ex : ni = (x + (q - 1) * n)%nat) by (unfold x; lia).
    assert (Hx : (1 <= x <= n)%nat) by (unfold x; rewrite Nat.mul_sub_distr_r in *; lia).
    rewrite Ex at 1. rewrite Nat.mod_add by lia. destruct (Nat.eq_dec x n) as [E1|E1].
    + rewrite E1. rewrite Nat.mod_same by lia. cbn [Nat.eqb negb]. reflexivity.
    + rewrite Nat.mod_small by lia. destruct (Nat.eqb_spec x 0); [lia|]. cbn [negb]. rewrite Ex, Nat.mod_add, Nat.mod_small by lia. reflexivity.
Qed.
Lemma total_bounds : forall ni j, (1 <= ni)%nat -> (j < ceil_div ni n)%nat -> (1 <= dim_total P ni (ceil_div ni n) j <= n)%nat.
Proof using HL Sch Hq HA He0 Ht.
  intros ni j Hni Hj. destruct (total_ok ni Hni) as (H1 & H2 & H3 & H4). pose proof Hn0.
  destruct (Nat.eq_dec j (ceil_div ni n - 1)) as [->|Hn'].
  - rewrite H4. rewrite Nat.mul_sub_distr_r in *. lia.
  - rewrite H3 by lia. lia.
Qed.

(** The query of one dimension. *)
Definition dim_query (ni idx : nat) (q : list cipher) : Prop :=
  length q = ceil_div ni n /\ forall j, (j < ceil_div ni n)%nat -> exists p, Enc e0 (nth j q []) (lpoly p)
    /\ (forall z, (dim_total P ni (ceil_div ni n) j <= z)%nat -> lpoly p z = 0)
    /\ (forall z, (z < n)%nat -> eqm T (2 ^ Z.of_nat (Nat.log2_up (dim_total P ni (ceil_div ni n) j)) * lpoly p z) (if (j * n + z =? idx)%nat then 1 else 0)).

Variable invert : N -> N -> option N.
Hypothesis Hinv : forall k, (k <= L)%nat -> exists v, invert (2 ^ N.of_nat k)%N t = Some v /\ (v < t)%N /\ eqm T (2 ^ Z.of_nat k * Z.of_N v) 1.

Lemma query_poly_ok : forall ni j idx, (idx < ni)%nat -> (j < ceil_div ni n)%nat ->
  exists p, query_poly P t invert ni (ceil_div ni n) j idx = Ok p /\ plain n t p
    /\ (forall z, (dim_total P ni (ceil_div ni n) j <= z)%nat -> lpoly p z = 0)
    /\ (forall z, (z < n)%nat -> eqm T (2 ^ Z.of_nat (Nat.log2_up (dim_total P ni (ceil_div ni n) j)) * lpoly p z) (if (j * n + z =? idx)%nat then 1 else 0)).
Proof using HL Sch Hq HA He0 Ht Hinv.
  intros ni j idx Hidx Hj. destruct (total_ok ni ltac:(lia)) as (H1 & H2 & H3 & H4). pose proof (total_bounds ni j ltac:(lia) Hj) as Hb.
  set (m := dim_total P ni (ceil_div ni n) j) in *.
  assert (Hlm : (Nat.log2_up m <= L)%nat) by (transitivity (Nat.log2_up n); [apply Nat.log2_up_le_mono; lia|rewrite HL, Nat.log2_up_pow2; lia]).
  destruct (Hinv _ Hlm) as (v & Ev & Bv & Iv).
  assert (Z0 : forall z, lpoly (repeat 0%N n) z = 0) by (intros z; unfold lpoly; rewrite nth_repeat; reflexivity).
  unfold query_poly. fold n. fold m.
  destruct (Nat.leb_spec (j * n) idx) as [B1|B1]; [destruct (Nat.ltb_spec idx ((j + 1) * n)) as [B2|B2]|]; cbn [andb].
  - rewrite Ev. cbn [of_option bind].
    destruct (put_lt N 0%N (idx - j * n) v (repeat 0%N n)) as (p & Ep & Lp & Np); [rewrite repeat_length; lia|].
    rewrite Ep. exists p. rewrite repeat_length in Lp.
    assert (Vp : forall z, lpoly p z = if (z =? idx - j * n)%nat then Z.of_N v else 0).
    { intros z. unfold lpoly. rewrite Np, nth_repeat. destruct (z =? idx - j * n)%nat; reflexivity. }
    split; [reflexivity|]. split; [|split].
    + split; [lia|]. apply Forall_forall. intros x Hx. apply (In_nth _ _ 0%N) in Hx as (k & Hk & <-). rewrite Np, nth_repeat. destruct (_ =? _)%nat; lia.
    + intros z Hz. rewrite Vp. destruct (Nat.eqb_spec z (idx - j * n)) as [Ez|]; [|reflexivity]. exfalso.
      destruct (Nat.eq_dec j (ceil_div ni n - 1)) as [Ej|Ej].
      * unfold m in Hz. rewrite Ej in Hz, Ez, B1. rewrite H4 in Hz. lia.
      * unfold m in Hz. rewrite H3 in Hz by lia. rewrite Nat.mul_add_distr_r in B2. lia.
    + intros z Hz. rewrite Vp. destruct (Nat.eqb_spec z (idx - j * n)); destruct (Nat.eqb_spec (j * n + z) idx); try lia.
      * exact Iv.
      * rewrite Z.mul_0_r. apply eqm_refl'.
  - exists (repeat 0%N n). split; [reflexivity|]. split; [|split; [auto|]].
    + split; [rewrite repeat_length; lia|]. apply Forall_forall. intros x Hx. apply repeat_spec in Hx. lia.
    + intros z Hz. rewrite Z0. destruct (Nat.eqb_spec (j * n + z) idx); [rewrite Nat.mul_add_distr_r in B2; lia|]. rewrite Z.mul_0_r. apply eqm_refl'.
  - exists (repeat 0%N n). split; [reflexivity|]. split; [|split; [auto|]].
    + split; [rewrite repeat_length; lia|]. apply Forall_forall. intros x Hx. apply repeat_spec in Hx. lia.
    + intros z Hz. rewrite Z0. destruct (Nat.eqb_spec (j * n + z) idx); [lia|]. rewrite Z.mul_0_r. apply eqm_refl'.
Qed.

Lemma query_dim_ok : forall ni idx (rnd : nat -> nat), (idx < ni)%nat ->
  exists q, map_out (fun j => do pt <- query_poly P t invert ni (ceil_div ni n) j idx; Ok (encrypt (rnd j) pt)) (seq 0 (ceil_div ni n)) = Ok q
    /\ dim_query ni idx q.
Proof using HL Sch Hq HA He0 Ht Hinv.
  intros ni idx rnd Hidx.
  pose proof (unless_map_seq false cipher (fun j => do pt <- query_poly P t invert ni (ceil_div ni n) j idx; Ok (encrypt (rnd j) pt))
    (fun j c => exists p, Enc e0 c (lpoly p) /\ (forall z, (dim_total P ni (ceil_div ni n) j <= z)%nat -> lpoly p z = 0)
      /\ (forall z, (z < n)%nat -> eqm T (2 ^ Z.of_nat (Nat.log2_up (dim_total P ni (ceil_div ni n) j)) * lpoly p z) (if (j * n + z =? idx)%nat then 1 else 0)))
    (ceil_div ni n)) as M.
  destruct M as [(q & Eq & Lq & Nq)|[X _]]; [|exists q; split; [exact Eq|split; [exact Lq|intros j Hj; apply Nq; exact Hj]]|discriminate].
  intros j Hj. destruct (query_poly_ok ni j idx Hidx Hj) as (p & Ep & Pp & Zp & Vp). rewrite Ep. cbn [bind]. apply unless_ok. exists p. split; [|split; assumption].
  apply (ss_encrypt _ _ _ _ _ _ _ _ _ _ _ _ _ _ _ Sch). exact Pp.
Qed.

Theorem expand_dim_ok : forall ni idx q, (idx < ni)%nat -> dim_query ni idx q ->
  unless throws (fun e => length e = ni /\ forall y, (y < ni)%nat -> Enc (round_noise e0 A L) (nth y e []) (cpoly (if (y =? idx)%nat then 1 else 0)))
    (expand_dim P galois cadd cmul moduli ni q).
Proof using HL Sch Hq HA He0 Ht.
  clear invert Hinv.  intros ni idx q Hidx [Lq Hqq]. destruct (total_ok ni ltac:(lia)) as (H1 & H2 & H3 & H4). pose proof Hn0 as Hn.
  unfold expand_dim. rewrite Lq. set (num := ceil_div ni n) in *.
  eapply unless_bind; [apply (unless_map_seq throws _ _ (fun j l => length l = dim_total P ni num j /\ forall x, (x < dim_total P ni num j)%nat ->
      Enc (round_noise e0 A L) (nth x l []) (cpoly (if (j * n + x =? idx)%nat then 1 else 0))))|].
  - intros j Hj. rewrite (get_lt' cipher [] j q num Lq) by lia. cbn [bind].
    destruct (Hqq j Hj) as (p & Ep & Zp & Vp). pose proof (total_bounds ni j ltac:(lia) Hj) as Hb. fold num in Hb.
    eapply unless_weaken; [apply (expand_ok _ _ (lpoly p) Ep Hb Zp)|]. intros l [Ll Nl]. split; [exact Ll|]. intros x Hx.
    eapply (ss_weaken _ _ _ _ _ _ _ _ _ _ _ _ _ _ _ Sch); [apply Nl; exact Hx|lia|].
    intros z Hz. unfold cpoly. destruct z; [apply Vp; lia|apply eqm_refl'].
  - intros es [Les Nes].
    assert (Lall : forall i, (i < num)%nat -> length (nth i es []) = dim_total P ni num i) by (intros i Hi; apply (Nes i [] Hi)).
    assert (Lc : length (concat es) = ni).
    { rewrite (concat_len_fixed _ es n (num - 1)); [|transitivity num; [exact Les|lia]|intros i Hi; rewrite Lall by lia; apply H3; exact Hi]. rewrite Lall, H4 by lia. lia. }
    unfold enforce. rewrite Lc, Nat.eqb_refl. apply unless_ok. split; [exact Lc|]. intros y Hy.
    set (j := (y / n)%nat). set (x := (y mod n)%nat). pose proof (Nat.div_mod y n ltac:(lia)) as D. fold j x in D.
    pose proof (Nat.mod_upper_bound y n ltac:(lia)) as Bx. fold x in Bx.
    assert (Hj : (j < num)%nat) by (apply Nat.div_lt_upper_bound; lia).
    assert (Hx : (x < dim_total P ni num j)%nat).
    { destruct (Nat.eq_dec j (num - 1)) as [Ej|Ej]; [rewrite Ej, H4; rewrite <- Ej; lia|rewrite H3 by lia; exact Bx]. }
    replace y with (j * n + x)%nat by lia. rewrite nth_concat_fixed; [apply (Nes j [] Hj); exact Hx| |eapply Nat.lt_le_trans; [exact Hj|apply Nat.eq_le_incl; symmetry; exact Les]|rewrite Lall by exact Hj; exact Hx].
    intros i Hi. rewrite Lall by lia. apply H3. lia.
Qed.

(** * The sum of products *)

Lemma weight_bound : forall p, plain n t p -> 0 <= weight p <= Z.of_nat n * Z.of_N t.
Proof using.
  clear. intros p [Lp Hp]. assert (G : 0 <= weight p <= Z.of_nat (length p) * Z.of_N t).
  { clear Lp. induction Hp as [|x p Hx _ IH]; cbn [weight fold_right length]; [lia|]. fold (weight p). nia. }
  nia.
Qed.

Theorem select_ok : forall ni idx prod e cur k, (idx < ni)%nat -> length cur = (ni * prod)%nat -> Forall (plain n t) cur -> (k < prod)%nat ->
  length e = ni -> (forall y, (y < ni)%nat -> Enc (round_noise e0 A L) (nth y e []) (cpoly (if (y =? idx)%nat then 1 else 0))) ->
  unless throws (fun c => Enc (level_noise n t e0 A L ni) c (lpoly (nth (idx * prod + k) cur []))) (select_column cadd cmul ni prod e cur k).
Proof using HL Sch Hq HA He0 Ht.
  clear invert Hinv.  intros ni idx prod e cur k Hidx Lcur Pcur Hk Le He. pose proof Hn0 as Hn. set (R := round_noise e0 A L) in *.
  set (W := Z.of_nat n * Z.of_N t).
  assert (HR : 0 <= R) by apply round_pos.
  assert (Term : forall j, (j < ni)%nat -> unless throws (fun c => Enc (W * R + A) c
     (fun z => if (j =? idx)%nat then lpoly (nth (idx * prod + k) cur []) z else 0)) (cmul (nth j e []) (nth (j * prod + k) cur []))).
  { intros j Hj. assert (Pj : plain n t (nth (j * prod + k) cur [])) by (rewrite Forall_forall in Pcur; apply Pcur, nth_In; nia).
    eapply unless_weaken; [apply (ss_plain _ _ _ _ _ _ _ _ _ _ _ _ _ _ _ Sch _ _ _ _ (He j Hj) Pj)|]. intros c Hc.
    eapply (ss_weaken _ _ _ _ _ _ _ _ _ _ _ _ _ _ _ Sch); [exact Hc| |].
    - pose proof (weight_bound _ Pj). fold W in H. nia.
    - intros z Hz. change (negacyclic n) with (pmul n).
      change (cpoly (if (j =? idx)%nat then 1 else 0)) with (pconst (if (j =? idx)%nat then 1 else 0)). rewrite (const_mul n Hn) by exact Hz. destruct (Nat.eqb_spec j idx) as [->|]; exists 0; lia. }
  unfold select_column. rewrite (get_lt' cipher [] 0 e ni Le) by lia. cbn [bind]. rewrite (get_lt' (list N) [] k cur _ Lcur) by nia. cbn [bind].
  eapply unless_bind; [exact (Term 0%nat ltac:(lia))|]. intros acc0 Hacc0. cbn beta in Hacc0.
  set (Q := fun (j : nat) (c : cipher) => Enc (Z.of_nat j * (W * R + 2 * A)) c (fun z => if (idx <? j)%nat then lpoly (nth (idx * prod + k) cur []) z else 0)).
  eapply unless_weaken; [apply (unless_loop throws cipher (ni - 1) 1 _ Q)|].
  - unfold Q. eapply (ss_weaken _ _ _ _ _ _ _ _ _ _ _ _ _ _ _ Sch); [exact Hacc0|lia|]. intros z Hz.
    destruct (Nat.eqb_spec 0 idx); destruct (Nat.ltb_spec idx 1); try lia; apply eqm_refl'.
  - intros j acc Hj Hacc. unfold Q in Hacc. rewrite (get_lt' cipher [] j e ni Le) by lia. cbn [bind]. rewrite (get_lt' (list N) [] (j * prod + k) cur _ Lcur) by nia. cbn [bind].
    eapply unless_bind; [apply Term; lia|]. intros tmp Htmp. cbn beta in Htmp. apply unless_ok. unfold Q.
    eapply (ss_weaken _ _ _ _ _ _ _ _ _ _ _ _ _ _ _ Sch); [apply (ss_add _ _ _ _ _ _ _ _ _ _ _ _ _ _ _ Sch); [exact Hacc|exact Htmp]|nia|].
    intros z Hz. cbn beta. destruct (Nat.ltb_spec idx j); destruct (Nat.eqb_spec j idx); destruct (Nat.ltb_spec idx (j + 1)); try lia; exists 0; lia.
  - intros c Hc. unfold Q in Hc. eapply (ss_weaken _ _ _ _ _ _ _ _ _ _ _ _ _ _ _ Sch); [exact Hc| |].
    + unfold level_noise. fold R W. replace (1 + (ni - 1))%nat with ni by lia. lia.
    + intros z Hz. replace (1 + (ni - 1))%nat with ni by lia. destruct (Nat.ltb_spec idx ni); [apply eqm_refl'|lia].
Qed.
End Expand.
