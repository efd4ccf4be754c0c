(** Supporting lemmas for C69: what MultiplyPowerOfX and ExpandQuery compute. *)
From Coq Require Import List Arith NArith ZArith Lia Bool.
From Verif Require Import Base StoreModel StoreProofs Text PirPackModel PirPackProofs PirPackProofs2 SpLoopModel SpLoopProofs NttModel
  SpArithModel SpDecodeSpec SpRingSpec SpDecodeProofs2 SpRingModel SpRingProofs SpRingProofs2 SpSelModel SpSelProofs3 SpSrvProofs1 NttProofs
  SealPirModel SealPirSpec SealPirProofs1 SealPirProofs2 SealPirProofs3.
Import ListNotations.

(** * unless *)

Lemma unless_ok : forall th A (Q : A -> Prop) x, Q x -> unless th Q (Ok x).
Proof. intros. left. eauto. Qed.
Lemma unless_bind : forall th A B (Q : A -> Prop) (R : B -> Prop) o f, unless th Q o -> (forall x, Q x -> unless th R (f x)) -> unless th R (bind o f).
Proof. intros th A B Q R o f [(x & -> & Hx)|(Ht & ->)] H; [apply H; exact Hx|right; split; [exact Ht|reflexivity]]. Qed.
Lemma unless_weaken : forall th A (Q R : A -> Prop) o, unless th Q o -> (forall x, Q x -> R x) -> unless th R o.
Proof. intros th A Q R o [(x & -> & Hx)|H] W; [left; eauto|right; exact H]. Qed.
Lemma unless_loop : forall th (S : Type) n s (f : nat -> S -> outcome S) (P : nat -> S -> Prop) st,
  P s st -> (forall i st, s <= i < s + n -> P i st -> unless th (P (i + 1)) (f i st)) -> unless th (P (s + n)) (loop n s f st).
Proof.
  intros th S n. induction n as [|n IH]; intros s f P st H0 Hs; cbn [loop].
  - apply unless_ok. rewrite Nat.add_0_r. exact H0.
  - apply (unless_bind th S S (P (s + 1))); [apply Hs; [lia|exact H0]|]. intros st1 H1.
    replace (s + Datatypes.S n) with (Datatypes.S s + n) by lia. apply IH; [replace (Datatypes.S s) with (s + 1) by lia; exact H1|].
    intros i st2 Hi. apply Hs. lia.
Qed.
Lemma unless_map : forall th (A B : Type) (f : A -> outcome B) (Q : A -> B -> Prop) l, (forall x, In x l -> unless th (Q x) (f x)) ->
  unless th (fun r => Forall2 Q l r) (map_out f l).
Proof.
  intros th A B f Q l. induction l as [|x l IH]; intros H; cbn [map_out]; [apply unless_ok; constructor|].
  apply (unless_bind th B _ (Q x)); [apply H; left; reflexivity|]. intros y Hy.
  apply (unless_bind th _ _ (fun r => Forall2 Q l r)); [apply IH; intros z Hz; apply H; right; exact Hz|]. intros r Hr. apply unless_ok. constructor; assumption.
Qed.
Lemma Forall2_nth' : forall (A B : Type) (Q : A -> B -> Prop) l r, Forall2 Q l r -> length l = length r
  /\ forall i da db, i < length l -> Q (nth i l da) (nth i r db).
Proof.
  intros A B Q l r H. induction H as [|x y l r Hx _ IH]; [split; [reflexivity|cbn; intros; lia]|]. destruct IH as [E IH].
  split; [cbn; lia|]. intros [|i] da db Hi; cbn [nth]; [exact Hx|apply IH; cbn in Hi; lia].
Qed.
Lemma unless_map_seq : forall th (B : Type) (f : nat -> outcome B) (Q : nat -> B -> Prop) k, (forall i, i < k -> unless th (Q i) (f i)) ->
  unless th (fun r => length r = k /\ forall i d, i < k -> Q i (nth i r d)) (map_out f (seq 0 k)).
Proof.
  intros th B f Q k H. eapply unless_weaken; [apply (unless_map th nat B f Q); intros x Hx; apply in_seq in Hx; apply H; lia|].
  intros r Hr. destruct (Forall2_nth' _ _ _ _ _ Hr) as [E N]. rewrite seq_length in *. split; [lia|].
  intros i d Hi. specialize (N i 0 d Hi). rewrite seq_nth in N by exact Hi. exact N.
Qed.

Local Open Scope Z_scope.

(** * X^s *)

Section Ring.
Variable n : nat.
Hypothesis Hn : (0 < n)%nat.

Lemma nega_ext : forall a a' b b' z, (forall i, (i < n)%nat -> a i = a' i) -> (forall i, (i < n)%nat -> b i = b' i) -> (z < n)%nat ->
  negacyclic n a b z = negacyclic n a' b' z.
Proof using.
  clear Hn. intros a a' b b' z Ha Hb Hz. unfold negacyclic. apply zsum_ext. intros i Hi. destruct (Nat.leb_spec i z).
  - rewrite Ha, Hb by lia. reflexivity.
  - rewrite Ha, Hb by lia. reflexivity.
Qed.
Lemma nega_opp : forall a b z, negacyclic n (fun i => - a i) b z = - negacyclic n a b z.
Proof using.
  clear Hn.  intros a b z. unfold negacyclic. replace (- zsum n (fun i => if (i <=? z)%nat then a i * b (z - i)%nat else - (a i * b (n + z - i)%nat)))
    with (-1 * zsum n (fun i => if (i <=? z)%nat then a i * b (z - i)%nat else - (a i * b (n + z - i)%nat))) by lia.
  rewrite <- zsum_scale. apply zsum_ext. intros i Hi. destruct (i <=? z)%nat; lia.
Qed.

Lemma nega_comm : forall a b z, (z < n)%nat -> negacyclic n a b z = negacyclic n b a z.
Proof using Hn.
  intros a b z Hz. pose proof (mul_comm_ext n Hn a b (Z.of_nat z)) as M. rewrite !(ext_nat n Hn) in M by exact Hz. exact M.
Qed.
Lemma mono_at : forall k a z, (k < n)%nat -> (z < n)%nat ->
  negacyclic n (pmono k) a z = if (z <? k)%nat then - a (n + z - k)%nat else a (z - k)%nat.
Proof using Hn.
  intros k a z Hk Hz. pose proof (mono_mul n Hn k a (Z.of_nat z) Hk) as M. rewrite (ext_nat n Hn) in M by exact Hz.
  unfold pmul in M. rewrite M. destruct (Nat.ltb_spec z k).
  - pose proof (ext_anti n Hn a (Z.of_nat z - Z.of_nat k)) as X.
    replace (Z.of_nat z - Z.of_nat k + Z.of_nat n) with (Z.of_nat (n + z - k)) in X by lia. rewrite (ext_nat n Hn) in X by lia. lia.
  - replace (Z.of_nat z - Z.of_nat k) with (Z.of_nat (z - k)) by lia. apply ext_nat; lia.
Qed.

Lemma xpow_at : forall s a z, (s < 2 * n)%nat -> (z < n)%nat ->
  negacyclic n (xpow n s) a z = (if (s <? n)%nat then 1 else -1) * (if (z <? s mod n)%nat then - a (n + z - s mod n)%nat else a (z - s mod n)%nat).
Proof using Hn.
  intros s a z Hs Hz. assert (Hm : (s mod n < n)%nat) by (apply Nat.mod_upper_bound; lia).
  rewrite <- mono_at by assumption. destruct (Nat.ltb_spec s n).
  - rewrite Z.mul_1_l. apply nega_ext; [|reflexivity|exact Hz]. intros i Hi. unfold xpow, pmono.
    destruct (Nat.ltb_spec s n); [reflexivity|lia].
  - replace (-1 * negacyclic n (pmono (s mod n)) a z) with (- negacyclic n (pmono (s mod n)) a z) by lia. rewrite <- nega_opp.
    apply nega_ext; [|reflexivity|exact Hz]. intros i Hi. unfold xpow, pmono. destruct (Nat.ltb_spec s n); [lia|].
    destruct (Nat.eqb i (s mod n)); reflexivity.
Qed.
End Ring.

(** * MultiplyPowerOfX *)

Lemma concat_fixed_at : forall (f : nat -> list N) n K s tl j, (forall i, (i < s + K)%nat -> length (f i) = n) -> (j < K)%nat ->
  firstn n (skipn (j * n) (concat (map f (seq s K)) ++ tl)) = f (s + j)%nat.
Proof.
  intros f n. induction K as [|K IH]; intros s tl j Hf Hj; [lia|]. cbn [seq map concat]. rewrite <- app_assoc.
  destruct j as [|j].
  - cbn [Nat.mul]. rewrite skipn_O, firstn_app, Hf, Nat.sub_diag, firstn_O, app_nil_r by lia. rewrite Nat.add_0_r.
    rewrite <- (Hf s) at 1 by lia. apply firstn_all.
  - rewrite skipn_app, Hf by lia. rewrite skipn_all2 by (rewrite Hf by lia; lia). cbn [app].
    replace (S j * n - n)%nat with (j * n)%nat by lia. rewrite IH; [f_equal; lia| |lia]. intros i Hi. apply Hf. lia.
Qed.
Lemma concat_fixed_len : forall (f : nat -> list N) n K s, (forall i, (i < s + K)%nat -> length (f i) = n) -> length (concat (map f (seq s K))) = (K * n)%nat.
Proof.
  intros f n. induction K as [|K IH]; intros s H; [reflexivity|]. cbn [seq map concat]. rewrite app_length, H, IH by (try lia; intros; apply H; lia). lia.
Qed.

Lemma eqm_refl' : forall m a, eqm m a a.
Proof. intros m a. exists 0. lia. Qed.

Section Mulx.
Variable P : seal_params.
Let n := sl_n P.
Variable moduli : list N.
Hypothesis Hn : (0 < n)%nat.
Hypothesis Hq : Forall (fun q => (0 < q < 2 ^ 64)%N) moduli.

Lemma mulx_len : forall s q w, length (mulx_words P s q w) = n.
Proof using. intros s q w. unfold mulx_words, shift_words. destruct (_ <=? _)%nat; rewrite map_length, seq_length; reflexivity. Qed.

Lemma sub_le : forall q x, (0 < q < 2 ^ 64)%N -> (x <= q)%N -> sub_u64 q x = (q - x)%N.
Proof using. clear. intros q x Hq Hx. apply sub_u64_small; lia. Qed.

Lemma shift_at : forall q s w k, length w = n -> (0 < q < 2 ^ 64)%N -> Forall (fun x => (x <= q)%N) w -> (s < n)%nat -> (k < n)%nat ->
  (shift_word P q s w k <= q)%N
  /\ eqm (Z.of_N q) (Z.of_N (shift_word P q s w k)) (if (k <? s)%nat then - lpoly w (n + k - s)%nat else lpoly w (k - s)%nat).
Proof using.
  clear Hn Hq.  intros q s w k Lw Hq Hw Hs Hk. rewrite Forall_forall in Hw. unfold shift_word, lpoly. fold n.
  destruct (Nat.ltb_spec k s).
  - pose proof (Hw _ (nth_In w 0%N (n:=n + k - s) ltac:(lia))) as B. set (x := nth (n + k - s) w 0%N) in *.
    destruct (N.eqb_spec x 0) as [E|E].
    + rewrite E. split; [lia|]. exists 0. lia.
    + rewrite sub_le by assumption. split; [lia|]. exists 1. lia.
  - split; [apply Hw, nth_In; lia|apply eqm_refl'].
Qed.

Lemma mulx_words_ok : forall s q w, length w = n -> (0 < q < 2 ^ 64)%N -> Forall (fun x => (x <= q)%N) w -> (s < 2 * n)%nat ->
  Forall (fun x => (x <= q)%N) (mulx_words P s q w)
  /\ peq n (Z.of_N q) (lpoly (mulx_words P s q w)) (negacyclic n (xpow n s) (lpoly w)).
Proof using Hn.
  intros s q w Lw Hqq Hw Hs. assert (Hm : (s mod n < n)%nat) by (apply Nat.mod_upper_bound; lia).
  unfold mulx_words. fold n. destruct (Nat.leb_spec n s) as [Hl|Hl]; unfold shift_words; fold n.
  - set (w' := map (fun x => sub_u64 q x) w). assert (Lw' : length w' = n) by (unfold w'; rewrite map_length; exact Lw).
    assert (Hw' : Forall (fun x => (x <= q)%N) w').
    { unfold w'. apply Forall_forall. intros y Hy. apply in_map_iff in Hy as (x & <- & Hx). rewrite Forall_forall in Hw. rewrite sub_le by auto. lia. }
    split.
    + apply Forall_forall. intros y Hy. apply in_map_iff in Hy as (k & <- & Hk). apply in_seq in Hk. apply shift_at; auto; lia.
    + intros z Hz. unfold lpoly at 1. rewrite (map_nth' _ _ _ _ 0%nat) by (rewrite seq_length; exact Hz). rewrite seq_nth by exact Hz. rewrite Nat.add_0_l.
      destruct (shift_at q (s mod n) w' z Lw' Hqq Hw' Hm Hz) as [_ [c Hc]]. rewrite xpow_at by (assumption || lia).
      destruct (Nat.ltb_spec s n); [lia|]. rewrite Hc.
      assert (V : forall i, (i < n)%nat -> lpoly w' i = Z.of_N q - lpoly w i).
      { intros i Hi. unfold lpoly, w'. rewrite (map_nth' _ _ _ _ 0%N) by lia. rewrite Forall_forall in Hw.
        pose proof (Hw _ (nth_In w 0%N (n:=i) ltac:(lia))). rewrite sub_le by assumption. lia. }
      destruct (Nat.ltb_spec z (s mod n)); rewrite V by lia; [exists (c - 1); lia|exists (c + 1); lia].
  - rewrite Nat.mod_small in * by lia. split.
    + apply Forall_forall. intros y Hy. apply in_map_iff in Hy as (k & <- & Hk). apply in_seq in Hk. apply shift_at; auto; lia.
    + intros z Hz. unfold lpoly at 1. rewrite (map_nth' _ _ _ _ 0%nat) by (rewrite seq_length; exact Hz). rewrite seq_nth by exact Hz. rewrite Nat.add_0_l.
      rewrite xpow_at by (assumption || lia). destruct (Nat.ltb_spec s n); [|lia]. rewrite Nat.mod_small by lia. rewrite Z.mul_1_l.
      apply shift_at; auto.
Qed.

Theorem mulx_ok : forall s c, in_form n moduli c -> (s < 2 * n)%nat ->
  in_form n moduli (multiply_power_of_x P moduli s c) /\ rotated n moduli s c (multiply_power_of_x P moduli s c).
Proof using Hn Hq.
  intros s c (Lc & Ld & Hw) Hs. rewrite Forall_forall in Ld.
  assert (R : forall d j, (j < length moduli)%nat -> residue n j
     (concat (map (fun j => mulx_words P s (nth j moduli 0%N) (firstn n (skipn (j * n) d))) (seq 0 (length moduli))) ++ skipn (length moduli * n) d)
     = mulx_words P s (nth j moduli 0%N) (residue n j d)).
  { intros d j Hj. unfold residue. rewrite concat_fixed_at; [reflexivity| |exact Hj]. intros; apply mulx_len. }
  assert (RL : forall d j, In d c -> (j < length moduli)%nat -> length (residue n j d) = n).
  { intros d j Hd Hj. unfold residue. rewrite firstn_length_le; [reflexivity|]. rewrite skipn_length, (Ld d Hd). nia. }
  assert (Q : forall j, (j < length moduli)%nat -> (0 < nth j moduli 0%N < 2 ^ 64)%N).
  { intros j Hj. rewrite Forall_forall in Hq. apply Hq, nth_In, Hj. }
  split.
  - split; [unfold multiply_power_of_x; rewrite map_length; exact Lc|]. split.
    + apply Forall_forall. intros d' Hd'. apply in_map_iff in Hd' as (d & <- & Hd). rewrite app_length, skipn_length, (Ld d Hd).
      rewrite (concat_fixed_len _ n) by (intros; apply mulx_len). fold n. lia.
    + intros d' j Hd' Hj. apply in_map_iff in Hd' as (d & <- & Hd). fold n. rewrite R by exact Hj. apply mulx_words_ok; auto.
  - intros i j Hi Hj. unfold multiply_power_of_x. rewrite (map_nth' _ _ _ _ []) by lia. fold n. rewrite R by exact Hj.
    assert (Hd : In (nth i c []) c) by (apply nth_In; lia). apply mulx_words_ok; auto.
Qed.
End Mulx.
