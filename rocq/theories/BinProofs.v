From Coq Require Import Reals Lra Lia List NArith ZArith Bool.
From Coq Require Import Arith.
From Verif Require Import Base StoreModel OkvsModel PaxEncModel BaxEncModel BinModel BinSpec.
Import ListNotations.
Local Open Scope N_scope.

(** * Logarithms *)
Lemma ln2_pos : (0 < ln 2)%R.
Proof. rewrite <- ln_1. apply ln_increasing; lra. Qed.
Lemma IZR_N_pos n : 1 <= n -> (1 <= IZR (Z.of_N n))%R.
Proof. intros H. apply IZR_le. lia. Qed.
Lemma lg_le a b : 1 <= a -> a <= b -> (lg a <= lg b)%R.
Proof.
  intros A B. unfold lg, Rdiv. apply Rmult_le_compat_r; [left; apply Rinv_0_lt_compat, ln2_pos|].
  pose proof (IZR_N_pos a A). destruct (N.eq_dec a b) as [->|D]; [lra|]. left. apply ln_increasing; [lra|]. apply IZR_lt. lia.
Qed.
Lemma lg_pow k : lg (2 ^ k) = INR (N.to_nat k).
Proof.
  unfold lg. rewrite N2Z.inj_pow. replace (Z.of_N k) with (Z.of_nat (N.to_nat k)) by lia. rewrite <- pow_IZR.
  change (IZR (Z.of_N 2)) with 2%R. rewrite ln_pow by lra. pose proof ln2_pos. field. lra.
Qed.
Lemma lg_Rpower n : 1 <= n -> Rpower 2 (lg n) = IZR (Z.of_N n).
Proof.
  intros H. pose proof (IZR_N_pos n H). unfold Rpower, lg. pose proof ln2_pos.
  replace (ln (IZR (Z.of_N n)) / ln 2 * ln 2)%R with (ln (IZR (Z.of_N n))) by (field; lra). apply exp_ln. lra.
Qed.
Lemma log2_spec n : 1 <= n ->
  (INR (N.to_nat (N.log2 n)) <= lg n <= INR (N.to_nat (N.log2_up n)))%R /\
  (lg n <= INR (N.to_nat (N.log2 n)) + 1)%R /\
  ((n = 2 ^ N.log2 n /\ N.log2_up n = N.log2 n /\ lg n = INR (N.to_nat (N.log2 n))) \/
   (~ power2 n /\ N.log2_up n = N.log2 n + 1)).
Proof.
  intros H. pose proof (N.log2_spec n ltac:(lia)) as [L U].
  assert (P : 1 <= 2 ^ N.log2 n) by (pose proof (N.pow_nonzero 2 (N.log2 n)); lia).
  assert (A : (INR (N.to_nat (N.log2 n)) <= lg n)%R) by (rewrite <- lg_pow; now apply lg_le).
  assert (B : (lg n <= INR (N.to_nat (N.log2 n)) + 1)%R).
  { rewrite <- S_INR. replace (S (N.to_nat (N.log2 n))) with (N.to_nat (N.succ (N.log2 n))) by lia. rewrite <- lg_pow. apply lg_le; lia. }
  destruct (N.eq_dec n (2 ^ N.log2 n)) as [E|D].
  - assert (Up : N.log2_up n = N.log2 n) by (rewrite E at 1; apply N.log2_up_pow2; lia).
    assert (E' : lg n = INR (N.to_nat (N.log2 n))) by (rewrite E at 1; apply lg_pow).
    split; [rewrite Up; lra|]. split; [exact B|]. left. auto.
  - assert (Np : ~ power2 n). { intros [k ->]. apply D. now rewrite N.log2_pow2 by lia. }
    assert (Up : N.log2_up n = N.log2 n + 1).
    { destruct (N.eq_dec n 1) as [->|N1]; [now exfalso; apply D|]. pose proof (N.log2_up_spec n ltac:(lia)) as [X Y].
      assert (N.log2 n < N.log2_up n). { apply (N.pow_lt_mono_r_iff 2); lia. }
      assert (N.pred (N.log2_up n) < N.log2 n + 1). { apply (N.pow_lt_mono_r_iff 2); [lia|]. replace (N.log2 n + 1) with (N.succ (N.log2 n)) by lia. lia. }
      lia. }
    split; [|split; [exact B|right; auto]]. split; [exact A|]. rewrite Up. replace (N.to_nat (N.log2 n + 1)) with (S (N.to_nat (N.log2 n))) by lia.
    rewrite S_INR. exact B.
Qed.

(** * Rounding up *)
Lemma rceil_ge x : (x <= IZR (rceil x))%R.
Proof. unfold rceil. rewrite opp_IZR. destruct (base_Int_part (- x)) as [A _]. lra. Qed.
Lemma rceil_lt x : (IZR (rceil x) < x + 1)%R.
Proof. unfold rceil. rewrite opp_IZR. destruct (base_Int_part (- x)) as [_ A]. lra. Qed.

(** * The tables *)
Definition entries_above (t : list (list Z)) : Prop :=
  forall i j, i < N.of_nat (length t) -> j < N.of_nat (length (nth (N.to_nat i) t [])) ->
  (INR (N.to_nat j) - INR (N.to_nat i) <= bin_entry t i j)%R.
Fixpoint check_row (i j : Z) (r : list Z) : bool :=
  match r with [] => true | x :: r' => ((j - i) * 1000000000 <=? x)%Z && check_row i (j + 1) r' end.
Fixpoint check_rows (i : Z) (t : list (list Z)) : bool :=
  match t with [] => true | r :: t' => check_row i 0 r && check_rows (i + 1) t' end.
Lemma check_row_nth r : forall i j k, check_row i j r = true -> (k < length r)%nat ->
  ((j + Z.of_nat k - i) * 1000000000 <= nth k r 0)%Z.
Proof.
  induction r as [|x r IH]; intros i j k C L; [cbn in L; lia|]. cbn [check_row] in C. apply andb_prop in C. destruct C as [C1 C2].
  destruct k as [|k]; cbn [nth]; [apply Z.leb_le in C1; lia|]. cbn in L. specialize (IH i (j + 1)%Z k C2 ltac:(lia)). lia.
Qed.
Lemma check_rows_nth t : forall i a k, check_rows i t = true -> (a < length t)%nat -> (k < length (nth a t []))%nat ->
  ((Z.of_nat k - (i + Z.of_nat a)) * 1000000000 <= nth k (nth a t []) 0)%Z.
Proof.
  induction t as [|r t IH]; intros i a k C A L; [cbn in A; lia|]. cbn [check_rows] in C. apply andb_prop in C. destruct C as [C1 C2].
  destruct a as [|a]; cbn [nth] in *; [pose proof (check_row_nth r i 0 k C1 L); lia|]. cbn in A.
  specialize (IH (i + 1)%Z a k C2 ltac:(lia) L). lia.
Qed.
Lemma checked t : check_rows 0 t = true -> entries_above t.
Proof.
  intros C i j I J. unfold bin_entry. pose proof (check_rows_nth t 0 (N.to_nat i) (N.to_nat j) C ltac:(lia) ltac:(lia)) as H.
  apply IZR_le in H. rewrite mult_IZR, minus_IZR, plus_IZR in H. rewrite <- !INR_IZR_INZ in H. lra.
Qed.
Lemma tables_above ssp : entries_above (bin_table ssp).
Proof. apply checked. unfold bin_table. destruct (ssp <=? 40); [|destruct (ssp <=? 50); [|destruct (ssp <=? 60)]]; vm_compute; reflexivity. Qed.
(** Rows up to 32, columns up to 30. *)
Fixpoint wide (n : nat) (t : list (list Z)) : bool :=
  match n with O => true | S n' => match t with [] => false | r :: t' => (31 <=? N.of_nat (length r)) && wide n' t' end end.
Lemma wide_nth n : forall t i, wide n t = true -> (i < n)%nat -> (i < length t)%nat /\ 31 <= N.of_nat (length (nth i t [])).
Proof.
  induction n as [|n IH]; intros t i W L; [lia|]. destruct t as [|r t]; [discriminate|]. cbn [wide] in W. apply andb_prop in W. destruct W as [W1 W2].
  apply N.leb_le in W1. destruct i as [|i]; cbn [nth length]; [split; [lia|exact W1]|]. destruct (IH t i W2 ltac:(lia)). split; [lia|assumption].
Qed.
Lemma table_size ssp i : i <= 32 -> i < N.of_nat (length (bin_table ssp)) /\ 31 <= N.of_nat (length (nth (N.to_nat i) (bin_table ssp) [])).
Proof.
  intros H. assert (W : wide 33 (bin_table ssp) = true) by (unfold bin_table; destruct (ssp <=? 40); [|destruct (ssp <=? 50); [|destruct (ssp <=? 60)]]; vm_compute; reflexivity).
  destruct (wide_nth 33 _ (N.to_nat i) W ltac:(lia)). split; [lia|assumption].
Qed.
Lemma log2_up_le n k : 1 <= n -> n <= 2 ^ k -> N.log2_up n <= k.
Proof. intros A B. rewrite <- (N.log2_up_pow2 k) by lia. now apply N.log2_up_le_mono. Qed.
Lemma in_range ssp nb n : 1 <= nb -> nb <= 2 ^ 32 -> 1 <= n -> n <= 2 ^ 30 -> in_table (bin_table ssp) nb n = true.
Proof.
  intros A B C D. unfold in_table. pose proof (log2_up_le nb 32 A B) as X. pose proof (log2_up_le n 30 C D) as Y.
  destruct (table_size ssp _ X) as [P Q]. apply andb_true_intro. split; apply N.ltb_lt; lia.
Qed.

(** * The interpolated logarithm is at least that of the average load *)
Lemma bin_log_ge ssp nb n : 1 <= nb -> nb <= 2 ^ 32 -> 1 <= n -> n <= 2 ^ 30 -> (power2 n -> power2 nb) ->
  (lg n - lg nb <= bin_log (bin_table ssp) nb n)%R.
Proof.
  intros A B C D P. pose proof (tables_above ssp) as T.
  pose proof (log2_up_le nb 32 A B) as X. pose proof (log2_up_le n 30 C D) as Y.
  destruct (log2_spec nb A) as (Lb & Ub & Hb). destruct (log2_spec n C) as (Lk & Uk & Hk).
  assert (E : forall i j, i <= 32 -> j <= 30 -> (INR (N.to_nat j) - INR (N.to_nat i) <= bin_entry (bin_table ssp) i j)%R).
  { intros i j I J. destruct (table_size ssp i I). apply T; lia. }
  unfold bin_log. destruct Hb as [(Eb & Pb & Gb)|[Nb Pb]].
  - rewrite Gb, Pb. pose proof (E (N.log2 nb) (N.log2_up n) ltac:(lia) Y) as F.
    set (s := bin_entry _ _ (N.log2_up n)) in *. match goal with |- (_ <= ?e)%R => replace e with s by ring end. lra.
  - destruct Hk as [(Ek & _ & _)|[Nk Pk]]; [exfalso; apply Nb, P; eexists; exact Ek|]. rewrite Pb, Pk in *.
    pose proof (E (N.log2 nb) (N.log2 n) ltac:(lia) ltac:(lia)) as F1. pose proof (E (N.log2 nb) (N.log2 n + 1) ltac:(lia) ltac:(lia)) as F2.
    pose proof (E (N.log2 nb + 1) (N.log2 n) ltac:(lia) ltac:(lia)) as F3. pose proof (E (N.log2 nb + 1) (N.log2 n + 1) ltac:(lia) ltac:(lia)) as F4.
    assert (S1 : forall m, INR (N.to_nat (m + 1)) = (INR (N.to_nat m) + 1)%R) by (intros m; replace (N.to_nat (m + 1)) with (S (N.to_nat m)) by lia; apply S_INR).
    rewrite !S1 in *. set (k := INR (N.to_nat (N.log2 n))) in *. set (l := INR (N.to_nat (N.log2 nb))) in *.
    set (s1 := bin_entry _ _ _) in F1 |- *. set (s2 := bin_entry _ _ _) in F2 |- *. set (s3 := bin_entry _ _ _) in F3 |- *. set (s4 := bin_entry _ _ _) in F4 |- *.
    set (db := (lg nb - l)%R). set (dk := (lg n - k)%R). assert (0 <= db <= 1)%R by (unfold db; lra). assert (0 <= dk <= 1)%R by (unfold dk; lra).
    assert (A0 : (k - l + 1 - db <= db * s1 + (1 - db) * s2)%R) by nra.
    assert (A1 : (k - l - db <= db * s3 + (1 - db) * s4)%R) by nra.
    apply Rle_trans with (dk * (k - l + 1 - db) + (1 - dk) * (k - l - db))%R; [unfold db, dk; lra|nra].
Qed.
Lemma bin_size_room search nb n ssp : 1 <= nb -> nb <= 2 ^ 32 -> 1 <= n -> n <= 2 ^ 30 -> (power2 n -> power2 nb) ->
  room nb (get_bin_size search nb n ssp) n.
Proof.
  intros A B C D P. unfold room, get_bin_size. destruct (N.ltb_spec nb 2) as [H|H]; [nia|]. rewrite in_range by assumption.
  pose proof (bin_log_ge ssp nb n A B C D P) as G. set (b := bin_log _ _ _) in *. pose proof (rceil_ge (Rpower 2 b)) as R.
  assert (L : (Rpower 2 (lg n) <= Rpower 2 (lg nb) * Rpower 2 b)%R).
  { rewrite <- Rpower_plus. destruct (Rle_lt_or_eq_dec (lg n) (lg nb + b)) as [lt| ->]; [lra| |lra]. left. apply Rpower_lt; lra. }
  rewrite !lg_Rpower in L by assumption. set (c := rceil _) in *. pose proof (IZR_N_pos nb A) as Nb.
  assert (V : (IZR (Z.of_N n) <= IZR (Z.of_N nb * c))%R).
  { rewrite mult_IZR. apply Rle_trans with (1 := L). apply Rmult_le_compat_l; lra. }
  apply le_IZR in V. nia.
Qed.

(** * A power of two of items in another number of bins *)
Lemma bin_log_pow ssp nb k : bin_log (bin_table ssp) nb (2 ^ k) = bin_entry (bin_table ssp) (N.log2_up nb) k.
Proof.
  unfold bin_log. rewrite N.log2_pow2, N.log2_up_pow2, lg_pow by lia. set (s := bin_entry _ _ _). set (s' := bin_entry _ _ _). ring.
Qed.
Lemma fifth : (Rpower 2 (2 / 5) <= 132 / 100)%R.
Proof.
  destruct (Rle_lt_dec (Rpower 2 (2 / 5)) (132 / 100)) as [L|L]; [exact L|]. exfalso.
  assert (E : (Rpower 2 (2 / 5) ^ 5 = 4)%R).
  { rewrite <- Rpower_pow by apply exp_pos. rewrite Rpower_mult. replace (2 / 5 * INR 5)%R with (INR 2) by (cbn; field).
    rewrite Rpower_pow by lra. lra. }
  set (x := Rpower 2 (2 / 5)) in *. assert (H : ((132 / 100) ^ 5 <= x ^ 5)%R) by (apply pow_incr; lra). rewrite E in H. lra.
Qed.
Lemma three_bins search ssp k : 11 <= k -> k <= 14 -> ssp <= 40 -> 3 * get_bin_size search 3 (2 ^ k) ssp < 2 ^ k.
Proof.
  intros K1 K2 S. unfold get_bin_size. change (3 <? 2) with false. cbn iota.
  rewrite in_range; [|lia|cbn; lia|pose proof (N.pow_nonzero 2 k); lia|apply N.pow_le_mono_r; lia].
  rewrite bin_log_pow. change (N.log2_up 3) with 2. unfold bin_table. rewrite (proj2 (N.leb_le ssp 40) S).
  assert (H : (bin_entry logbin_40 2 k <= INR (N.to_nat (k - 2)) + 2 / 5)%R).
  { assert (C : k = 11 \/ k = 12 \/ k = 13 \/ k = 14) by lia. unfold bin_entry. rewrite INR_IZR_INZ.
    destruct C as [-> |[-> |[-> | ->]]]; match goal with |- (IZR ?a / _ <= IZR ?b + _)%R => let a' := eval vm_compute in a in let b' := eval vm_compute in b in change a with a'; change b with b' end; lra. }
  set (s := bin_entry _ _ _) in *. pose proof (rceil_lt (Rpower 2 s)) as R. set (c := rceil _) in *.
  assert (L : (Rpower 2 s <= Rpower 2 (INR (N.to_nat (k - 2)) + 2 / 5))%R).
  { destruct (Rle_lt_or_eq_dec _ _ H) as [lt| ->]; [|lra]. left. apply Rpower_lt; lra. }
  rewrite Rpower_plus, Rpower_pow in L by lra. pose proof fifth as F5. set (x := Rpower 2 (2 / 5)) in *.
  assert (V : (IZR c < 2 ^ N.to_nat (k - 2) * (132 / 100) + 1)%R).
  { assert (0 < 2 ^ N.to_nat (k - 2))%R by (apply pow_lt; lra). nra. }
  assert (C : k = 11 \/ k = 12 \/ k = 13 \/ k = 14) by lia.
  rewrite pow_IZR in V. destruct C as [-> |[-> |[-> | ->]]].
  - change (2 ^ Z.of_nat (N.to_nat (11 - 2)))%Z with 512%Z in V. assert (W : (c < 677)%Z) by (apply lt_IZR; lra). change (2 ^ 11) with 2048. lia.
  - change (2 ^ Z.of_nat (N.to_nat (12 - 2)))%Z with 1024%Z in V. assert (W : (c < 1353)%Z) by (apply lt_IZR; lra). change (2 ^ 12) with 4096. lia.
  - change (2 ^ Z.of_nat (N.to_nat (13 - 2)))%Z with 2048%Z in V. assert (W : (c < 2705)%Z) by (apply lt_IZR; lra). change (2 ^ 13) with 8192. lia.
  - change (2 ^ Z.of_nat (N.to_nat (14 - 2)))%Z with 4096%Z in V. assert (W : (c < 5408)%Z) by (apply lt_IZR; lra). change (2 ^ 14) with 16384. lia.
Qed.

(** * Numbers of bins and shares *)
Lemma num_bins_up n bs : 1 <= bs -> up_div n bs (bx_num_bins n bs).
Proof.
  intros B. unfold up_div, bx_num_bins. set (q := _ / _). pose proof (N.div_mod (n + bs - 1) bs ltac:(lia)) as E. fold q in E.
  pose proof (N.mod_lt (n + bs - 1) bs ltac:(lia)) as M. set (m := (n + bs - 1) mod bs) in *. clearbody q m.
  split; [nia|]. destruct (N.eq_dec q 0); [now left|right].
  rewrite N.mul_sub_distr_l, N.mul_1_r. assert (bs <= bs * q) by nia. set (p := bs * q) in *. clearbody p. lia.
Qed.
Lemma share_up n t : up_div n (N.max 1 t) (bx_items_per_thread n t).
Proof. exact (num_bins_up n (N.max 1 t) ltac:(lia)). Qed.
(** With a power of two of threads, and bins of a power of two, a share that is a power of two gives a
    power of two of bins. *)
Lemma power_share n b t : 1 <= n -> t <= b -> power2 (bx_items_per_thread n (2 ^ t)) -> power2 (bx_num_bins n (2 ^ b)).
Proof.
  intros N1 TB [k E]. pose proof (share_up n (2 ^ t)) as [U V]. rewrite E in U, V. pose proof (N.pow_nonzero 2 t). pose proof (N.pow_nonzero 2 k).
  replace (N.max 1 (2 ^ t)) with (2 ^ t) in * by lia. destruct V as [V|V]; [lia|].
  pose proof (num_bins_up n (2 ^ b)) as [X Y]; [pose proof (N.pow_nonzero 2 b); lia|]. set (q := bx_num_bins _ _) in *.
  pose proof (N.pow_nonzero 2 b) as B0. rewrite N.mul_sub_distr_l, N.mul_1_r, <- N.pow_add_r in V. rewrite <- N.pow_add_r in U.
  assert (Q : q <> 0) by (intros Z; rewrite Z in X; lia). destruct Y as [Y|Y]; [lia|].
  assert (TB' : 2 ^ t <= 2 ^ b) by (apply N.pow_le_mono_r; lia).
  destruct (N.le_gt_cases (t + k) b) as [L|L].
  - exists 0. change (2 ^ 0) with 1. assert (n <= 2 ^ b) by (apply N.le_trans with (1 := U); apply N.pow_le_mono_r; lia). nia.
  - exists (t + k - b). assert (Z : 2 ^ (t + k) = 2 ^ b * 2 ^ (t + k - b)) by (rewrite <- N.pow_add_r; f_equal; lia).
    rewrite Z in U, V. set (r := 2 ^ (t + k - b)) in *. nia.
Qed.

(** * More items than places *)
Section Full.
Variable aes : N -> N.
Definition held (bins : list (list (N * N))) : nat := list_sum (map (@length (N * N)) bins).
Lemma held_cons a r : held (a :: r) = (length a + held r)%nat.
Proof. reflexivity. Qed.
Lemma held_le cap bins : Forall (fun l => (length l <= cap)%nat) bins -> (held bins <= length bins * cap)%nat.
Proof. induction 1 as [|l bins H _ IH]; [apply Nat.le_0_l|]. unfold held in *. cbn [map list_sum fold_right length]. change (fold_right Nat.add 0%nat (map (@length (N * N)) bins)) with (list_sum (map (@length (N * N)) bins)). nia. Qed.
Lemma upd_facts (cap : nat) x : forall bins i l, nth_error bins i = Some l -> (length l < cap)%nat -> Forall (fun l => (length l <= cap)%nat) bins ->
  let bins' := upd i (fun _ => l ++ [x]) bins in
  length bins' = length bins /\ Forall (fun l => (length l <= cap)%nat) bins' /\ held bins' = S (held bins).
Proof.
  induction bins as [|b bins IH]; intros i l E L F; [destruct i; discriminate|]. inversion F as [|? ? F1 F2]; subst. destruct i as [|i].
  - cbn in E. injection E as ->. cbn [upd length]. rewrite !held_cons, app_length. cbn [length].
    split; [reflexivity|]. split; [constructor; [rewrite app_length; cbn [length]; lia|exact F2]|lia].
  - cbn in E. destruct (IH i l E L F2) as (A & B & C). cbn [upd length]. rewrite !held_cons. split; [lia|]. split; [now constructor|lia].
Qed.
Lemma main_full nb cap values : forall l bins, length bins = nb -> Forall (fun l => (length l <= cap)%nat) bins ->
  (nb * cap < held bins + length l)%nat -> ofold (bx_key aes false nb cap values) l bins = UB.
Proof.
  induction l as [|ix l IH]; intros bins Hn F H.
  - pose proof (held_le cap bins F). cbn [length] in H. rewrite Hn in *. lia.
  - cbn [ofold]. unfold bx_key at 1, vget. destruct (nth_error values (fst ix)) as [v|]; [|reflexivity]. cbn [bind]. unfold bx_put, vget.
    set (b := N.to_nat _). destruct (nth_error bins b) as [y|] eqn:E; [|reflexivity]. cbn [bind].
    destruct (Nat.ltb_spec (length y) cap) as [L|L]; [|reflexivity]. unfold vset.
    assert (Hb : (b < length bins)%nat) by (apply nth_error_Some; congruence). rewrite (proj2 (Nat.ltb_lt _ _) Hb). cbn [bind].
    destruct (upd_facts cap (aes (snd ix), v) bins b y E L F) as (A & B & C). apply IH; [congruence|exact B|]. rewrite C. cbn [length] in H. lia.
Qed.
Lemma number_len {A} (l : list A) : forall i, length (number i l) = length l.
Proof. induction l as [|x l IH]; intros i; [reflexivity|]. cbn. now rewrite IH. Qed.
Lemma thread_full nb cap values begin ins : (length ins mod 32 = 0)%nat -> (nb * cap < length ins)%nat ->
  bx_thread aes nb cap values begin ins = UB.
Proof.
  intros M H. unfold bx_thread. assert (E : (length ins / 32 * 32 = length ins)%nat).
  { pose proof (Nat.div_mod (length ins) 32 ltac:(lia)). lia. }
  rewrite E, firstn_all. rewrite main_full; [reflexivity|apply repeat_length| |].
  - apply Forall_forall. intros y Hy. apply repeat_spec in Hy. subst. cbn. lia.
  - rewrite number_len. lia.
Qed.
Lemma solve_full avx nb q gmax num cap ipb threads order inputs values p :
  (length p = nb * (N.to_nat (ok_sparse q) + ok_dense q))%nat -> (length inputs <= num)%nat -> nb <> 1%nat ->
  let share := (length inputs / Nat.max 1 threads)%nat in
  (share mod 32 = 0)%nat -> (nb * cap < share)%nat ->
  baxos_solve aes avx nb q gmax num cap ipb threads order inputs values p = UB.
Proof.
  intros P L N1 share M H. unfold baxos_solve. rewrite (proj2 (Nat.eqb_eq _ _) P), (proj2 (Nat.leb_le _ _) L), (proj2 (Nat.eqb_neq _ _) N1).
  cbn [enforce]. set (T := Nat.max 1 threads) in *. assert (HT : (1 <= T)%nat) by lia. clearbody T.
  assert (HS : seq 0 T = 0%nat :: seq 1 (T - 1)) by (destruct T; [lia|]; cbn; now rewrite Nat.sub_0_r). rewrite HS. cbn [omapM].
  rewrite thread_full; [reflexivity| |].
  - unfold par_slice. rewrite Nat.mul_0_r, Nat.add_0_l, Nat.mul_1_r, Nat.div_0_l, Nat.sub_0_r by lia. fold share. rewrite skipn_O, firstn_length.
    replace (Nat.min share (length inputs)) with share; [exact M|]. symmetry. apply Nat.min_l. apply Nat.div_le_upper_bound; nia.
  - unfold par_slice. rewrite Nat.mul_0_r, Nat.add_0_l, Nat.mul_1_r, Nat.div_0_l, Nat.sub_0_r by lia. fold share. rewrite skipn_O, firstn_length.
    replace (Nat.min share (length inputs)) with share; [exact H|]. symmetry. apply Nat.min_l. apply Nat.div_le_upper_bound; nia.
Qed.
End Full.
