(** Proofs for the bit packing. *)
From Coq Require Import List NArith Bool Arith Lia.
From Verif Require Import Base StoreModel StoreProofs Text PirPackModel PirPackSpec.
Import ListNotations.

Lemma bits_length : forall k v, length (bits k v) = k.
Proof. induction k; simpl; auto. Qed.

Lemma bits_ext : forall k a b,
  (forall i, i < k -> N.testbit a (N.of_nat i) = N.testbit b (N.of_nat i)) -> bits k a = bits k b.
Proof.
  induction k; intros a b H; cbn [bits]; [reflexivity|].
  f_equal; [apply H; lia | apply IHk; intros; apply H; lia].
Qed.

Lemma bits_app : forall a b v, bits (a + b) v = bits a (N.shiftr v (N.of_nat b)) ++ bits b v.
Proof.
  induction a; intros b v; cbn [bits Nat.add app]; [reflexivity|].
  rewrite IHa. f_equal. rewrite N.shiftr_spec' . f_equal. lia.
Qed.

Lemma bits_zero : forall k, bits k 0 = repeat false k.
Proof. induction k; cbn [bits repeat]; [reflexivity|]. rewrite IHk. reflexivity. Qed.

Lemma testbit_high : forall a k i, (a < 2 ^ N.of_nat k)%N -> k <= i -> N.testbit a (N.of_nat i) = false.
Proof.
  intros a k i H Hi. destruct (N.eq_dec a 0) as [->|Hz]; [apply N.bits_0|].
  apply N.bits_above_log2. apply N.log2_lt_pow2; [lia|].
  eapply N.lt_le_trans; [exact H|]. apply N.pow_le_mono_r; lia.
Qed.

Lemma bits_inj : forall k a b, (a < 2 ^ N.of_nat k)%N -> (b < 2 ^ N.of_nat k)%N ->
  bits k a = bits k b -> a = b.
Proof.
  intros k a b Ha Hb H. apply N.bits_inj. intro i.
  rewrite <- (N2Nat.id i). set (j := N.to_nat i). clearbody j. clear i.
  destruct (le_lt_dec k j) as [Hj|Hj].
  - rewrite (testbit_high a k), (testbit_high b k); auto.
  - clear Ha Hb. revert H Hj. induction k; intros H Hj; [lia|]. cbn [bits] in H. injection H as H1 H2.
    destruct (Nat.eq_dec j k); [subst; auto | apply IHk; auto; lia].
Qed.

Lemma lt_pow2_bits : forall a k, (forall i, k <= i -> N.testbit a (N.of_nat i) = false) -> (a < 2 ^ N.of_nat k)%N.
Proof.
  intros a k H. destruct (N.eq_dec a 0) as [->|Hz]; [apply N.neq_0_lt_0, N.pow_nonzero; lia|].
  destruct (N.lt_ge_cases a (2 ^ N.of_nat k)) as [|Hge]; auto.
  exfalso. assert (Hl : (N.of_nat k <= N.log2 a)%N) by (apply N.log2_le_pow2; lia).
  assert (Hb : N.testbit a (N.log2 a) = true) by (apply N.bit_log2; auto).
  rewrite <- (N2Nat.id (N.log2 a)) in Hb. rewrite H in Hb; [discriminate|]. lia.
Qed.

Lemma mod_pow2_small : forall a k w, (a < 2 ^ N.of_nat k)%N -> (N.of_nat k <= w)%N -> (a mod 2 ^ w)%N = a.
Proof.
  intros a k w H Hk. apply N.mod_small. eapply N.lt_le_trans; [exact H|]. apply N.pow_le_mono_r; lia.
Qed.

Lemma shiftl_lt : forall a k s, (a < 2 ^ N.of_nat k)%N -> (N.shiftl a (N.of_nat s) < 2 ^ N.of_nat (k + s))%N.
Proof.
  intros a k s H. rewrite N.shiftl_mul_pow2, Nat2N.inj_add, N.pow_add_r.
  apply N.mul_lt_mono_pos_r; auto. apply N.neq_0_lt_0, N.pow_nonzero. lia.
Qed.

Lemma shiftr_lt : forall a k s, (a < 2 ^ N.of_nat k)%N -> (N.shiftr a (N.of_nat s) < 2 ^ N.of_nat (k - s))%N.
Proof.
  intros a k s H. apply lt_pow2_bits. intros i Hi. rewrite N.shiftr_spec'.
  rewrite <- Nat2N.inj_add. apply (testbit_high a k); auto. lia.
Qed.

Lemma lor_lt : forall a b k, (a < 2 ^ N.of_nat k)%N -> (b < 2 ^ N.of_nat k)%N -> (N.lor a b < 2 ^ N.of_nat k)%N.
Proof.
  intros a b k Ha Hb. apply lt_pow2_bits. intros i Hi.
  rewrite N.lor_spec, (testbit_high a k), (testbit_high b k); auto.
Qed.

Lemma upd_app : forall (A : Type) (p : list A) x t f, upd (length p) f (p ++ x :: t) = p ++ f x :: t.
Proof. induction p; intros x t f; simpl; [reflexivity|]. rewrite IHp. reflexivity. Qed.

Lemma nth_app_mid : forall (A : Type) (p : list A) x t, nth_error (p ++ x :: t) (length p) = Some x.
Proof. intros. rewrite nth_error_app2, Nat.sub_diag; auto. Qed.

(** One step of appending [s] bits on the right. *)
Lemma push_bits : forall c k s x, (x < 2 ^ N.of_nat s)%N ->
  bits (k + s) (N.lor (N.shiftl c (N.of_nat s)) x) = bits k c ++ bits s x.
Proof.
  intros c k s x Hx. rewrite bits_app. f_equal; apply bits_ext; intros i Hi.
  - rewrite N.shiftr_spec', N.lor_spec, <- Nat2N.inj_add, (testbit_high x s), orb_false_r; auto; [|lia].
    rewrite Nat2N.inj_add, N.shiftl_spec_high'; [f_equal; lia|lia].
  - rewrite N.lor_spec, N.shiftl_spec_low; auto; lia.
Qed.

(** What remains of an 8-bit (or [n]-bit) register after its [s] top bits were taken. *)
Lemma pop_bits : forall n s v, s <= n ->
  bits n v = bits s (N.shiftr v (N.of_nat (n - s))) ++ bits (n - s) v.
Proof. intros n s v H. rewrite <- bits_app. f_equal. lia. Qed.

Lemma shifted_bits : forall n s v, s <= n ->
  bits n (N.shiftl v (N.of_nat s)) = bits (n - s) v ++ bits s 0.
Proof.
  intros n s v H. replace n with (n - s + s) at 1 by lia.
  rewrite <- (push_bits v (n - s) s 0) by (apply N.neq_0_lt_0, N.pow_nonzero; lia).
  rewrite N.lor_0_r. reflexivity.
Qed.

Lemma firstn_bits_shift : forall n s rest v, s <= rest -> rest <= n ->
  firstn rest (bits n v) =
  bits s (N.shiftr v (N.of_nat (n - s))) ++ firstn (rest - s) (bits n (N.shiftl v (N.of_nat s))).
Proof.
  intros n s rest v H1 H2. rewrite (pop_bits n s v) at 1 by lia.
  rewrite shifted_bits by lia.
  rewrite firstn_app, bits_length, (firstn_all2 (bits s _)) by (rewrite bits_length; lia).
  f_equal. rewrite firstn_app, bits_length. replace (rest - s - (n - s)) with 0 by lia.
  rewrite firstn_O, app_nil_r. reflexivity.
Qed.

Lemma land_mask_bits : forall n s v, s <= n -> n <= 8 ->
  bits n (N.shiftl (N.land v (2 ^ N.of_nat (n - s) - 1)) (N.of_nat s)) = bits n (N.shiftl v (N.of_nat s)).
Proof.
  intros n s v H Hn. rewrite !shifted_bits by lia. f_equal. apply bits_ext. intros i Hi.
  rewrite N.sub_1_r, <- N.ones_equiv, N.land_spec, N.ones_spec_low, andb_true_r; auto. lia.
Qed.

Lemma skipn_nth : forall (A : Type) (l : list A) m x, nth_error l m = Some x ->
  skipn m l = x :: skipn (S m) l.
Proof.
  induction l as [|y l IH]; intros m x H; [destruct m; discriminate|].
  destruct m; cbn [nth_error] in H; [injection H as ->; reflexivity|]. cbn [skipn]. apply IH. exact H.
Qed.

Lemma bitstring_length : forall m (l : list N), length (bitstring m l) = length l * m.
Proof.
  intros m l. unfold bitstring. induction l; simpl; [reflexivity|].
  rewrite app_length, bits_length, IHl. reflexivity.
Qed.

Section B2C.
Variables (w : N) (logt : nat).
Hypothesis (H1 : 1 <= logt) (Hw : (N.of_nat logt <= w)%N) (Hw64 : (w <= 64)%N).

Lemma b2c_byte_ok : forall fuel rest src pre c k room,
  rest <= fuel -> rest <= 8 -> (src < 256)%N -> room <= logt ->
  (c < 2 ^ N.of_nat (logt - room))%N -> Forall (fun x => (x < 2 ^ N.of_nat logt)%N) pre ->
  rest <= room + k * logt ->
  exists pre' c' k' room',
    b2c_byte fuel w logt src rest (pre ++ c :: repeat 0%N k, room, length pre)
      = Ok (pre' ++ c' :: repeat 0%N k', room', length pre')
    /\ length pre' + k' = length pre + k
    /\ (c' < 2 ^ N.of_nat (logt - room'))%N /\ room' <= logt
    /\ Forall (fun x => (x < 2 ^ N.of_nat logt)%N) pre'
    /\ (0 < rest -> room' < logt)
    /\ bitstring logt pre' ++ bits (logt - room') c'
       = bitstring logt pre ++ bits (logt - room) c ++ firstn rest (bits 8 src).
Proof using H1 Hw Hw64.
  clear - H1 Hw Hw64.
  induction fuel as [|fuel IH]; intros rest src pre c k room Hf H8 Hs Hr Hc Hp Hk.
  - exists pre, c, k, room. replace rest with 0 by lia. cbn [b2c_byte firstn]. rewrite app_nil_r.
    repeat split; auto; lia.
  - cbn [b2c_byte]. destruct (rest =? 0) eqn:E0.
    { apply Nat.eqb_eq in E0. subst rest. exists pre, c, k, room. cbn [firstn]. rewrite app_nil_r.
      repeat split; auto; lia. }
    apply Nat.eqb_neq in E0.
    (* after the room check *)
    assert (Hstep : exists pre1 c1 k1 room1,
      (let '(room0, flag0) := if room =? 0 then (logt, S (length pre)) else (room, length pre) in
       room0 = room1 /\ flag0 = length pre1) /\
      pre ++ c :: repeat 0%N k = pre1 ++ c1 :: repeat 0%N k1 /\
      length pre1 + k1 = length pre + k /\ 0 < room1 <= logt /\
      (c1 < 2 ^ N.of_nat (logt - room1))%N /\
      Forall (fun x => (x < 2 ^ N.of_nat logt)%N) pre1 /\ rest <= room1 + k1 * logt /\
      bitstring logt pre1 ++ bits (logt - room1) c1 = bitstring logt pre ++ bits (logt - room) c).
    { destruct (room =? 0) eqn:Er.
      - apply Nat.eqb_eq in Er. subst room. destruct k as [|k]; [simpl in Hk; lia|].
        exists (pre ++ [c]), 0%N, k, logt. rewrite app_length. cbn [length].
        split; [split; [reflexivity|lia]|].
        split; [rewrite <- app_assoc; reflexivity|]. split; [lia|]. split; [lia|].
        split; [rewrite Nat.sub_diag; simpl; lia|].
        split; [apply Forall_app; split; auto; constructor; auto;
                replace (logt - 0) with logt in Hc by lia; auto|].
        split; [simpl in Hk; lia|].
        rewrite Nat.sub_diag. cbn [bits]. rewrite app_nil_r. unfold bitstring.
        rewrite flat_map_app. cbn [flat_map]. rewrite app_nil_r, Nat.sub_0_r. reflexivity.
      - apply Nat.eqb_neq in Er. exists pre, c, k, room. repeat split; auto; lia. }
    destruct Hstep as (pre1 & c1 & k1 & room1 & Hif & Earr & Elen & Hroom & Hc1 & Hp1 & Hk1 & Ebits).
    destruct (if room =? 0 then (logt, S (length pre)) else (room, length pre)) as [room0 flag0].
    destruct Hif as [-> ->]. rewrite Earr, nth_app_mid, upd_app. clear Earr.
    set (s := Nat.min room1 rest). assert (Hs1 : 1 <= s) by (unfold s; lia).
    assert (Hs2 : s <= rest) by (unfold s; lia). assert (Hs3 : s <= room1) by (unfold s; lia).
    set (x := N.shiftr src (N.of_nat (8 - s))).
    assert (Hx : (x < 2 ^ N.of_nat s)%N).
    { unfold x. replace s with (8 - (8 - s)) at 2 by lia. apply shiftr_lt. exact Hs. }
    set (d := N.shiftl c1 (N.of_nat s)).
    assert (Hd : (d < 2 ^ N.of_nat (logt - room1 + s))%N) by (apply shiftl_lt; auto).
    rewrite (mod_pow2_small d (logt - room1 + s) 64) by (auto; lia).
    assert (Hl : (N.lor d x < 2 ^ N.of_nat (logt - room1 + s))%N).
    { apply lor_lt; auto. eapply N.lt_le_trans; [exact Hx|]. apply N.pow_le_mono_r; lia. }
    rewrite (mod_pow2_small (N.lor d x) (logt - room1 + s) w) by (auto; lia).
    set (src1 := N.shiftl (N.land src (2 ^ N.of_nat (8 - s) - 1)) (N.of_nat s)).
    assert (Hsrc1 : (src1 < 256)%N).
    { unfold src1. change 256%N with (2 ^ N.of_nat 8)%N. replace 8 with (8 - s + s) at 2 by lia.
      apply shiftl_lt. rewrite N.sub_1_r, <- N.ones_equiv, N.land_ones. apply N.mod_lt, N.pow_nonzero. lia. }
    unfold u32. rewrite (N.mod_small src1) by lia.
    destruct (IH (rest - s) src1 pre1 (N.lor d x) k1 (room1 - s))
      as (pre' & c' & k' & room' & E & E1 & E2 & E3 & E4 & E5 & E6); auto; try lia.
    { replace (logt - (room1 - s)) with (logt - room1 + s) by lia. exact Hl. }
    exists pre', c', k', room'. split; [exact E|]. split; [lia|]. split; [exact E2|].
    split; [exact E3|]. split; [exact E4|]. split.
    { intros _. destruct (Nat.eq_dec (rest - s) 0) as [Hz|]; [|apply E5; lia].
      rewrite Hz in E. assert (Hb : forall f st, b2c_byte f w logt src1 0 st = Ok st) by (destruct f; reflexivity).
      rewrite Hb in E. assert (Hr' : room' = room1 - s) by congruence. lia. }
    rewrite E6. replace (logt - (room1 - s)) with (logt - room1 + s) by lia.
    unfold d. rewrite push_bits by auto. rewrite !app_assoc, Ebits, <- !app_assoc. do 2 f_equal.
    rewrite (firstn_bits_shift 8 s rest src) by lia. f_equal.
    unfold src1. rewrite land_mask_bits by lia. reflexivity.
Qed.

Lemma b2c_loop_ok : forall n i offset bs pre c k room,
  i + offset + n <= length bs -> Forall is_byte bs -> room <= logt ->
  (c < 2 ^ N.of_nat (logt - room))%N -> Forall (fun x => (x < 2 ^ N.of_nat logt)%N) pre ->
  8 * n <= room + k * logt ->
  exists pre' c' k' room',
    b2c_loop n w logt i offset bs (pre ++ c :: repeat 0%N k, room, length pre)
      = Ok (pre' ++ c' :: repeat 0%N k', room', length pre')
    /\ length pre' + k' = length pre + k
    /\ (c' < 2 ^ N.of_nat (logt - room'))%N /\ room' <= logt
    /\ Forall (fun x => (x < 2 ^ N.of_nat logt)%N) pre'
    /\ (0 < n -> room' < logt)
    /\ bitstring logt pre' ++ bits (logt - room') c'
       = bitstring logt pre ++ bits (logt - room) c ++ bitstring 8 (firstn n (skipn (i + offset) bs)).
Proof using H1 Hw Hw64.
  clear - H1 Hw Hw64.
  induction n as [|n IH]; intros i offset bs pre c k room Hlen Hbs Hr Hc Hp Hk.
  - exists pre, c, k, room. cbn [b2c_loop firstn bitstring flat_map]. rewrite app_nil_r.
    repeat split; auto; lia.
  - cbn [b2c_loop]. destruct (nth_error bs (i + offset)) as [b|] eqn:Eb.
    2:{ apply nth_error_None in Eb. lia. }
    assert (Hb : is_byte b) by (rewrite Forall_forall in Hbs; eapply Hbs, nth_error_In; eauto).
    destruct (b2c_byte_ok 9 8 b pre c k room) as (p1 & c1 & k1 & r1 & E & F1 & F2 & F3 & F4 & F5 & F6); auto; try lia.
    rewrite E. cbn [bind].
    assert (Hcnt : length (bitstring logt p1 ++ bits (logt - r1) c1) = length (bitstring logt pre ++ bits (logt - room) c ++ firstn 8 (bits 8 b)))
      by (rewrite F6; reflexivity).
    rewrite !app_length, !bitstring_length, !bits_length in Hcnt.
    change (length (firstn 8 (bits 8 b))) with 8 in Hcnt.
    destruct (IH (S i) offset bs p1 c1 k1 r1) as (p2 & c2 & k2 & r2 & G & G1 & G2 & G3 & G4 & G5 & G6); auto; try lia.
    exists p2, c2, k2, r2. split; [exact G|]. split; [lia|]. split; [auto|]. split; [auto|]. split; [auto|].
    split.
    { intros _. destruct n; [|apply G5; lia]. cbn [b2c_loop] in G. assert (r2 = r1) by congruence. subst. apply F5. lia. }
    rewrite G6. rewrite !app_assoc, F6, <- !app_assoc. do 2 f_equal.
    rewrite (skipn_nth _ _ _ _ Eb). cbn [firstn bitstring flat_map]. reflexivity.
Qed.
End B2C.

Lemma uint_num_spec : forall a b, 1 <= b -> a <= uint_num a b * b /\ uint_num a b * b < a + b.
Proof.
  intros a b H. unfold uint_num. pose proof (Nat.div_mod (a + b - 1) b ltac:(lia)) as E.
  pose proof (Nat.mod_upper_bound (a + b - 1) b ltac:(lia)).
  rewrite (Nat.mul_comm _ b). lia.
Qed.

Lemma uint_num_unique : forall a b n, 1 <= b -> a <= n * b -> n * b < a + b -> n = uint_num a b.
Proof.
  intros a b n Hb H1 H2. destruct (uint_num_spec a b Hb) as [H3 H4].
  destruct (lt_eq_lt_dec n (uint_num a b)) as [[Hl|]|Hl]; auto; exfalso.
  - assert ((n + 1) * b <= uint_num a b * b) by (apply Nat.mul_le_mono_r; lia). lia.
  - assert ((uint_num a b + 1) * b <= n * b) by (apply Nat.mul_le_mono_r; lia). lia.
Qed.

Lemma bitstring_app : forall m (a b : list N), bitstring m (a ++ b) = bitstring m a ++ bitstring m b.
Proof. intros. apply flat_map_app. Qed.

Lemma pack_ok : forall w logt offset size bs,
  1 <= logt -> (N.of_nat logt <= w)%N -> (w <= 64)%N -> 1 <= size -> offset + size <= length bs ->
  Forall is_byte bs ->
  exists cs pad, bytes_to_coeffs w logt offset size bs = Ok cs
    /\ length cs = uint_num (8 * size) logt
    /\ Forall (fun x => (x < 2 ^ N.of_nat logt)%N) cs
    /\ bitstring logt cs = bitstring 8 (firstn size (skipn offset bs)) ++ repeat false pad
    /\ pad < logt.
Proof.
  intros w logt offset size bs H1 Hw Hw64 Hs Hlen Hbs.
  destruct (uint_num_spec (8 * size) logt H1) as [U1 U2].
  unfold bytes_to_coeffs. destruct (logt =? 0) eqn:E0; [apply Nat.eqb_eq in E0; lia|].
  destruct (uint_num (8 * size) logt) as [|n] eqn:En; [lia|].
  destruct (b2c_loop_ok w logt H1 Hw Hw64 size 0 offset bs [] 0%N n logt)
    as (p & c & k & r & E & F1 & F2 & F3 & F4 & F5 & F6); auto; try lia.
  cbn [repeat app length] in *. rewrite E. cbn [bind].
  destruct (64 <=? r) eqn:E64; [apply Nat.leb_le in E64; lia|]. rewrite nth_app_mid, upd_app.
  assert (Hcnt : length (bitstring logt p ++ bits (logt - r) c) = 8 * size).
  { rewrite F6, Nat.sub_diag. cbn [bits bitstring flat_map app]. rewrite bitstring_length, firstn_length, skipn_length.
    cbn [Nat.add]. lia. }
  rewrite app_length, bitstring_length, bits_length in Hcnt. specialize (F5 ltac:(lia)).
  assert (Hn : length p = n).
  { assert (Hx : S (length p) = uint_num (8 * size) logt) by (apply uint_num_unique; lia). lia. }
  assert (k = 0) by lia. subst k. cbn [repeat].
  assert (Hc' : (N.shiftl c (N.of_nat r) < 2 ^ N.of_nat logt)%N).
  { replace logt with (logt - r + r) at 1 by lia. apply shiftl_lt. exact F2. }
  rewrite (mod_pow2_small _ logt w Hc' Hw).
  exists (p ++ [N.shiftl c (N.of_nat r)]), r. split; [reflexivity|].
  split; [rewrite app_length; simpl; lia|]. split; [apply Forall_app; auto|]. split; [|lia].
  rewrite bitstring_app. cbn [bitstring flat_map]. rewrite app_nil_r.
  rewrite (shifted_bits logt r c) by lia. rewrite bits_zero, app_assoc. f_equal.
  rewrite F6, Nat.sub_diag. reflexivity.
Qed.

(** ** Coefficients to bytes *)
Definition c2b_inv (bs : list N) (room : nat) (pre tail : list N) : Prop :=
  bs = pre ++ tail /\ Forall is_byte bs /\
  ((tail = [] /\ room = 8) \/ (exists b k, tail = b :: repeat 0%N k /\ 1 <= room <= 8)).

Lemma byte_mod : forall x, is_byte (x mod 256).
Proof. intros x. apply N.mod_lt. discriminate. Qed.

Lemma c2b_coeff_ok : forall logt, 1 <= logt <= 64 -> forall fuel rest src bs room pre tail,
  rest <= fuel -> rest <= logt -> room = 8 \/ (src < 2 ^ N.of_nat logt)%N ->
  c2b_inv bs room pre tail -> 8 * length pre + (8 - room) + rest <= 8 * length bs ->
  exists bs' room' pre' tail',
    c2b_coeff fuel logt src rest (bs, room, length pre) = Ok (bs', room', length pre')
    /\ c2b_inv bs' room' pre' tail' /\ length bs' = length bs
    /\ bitstring 8 pre' ++ bits (8 - room') (hd 0%N tail')
       = bitstring 8 pre ++ bits (8 - room) (hd 0%N tail) ++ firstn rest (bits logt src).
Proof.
  intros logt Hlog. induction fuel as [|fuel IH]; intros rest src bs room pre tail Hf Hrest Hsrc Hinv Hcap.
  - exists bs, room, pre, tail. replace rest with 0 by lia. cbn [c2b_coeff firstn]. rewrite app_nil_r. auto.
  - cbn [c2b_coeff]. destruct (rest =? 0) eqn:E0.
    { apply Nat.eqb_eq in E0. subst rest. exists bs, room, pre, tail. cbn [orb firstn]. rewrite app_nil_r. auto. }
    apply Nat.eqb_neq in E0. cbn [orb].
    destruct Hinv as (Ebs & Hb & [[-> ->]|(b & k & -> & Hroom)]).
    { subst bs. rewrite app_nil_r in Hcap. lia. }
    assert (Hj : (length pre <? length bs) = true).
    { apply Nat.ltb_lt. subst bs. rewrite app_length. simpl. lia. }
    rewrite Hj. cbn [negb].
    set (s := Nat.min room rest). assert (Hs1 : 1 <= s) by lia. assert (Hs2 : s <= rest) by lia.
    assert (Hs3 : s <= room) by lia.
    destruct (64 <=? logt - s) eqn:E64; [apply Nat.leb_le in E64; lia|].
    subst bs. rewrite nth_app_mid, upd_app.
    set (x := N.shiftr src (N.of_nat (logt - s))).
    set (b2 := (N.lor (N.shiftl b (N.of_nat s) mod 256) x mod 256)%N).
    assert (Hb2 : bits (8 - room + s) b2 = bits (8 - room) b ++ bits s x).
    { unfold b2. change 256%N with (2 ^ 8)%N.
      transitivity (bits (8 - room + s) (N.lor (N.shiftl b (N.of_nat s)) x)).
      - apply bits_ext. intros i Hi. rewrite N.mod_pow2_bits_low by lia. rewrite !N.lor_spec.
        rewrite N.mod_pow2_bits_low by lia. reflexivity.
      - destruct (Nat.eq_dec room 8) as [->|Hne].
        + rewrite Nat.sub_diag. cbn [bits Nat.add app]. apply bits_ext. intros i Hi.
          rewrite N.lor_spec, N.shiftl_spec_low by lia. reflexivity.
        + destruct Hsrc as [|Hsrc]; [lia|]. apply push_bits. unfold x.
          replace s with (logt - (logt - s)) at 2 by lia. apply shiftr_lt. exact Hsrc. }
    assert (Hbb : Forall is_byte (pre ++ b2 :: repeat 0%N k)).
    { apply Forall_app in Hb. destruct Hb as [Hp Ht]. apply Forall_app. split; auto.
      inversion Ht; subst. constructor; auto. apply byte_mod. }
    set (src1 := u64 (N.shiftl src (N.of_nat s))).
    assert (Hsrc1 : bits logt src1 = bits logt (N.shiftl src (N.of_nat s))).
    { apply bits_ext. intros i Hi. unfold src1, u64. change 18446744073709551616%N with (2 ^ 64)%N.
      apply N.mod_pow2_bits_low. lia. }
    set (st1 := if room - s =? 0 then (pre ++ b2 :: repeat 0%N k, 8, S (length pre))
                else (pre ++ b2 :: repeat 0%N k, room - s, length pre)).
    assert (Hst : exists pre1 tail1 room1, st1 = (pre ++ b2 :: repeat 0%N k, room1, length pre1) /\
      c2b_inv (pre ++ b2 :: repeat 0%N k) room1 pre1 tail1 /\
      (room1 = 8 \/ rest - s = 0) /\
      8 * length pre1 + (8 - room1) = 8 * length pre + (8 - room) + s /\
      bitstring 8 pre1 ++ bits (8 - room1) (hd 0%N tail1) = bitstring 8 pre ++ bits (8 - room) b ++ bits s x).
    { unfold st1. destruct (room - s =? 0) eqn:Er.
      - apply Nat.eqb_eq in Er. exists (pre ++ [b2]), (repeat 0%N k), 8.
        rewrite app_length. cbn [length]. split; [f_equal; lia|]. split.
        { split; [rewrite <- app_assoc; reflexivity|]. split; auto.
          destruct k; [left; split; reflexivity|]. right. exists 0%N, k. split; [reflexivity|lia]. }
        split; [lia|]. split; [lia|].
        rewrite Nat.sub_diag. cbn [bits]. rewrite app_nil_r, bitstring_app. f_equal.
        cbn [bitstring flat_map]. rewrite app_nil_r, <- Hb2. f_equal. lia.
      - apply Nat.eqb_neq in Er. exists pre, (b2 :: repeat 0%N k), (room - s).
        split; [reflexivity|]. split.
        { split; [reflexivity|]. split; auto. right. exists b2, k. split; [reflexivity|lia]. }
        split; [lia|]. split; [lia|]. f_equal. cbn [hd]. rewrite <- Hb2. f_equal. lia. }
    destruct Hst as (pre1 & tail1 & room1 & Est & Hinv1 & Hor & Hsum & Hbits).
    rewrite Est.
    assert (Hlen : length (pre ++ b2 :: repeat 0%N k) = length (pre ++ b :: repeat 0%N k)) by (rewrite !app_length; reflexivity).
    assert (Hfb : firstn rest (bits logt src) = bits s x ++ firstn (rest - s) (bits logt src1)).
    { rewrite Hsrc1. apply firstn_bits_shift; lia. }
    destruct Hor as [Hor|Hor].
    + destruct (IH (rest - s) src1 (pre ++ b2 :: repeat 0%N k) room1 pre1 tail1)
        as (bs' & room' & pre' & tail' & E & G1 & G2 & G3); auto; try lia.
      exists bs', room', pre', tail'. split; [exact E|]. split; [exact G1|]. split; [lia|].
      rewrite G3, !app_assoc, Hbits, Hfb, <- !app_assoc. reflexivity.
    + rewrite Hor.
      exists (pre ++ b2 :: repeat 0%N k), room1, pre1, tail1. split.
      { destruct fuel; reflexivity. }
      split; [exact Hinv1|]. split; [exact Hlen|].
      rewrite Hbits, Hfb, Hor. cbn [firstn hd]. rewrite app_nil_r. reflexivity.
Qed.

Lemma c2b_loop_ok : forall logt, 1 <= logt <= 64 -> forall cs bs room pre tail,
  Forall (fun x => (x < 2 ^ N.of_nat logt)%N) cs -> c2b_inv bs room pre tail ->
  8 * length pre + (8 - room) + length cs * logt <= 8 * length bs ->
  exists bs' room' pre' tail',
    c2b_loop logt cs (bs, room, length pre) = Ok (bs', room', length pre')
    /\ c2b_inv bs' room' pre' tail' /\ length bs' = length bs
    /\ bitstring 8 pre' ++ bits (8 - room') (hd 0%N tail')
       = bitstring 8 pre ++ bits (8 - room) (hd 0%N tail) ++ bitstring logt cs.
Proof.
  intros logt Hlog. induction cs as [|c cs IH]; intros bs room pre tail Hc Hinv Hcap.
  - exists bs, room, pre, tail. cbn [c2b_loop bitstring flat_map]. rewrite app_nil_r. auto.
  - cbn [c2b_loop]. inversion Hc as [|? ? Hc1 Hc2]; subst. cbn [length] in Hcap.
    destruct (c2b_coeff_ok logt Hlog (S logt) logt c bs room pre tail)
      as (bs1 & room1 & pre1 & tail1 & E & G1 & G2 & G3); auto; try lia.
    rewrite E. cbn [bind].
    assert (Hcnt : length (bitstring 8 pre1 ++ bits (8 - room1) (hd 0%N tail1))
                   = length (bitstring 8 pre ++ bits (8 - room) (hd 0%N tail) ++ firstn logt (bits logt c)))
      by (rewrite G3; reflexivity).
    rewrite !app_length, !bitstring_length, firstn_length, !bits_length, Nat.min_id in Hcnt.
    destruct (IH bs1 room1 pre1 tail1) as (bs' & room' & pre' & tail' & E' & K1 & K2 & K3); auto; try lia.
    exists bs', room', pre', tail'. split; [exact E'|]. split; [exact K1|]. split; [lia|].
    rewrite K3, !app_assoc, G3, <- !app_assoc. do 2 f_equal.
    rewrite firstn_all2 by (rewrite bits_length; lia). reflexivity.
Qed.

Lemma unpack_ok : forall logt cs, 1 <= logt <= 64 ->
  Forall (fun x => (x < 2 ^ N.of_nat logt)%N) cs ->
  exists bs, coeffs_to_bytes logt cs = Ok bs
    /\ length bs = uint_num (length cs * logt) 8 /\ Forall is_byte bs
    /\ bitstring 8 (firstn (length cs * logt / 8) bs)
       = firstn (8 * (length cs * logt / 8)) (bitstring logt cs).
Proof.
  intros logt cs Hlog Hcs. unfold coeffs_to_bytes. set (T := length cs * logt).
  destruct (uint_num_spec T 8 ltac:(lia)) as [U1 U2].
  destruct (c2b_loop_ok logt Hlog cs (repeat 0%N (uint_num T 8)) 8 [] (repeat 0%N (uint_num T 8)))
    as (bs & room & pre & tail & E & (I1 & I2 & I3) & G2 & G3); auto.
  { split; [reflexivity|]. split; [apply Forall_forall; intros y Hy; apply repeat_spec in Hy; subst; reflexivity|].
    destruct (uint_num T 8); [left; auto|]. right. exists 0%N, n. split; [reflexivity|lia]. }
  { rewrite repeat_length. fold T. cbn [length]. lia. }
  cbn [length] in E. rewrite E. cbn [bind]. exists bs. split; [reflexivity|].
  rewrite repeat_length in G2. split; [exact G2|]. split; [exact I2|].
  rewrite Nat.sub_diag in G3. cbn [bits bitstring flat_map app] in G3. fold (bitstring 8 pre) in G3.
  fold (bitstring logt cs) in G3.
  assert (Hroom : 1 <= room <= 8) by (destruct I3 as [[? ->]|(? & ? & ? & ?)]; lia).
  assert (Hcnt : length (bitstring 8 pre ++ bits (8 - room) (hd 0%N tail)) = T) by (rewrite G3, bitstring_length; reflexivity).
  rewrite app_length, bitstring_length, bits_length in Hcnt.
  assert (Hp : length pre = T / 8). { apply (Nat.div_unique T 8 (length pre) (8 - room)); lia. }
  rewrite <- Hp, <- G3, I1. rewrite firstn_app, Nat.sub_diag, firstn_O, app_nil_r, firstn_all.
  rewrite firstn_app, bitstring_length. replace (8 * length pre - length pre * 8) with 0 by lia.
  rewrite firstn_O, app_nil_r, firstn_all2 by (rewrite bitstring_length; lia). reflexivity.
Qed.

Lemma bitstring_inj : forall (a b : list N), Forall is_byte a -> Forall is_byte b ->
  bitstring 8 a = bitstring 8 b -> a = b.
Proof.
  induction a as [|x a IH]; intros b Ha Hb H.
  - destruct b; [reflexivity|]. discriminate H.
  - destruct b as [|y b]; [discriminate H|]. inversion Ha; inversion Hb; subst.
    unfold bitstring in H. cbn [flat_map] in H.
    assert (E : bits 8 x = bits 8 y).
    { assert (Hf : firstn 8 (bits 8 x ++ flat_map (bits 8) a) = firstn 8 (bits 8 y ++ flat_map (bits 8) b)) by (rewrite H; reflexivity).
      exact Hf. }
    f_equal; [apply (bits_inj 8); auto|]. apply IH; auto. rewrite E in H. apply app_inv_head in H. exact H.
Qed.

Lemma bitstring_firstn : forall m n (l : list N), bitstring m (firstn n l) = firstn (n * m) (bitstring m l).
Proof.
  intros m n l. revert n. induction l as [|x l IH]; intros n.
  - rewrite !firstn_nil. reflexivity.
  - destruct n; [reflexivity|]. unfold bitstring. cbn [firstn flat_map Nat.mul].
    rewrite firstn_app, bits_length. rewrite (firstn_all2 (bits m x)) by (rewrite bits_length; lia).
    replace (m + n * m - m) with (n * m) by lia. f_equal. apply IH.
Qed.

(** Packed bytes come back: the coefficients may be followed by any others. *)
Lemma round_trip : forall w logt offset size bs cs more,
  1 <= logt -> (N.of_nat logt <= w)%N -> (w <= 64)%N -> 1 <= size -> offset + size <= length bs ->
  Forall is_byte bs -> bytes_to_coeffs w logt offset size bs = Ok cs ->
  Forall (fun x => (x < 2 ^ N.of_nat logt)%N) more ->
  exists out, coeffs_to_bytes logt (cs ++ more) = Ok out /\ Forall is_byte out
    /\ size <= length out /\ firstn size out = firstn size (skipn offset bs).
Proof.
  intros w logt offset size bs cs more H1 Hw Hw64 Hs Hlen Hbs Hcs Hmore.
  destruct (pack_ok w logt offset size bs) as (cs0 & pad & E & L & B & S & P); auto.
  assert (cs0 = cs) by congruence. subst cs0.
  destruct (uint_num_spec (8 * size) logt H1) as [U1 U2]. rewrite <- L in U1, U2.
  destruct (unpack_ok logt (cs ++ more)) as (out & E2 & L2 & B2 & S2); [lia|apply Forall_app; auto|].
  exists out. split; [exact E2|]. split; [exact B2|].
  set (T := length (cs ++ more) * logt) in *.
  assert (HT : 8 * size <= T). { unfold T. rewrite app_length, Nat.mul_add_distr_r. lia. }
  assert (Hd : size <= T / 8) by (apply Nat.div_le_lower_bound; lia).
  destruct (uint_num_spec T 8 ltac:(lia)) as [V1 V2]. rewrite <- L2 in V1.
  assert (Hso : size <= length out) by lia. split; [exact Hso|].
  apply bitstring_inj.
  - apply Forall_forall. intros y Hy. rewrite Forall_forall in B2. apply B2.
    rewrite <- (firstn_skipn size out). apply in_or_app. auto.
  - apply Forall_forall. intros y Hy. rewrite Forall_forall in Hbs. apply Hbs.
    rewrite <- (firstn_skipn offset bs). apply in_or_app. right.
    rewrite <- (firstn_skipn size (skipn offset bs)). apply in_or_app. auto.
  - transitivity (firstn (size * 8) (bitstring logt (cs ++ more))).
    + rewrite (bitstring_firstn 8 size out). rewrite bitstring_firstn in S2.
      assert (Hf : firstn (size * 8) (firstn (T / 8 * 8) (bitstring 8 out)) = firstn (size * 8) (firstn (8 * (T / 8)) (bitstring logt (cs ++ more)))) by (rewrite S2; reflexivity).
      rewrite !firstn_firstn in Hf. rewrite !Nat.min_l in Hf by lia. exact Hf.
    + rewrite bitstring_app, S. rewrite <- app_assoc. rewrite firstn_app.
      assert (Hbl : length (bitstring 8 (firstn size (skipn offset bs))) = size * 8).
      { rewrite bitstring_length, firstn_length, skipn_length. lia. }
      rewrite Hbl, Nat.sub_diag, firstn_O, app_nil_r, firstn_all2 by lia. reflexivity.
Qed.
