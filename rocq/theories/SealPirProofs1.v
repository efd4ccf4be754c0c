(** BytesToCoeffs and CoeffsToBytes of SealPIR. *)
From Coq Require Import List Arith NArith Lia Bool.
From Verif Require Import Base StoreModel StoreProofs Text PirPackModel PirPackSpec PirPackProofs PirPackProofs2 SpLoopModel SpLoopProofs NttModel SpArithModel
  SealPirModel.
Import ListNotations.

(** * BytesToCoeffs *)

Lemma mask_shift : forall src s, s <= 8 -> (src < 256)%N ->
  u32 (N.shiftl (N.land src (2 ^ N.of_nat (8 - s) - 1)) (N.of_nat s)) = (N.shiftl src (N.of_nat s) mod 256)%N.
Proof.
  intros src s Hs Hb. rewrite N.sub_1_r, <- N.ones_equiv, N.land_ones.
  rewrite !N.shiftl_mul_pow2.
  replace 256%N with (2 ^ N.of_nat (8 - s) * 2 ^ N.of_nat s)%N
    by (rewrite <- N.pow_add_r; replace (N.of_nat (8 - s) + N.of_nat s)%N with 8%N by lia; reflexivity).
  rewrite N.mul_mod_distr_r by (apply N.pow_nonzero; lia).
  unfold u32. apply N.mod_small.
  assert (A : (src mod 2 ^ N.of_nat (8 - s) < 2 ^ N.of_nat (8 - s))%N) by (apply N.mod_lt, N.pow_nonzero; lia).
  apply N.lt_le_trans with (2 ^ N.of_nat (8 - s) * 2 ^ N.of_nat s)%N.
  - apply N.mul_lt_mono_pos_r; [|exact A]. apply N.neq_0_lt_0, N.pow_nonzero. lia.
  - rewrite <- N.pow_add_r. replace (N.of_nat (8 - s) + N.of_nat s)%N with 8%N by lia. cbn. lia.
Qed.

Definition swap3 (o : outcome (list N * nat * nat)) : outcome (list N * nat * nat) :=
  do (a, b, c) <- o; Ok (a, c, b).

Lemma lor_u64 : forall c b, (b < 2 ^ 64)%N -> N.lor (u64 c) b = (N.lor (c mod 2 ^ 64) b mod 2 ^ 64)%N.
Proof.
  intros c b Hb. unfold u64. change 18446744073709551616%N with (2 ^ 64)%N. symmetry. apply N.mod_small.
  apply (lor_lt _ _ 64); [|exact Hb]. apply N.mod_lt. discriminate.
Qed.

Lemma sl_byte_eq : forall fuel logt src rest out target room, (src < 256)%N -> rest <= 8 ->
  sl_byte fuel logt src rest (out, target, room) = swap3 (b2c_byte fuel 64 logt src rest (out, room, target)).
Proof.
  induction fuel as [|f IH]; intros logt src rest out target room Hs Hr; [reflexivity|].
  cbn [sl_byte b2c_byte]. destruct (Nat.eqb_spec rest 0) as [->|Hr0]; [reflexivity|].
  assert (K : forall tg rm,
    match nth_error out tg with
    | None => UB
    | Some c => sl_byte f logt (N.shiftl src (N.of_nat (Nat.min rest rm)) mod 256) (rest - Nat.min rest rm)
        (upd tg (fun _ => N.lor (u64 (N.shiftl c (N.of_nat (Nat.min rest rm)))) (N.shiftr src (N.of_nat (8 - Nat.min rest rm)))) out, tg, rm - Nat.min rest rm)
    end = swap3
    match nth_error out tg with
    | None => UB
    | Some c => b2c_byte f 64 logt (u32 (N.shiftl (N.land src (2 ^ N.of_nat (8 - Nat.min rm rest) - 1)) (N.of_nat (Nat.min rm rest)))) (rest - Nat.min rm rest)
        (upd tg (fun _ => N.lor (N.shiftl c (N.of_nat (Nat.min rm rest)) mod 2 ^ 64) (N.shiftr src (N.of_nat (8 - Nat.min rm rest))) mod 2 ^ 64)%N out, rm - Nat.min rm rest, tg)
    end).
  { intros tg rm. rewrite (Nat.min_comm rm rest). destruct (nth_error out tg) as [c|]; [|reflexivity].
    rewrite mask_shift by (auto; lia). rewrite lor_u64.
    - apply IH; [apply N.mod_lt; discriminate|lia].
    - apply (shiftr_lt src 8) with (s := 8 - Nat.min rest rm) in Hs. eapply N.lt_le_trans; [exact Hs|].
      apply N.pow_le_mono_r; lia. }
  destruct (room =? 0); apply K.
Qed.

Lemma swap3_bind : forall (A : Type) o (f : list N * nat * nat -> outcome A), bind (swap3 o) f = bind o (fun '(a, b, c) => f (a, c, b)).
Proof. intros A [[[a b] c]| | |] f; reflexivity. Qed.

Lemma sl_bytes_eq : forall logt bytes pre out target room, Forall is_byte bytes ->
  sl_bytes logt bytes (out, target, room)
  = swap3 (b2c_loop (length bytes) 64 logt (length pre) 0 (pre ++ bytes) (out, room, target)).
Proof.
  induction bytes as [|b r IH]; intros pre out target room Hb; [reflexivity|].
  inversion Hb as [|x y Hb1 Hb2]; subst. cbn [sl_bytes length b2c_loop].
  rewrite Nat.add_0_r, nth_app_mid. rewrite sl_byte_eq by (auto; exact Hb1). rewrite swap3_bind.
  destruct (b2c_byte 9 64 logt b 8 (out, room, target)) as [[[a rm] tg]| | |]; cbn [bind]; try reflexivity.
  rewrite (IH (pre ++ [b])) by exact Hb2. rewrite app_length, Nat.add_1_r, <- app_assoc. reflexivity.
Qed.

Lemma sl_pack_eq : forall logt bytes, Forall is_byte bytes ->
  sl_pack logt bytes = bytes_to_coeffs 64 logt 0 (length bytes) bytes.
Proof.
  intros logt bytes Hb. unfold sl_pack, bytes_to_coeffs. destruct (logt =? 0); [reflexivity|].
  rewrite (sl_bytes_eq logt bytes []) by exact Hb. cbn [length app]. rewrite swap3_bind.
  unfold coeffs_per_element, ceil_div, uint_num. rewrite (Nat.mul_comm (length bytes) 8).
  match goal with |- bind ?o _ = _ => destruct o as [[[a rm] tg]| | |] end; cbn [bind]; try reflexivity.
Qed.

(** The coefficients of an element. *)
Lemma sl_pack_ok : forall logt bytes, 1 <= logt <= 64 -> 1 <= length bytes -> Forall is_byte bytes ->
  exists cs, sl_pack logt bytes = Ok cs /\ length cs = coeffs_per_element logt (length bytes)
    /\ Forall (fun x => (x < 2 ^ N.of_nat logt)%N) cs
    /\ firstn (8 * length bytes) (bitstring logt cs) = bitstring 8 bytes.
Proof.
  intros logt bytes Hl H1 Hb. rewrite sl_pack_eq by exact Hb.
  destruct (pack_ok 64 logt 0 (length bytes) bytes) as (cs & pad & E & L & F & B & _); try lia; [exact Hb|].
  exists cs. split; [exact E|]. split.
  { rewrite L. unfold coeffs_per_element, ceil_div, uint_num. rewrite Nat.mul_comm. reflexivity. }
  split; [exact F|]. rewrite B. cbn [skipn]. rewrite firstn_all.
  rewrite firstn_app, bitstring_length. replace (8 * length bytes - length bytes * 8) with 0 by lia.
  rewrite firstn_O, app_nil_r. apply firstn_all2. rewrite bitstring_length. lia.
Qed.

(** * CoeffsToBytes *)

Lemma sl_coeff_full : forall fuel logt src rest out room j bl, length out <= j ->
  sl_coeff fuel logt src rest (out, room, j, bl) = Ok (out, room, j, bl).
Proof.
  intros [|f] logt src rest out room j bl H; [reflexivity|]. cbn [sl_coeff].
  rewrite (proj2 (Nat.ltb_ge j (length out)) H). rewrite orb_true_r. reflexivity.
Qed.

Lemma sl_coeff_eq : forall fuel logt src rest out room j bl out' room' j', 1 <= room <= 8 -> rest <= fuel -> 
  8 * j + (8 - room) + rest <= 8 * length out -> rest <= bl ->
  c2b_coeff fuel logt src rest (out, room, j) = Ok (out', room', j') ->
  sl_coeff fuel logt src rest (out, room, j, bl) = Ok (out', room', j', bl - rest).
Proof.
  induction fuel as [|f IH]; intros logt src rest out room j bl out' room' j' Hr Hf Hc Hb.
  { cbn. intros H. injection H as <- <- <-. replace rest with 0 by lia. rewrite Nat.sub_0_r. reflexivity. }
  cbn [c2b_coeff sl_coeff]. rewrite (Nat.min_comm rest room). destruct (Nat.eqb_spec rest 0) as [->|Hr0]; cbn [orb].
  { intros H. injection H as <- <- <-. rewrite Nat.sub_0_r. reflexivity. }
  assert (J : j < length out) by lia. rewrite (proj2 (Nat.ltb_lt j (length out)) J). cbn [negb].
  destruct (64 <=? logt - Nat.min room rest); [discriminate|].
  destruct (nth_error out j) as [b|]; [|discriminate].
  set (s := Nat.min room rest) in *. assert (Hs : 1 <= s <= room /\ s <= rest) by lia.
  replace (bl - rest) with ((bl - s) - (rest - s)) by lia.
  destruct (Nat.eqb_spec (room - s) 0) as [Z|Z]; intros H; (apply IH; [lia|lia| |lia|exact H]); rewrite upd_length; lia.
Qed.

(** The invariant of both loops: the bits written. *)
Definition written (out : list N) (room j : nat) (bs : list bool) : Prop :=
  exists pre tail, c2b_inv out room pre tail /\ length pre = j
    /\ bitstring 8 pre ++ bits (8 - room) (hd 0%N tail) = bs.

Lemma written_len : forall out room j bs, written out room j bs -> length bs = 8 * j + (8 - room) /\ 1 <= room <= 8.
Proof.
  intros out room j bs (pre & tail & (E & F & C) & L & B). subst bs.
  rewrite app_length, bitstring_length, bits_length, L. split; [lia|].
  destruct C as [[_ ->]|(b & k & _ & R)]; lia.
Qed.

Lemma sl_coeff_ok : forall logt, 1 <= logt <= 64 -> forall c rest out room j bl bs,
  (c < 2 ^ N.of_nat logt)%N -> rest <= logt -> rest <= bl -> written out room j bs -> length bs + rest <= 8 * length out ->
  exists out' room' j', sl_coeff (S logt) logt c rest (out, room, j, bl) = Ok (out', room', j', bl - rest)
    /\ length out' = length out /\ written out' room' j' (bs ++ firstn rest (bits logt c)).
Proof.
  intros logt Hl c rest out room j bl bs Hc Hr Hb W Hlen. destruct (written_len _ _ _ _ W) as [WL WR].
  destruct W as (pre & tail & I & L & B).
  destruct (c2b_coeff_ok logt Hl (S logt) rest c out room pre tail) as (out' & room' & pre' & tail' & E & I' & L' & B'); try lia; auto.
  exists out', room', (length pre'). rewrite L in E. split; [|split; [exact L'|]].
  - apply (sl_coeff_eq _ _ _ _ _ _ _ _ _ _ _ WR); [lia|lia|lia|exact E].
  - exists pre', tail'. split; [exact I'|]. split; [reflexivity|]. rewrite B', <- B, app_assoc. reflexivity.
Qed.

(** Coefficients all of whose bits count. *)
Lemma sl_coeffs_plain : forall logt size, 1 <= logt <= 64 -> forall cs out room j bl bs more,
  Forall (fun x => (x < 2 ^ N.of_nat logt)%N) cs -> length cs * logt <= bl -> 1 <= bl ->
  written out room j bs -> length bs + length cs * logt <= 8 * length out ->
  exists out' room' j',
    sl_coeffs logt size (cs ++ more) (out, room, j, bl) = sl_coeffs logt size more (out', room', j', bl - length cs * logt)
    /\ length out' = length out /\ written out' room' j' (bs ++ bitstring logt cs).
Proof.
  intros logt size Hl. induction cs as [|c r IH]; intros out room j bl bs more Hc Hb Hb1 W Hlen.
  - exists out, room, j. cbn [app length Nat.mul bitstring flat_map]. rewrite app_nil_r, Nat.sub_0_r. auto.
  - inversion Hc as [|x y Hc1 Hc2]; subst. cbn [length] in Hb, Hlen. cbn [app sl_coeffs].
    rewrite (proj2 (Nat.eqb_neq bl 0)) by lia. rewrite Nat.min_l by lia.
    destruct (sl_coeff_ok logt Hl c logt out room j bl bs Hc1) as (o1 & r1 & j1 & E1 & L1 & W1); try lia; [exact W|].
    rewrite E1. cbn [bind]. rewrite (firstn_all2 (bits logt c)) in W1 by (rewrite bits_length; lia).
    destruct r as [|c2 r].
    + exists o1, r1, j1. cbn [app length]. rewrite Nat.mul_1_l. split; [reflexivity|]. split; [exact L1|].
      unfold bitstring. cbn [flat_map]. rewrite app_nil_r. exact W1.
    + destruct (IH o1 r1 j1 (bl - logt) (bs ++ bits logt c) more Hc2) as (o2 & r2 & j2 & E2 & L2 & W2).
      * cbn [length Nat.mul] in *. lia.
      * cbn [length Nat.mul] in *. lia.
      * exact W1.
      * rewrite app_length, bits_length, L1. cbn [length Nat.mul] in *. lia.
      * exists o2, r2, j2. split; [rewrite E2; f_equal; f_equal; cbn [length Nat.mul]; lia|]. split; [congruence|].
        unfold bitstring in *. cbn [flat_map] in *. rewrite app_assoc. exact W2.
Qed.

(** The coefficients of one element: the bits of the last past the element are skipped. *)
Lemma sl_coeffs_group : forall logt size, 1 <= logt <= 64 -> 1 <= size -> (N.of_nat size < 2 ^ 29)%N ->
  forall g out room j bl bs more,
  Forall (fun x => (x < 2 ^ N.of_nat logt)%N) g -> length g = coeffs_per_element logt size -> bl = 0 \/ bl = 8 * size ->
  written out room j bs -> length bs + 8 * size <= 8 * length out ->
  exists out' room' j',
    sl_coeffs logt size (g ++ more) (out, room, j, bl) = sl_coeffs logt size more (out', room', j', 0)
    /\ length out' = length out /\ written out' room' j' (bs ++ firstn (8 * size) (bitstring logt g)).
Proof.
  intros logt size Hl Hs Hbig g out room j bl bs more Hg Lg Hbl W Hlen.
  assert (EB : ele_bits size = 8 * size).
  { unfold ele_bits, u32. rewrite N.mod_small by lia. lia. }
  assert (U : 8 * size <= length g * logt /\ length g * logt < 8 * size + logt).
  { rewrite Lg. pose proof (uint_num_spec (size * 8) logt ltac:(lia)) as U. unfold uint_num in U. unfold coeffs_per_element, ceil_div. lia. }
  assert (NE : g <> []) by (intros ->; cbn in U; lia).
  destruct (exists_last NE) as (h & c & ->). rewrite app_length in U. cbn [length] in U.
  rewrite Nat.mul_add_distr_r, Nat.mul_1_l in U. apply Forall_app in Hg as [Hh Hc]. inversion Hc as [|x y Hc1 Hc2]; subst x y.
  assert (Reset : forall st, sl_coeffs logt size ((h ++ [c]) ++ more) (st, bl) = sl_coeffs logt size ((h ++ [c]) ++ more) (st, 8 * size)).
  { intros [[o rm] jj]. destruct Hbl as [->| ->]; [|reflexivity].
    destruct h as [|h0 h]; cbn [app sl_coeffs]; rewrite Nat.eqb_refl, EB, (proj2 (Nat.eqb_neq (8 * size) 0)) by lia; reflexivity. }
  rewrite Reset. rewrite <- app_assoc.
  destruct (sl_coeffs_plain logt size Hl h out room j (8 * size) bs ([c] ++ more) Hh) as (o1 & r1 & j1 & E1 & L1 & W1); try lia; [exact W|].
  rewrite E1. cbn [app sl_coeffs]. rewrite (proj2 (Nat.eqb_neq _ 0)) by lia. rewrite Nat.min_r by lia.
  destruct (sl_coeff_ok logt Hl c (8 * size - length h * logt) o1 r1 j1 (8 * size - length h * logt) _ Hc1 ltac:(lia) ltac:(lia) W1) as (o2 & r2 & j2 & E2 & L2 & W2).
  { rewrite app_length, bitstring_length. lia. }
  rewrite E2. cbn [bind]. rewrite Nat.sub_diag. exists o2, r2, j2. split; [reflexivity|]. split; [congruence|].
  rewrite bitstring_app, firstn_app, bitstring_length.
  rewrite (firstn_all2 (bitstring logt h)) by (rewrite bitstring_length; lia).
  unfold bitstring at 2. cbn [flat_map]. rewrite app_nil_r, app_assoc. exact W2.
Qed.

Lemma sl_coeffs_groups : forall logt size, 1 <= logt <= 64 -> 1 <= size -> (N.of_nat size < 2 ^ 29)%N ->
  forall gs out room j bl bs more,
  Forall (fun g => Forall (fun x => (x < 2 ^ N.of_nat logt)%N) g /\ length g = coeffs_per_element logt size) gs ->
  bl = 0 \/ bl = 8 * size -> written out room j bs -> length bs + length gs * (8 * size) <= 8 * length out ->
  exists out' room' j' bl',
    sl_coeffs logt size (concat gs ++ more) (out, room, j, bl) = sl_coeffs logt size more (out', room', j', bl')
    /\ length out' = length out /\ written out' room' j' (bs ++ concat (map (fun g => firstn (8 * size) (bitstring logt g)) gs)).
Proof.
  intros logt size Hl Hs Hbig. induction gs as [|g r IH]; intros out room j bl bs more Hg Hbl W Hlen.
  - exists out, room, j, bl. cbn [concat map app]. rewrite app_nil_r. auto.
  - inversion Hg as [|x y [Hg1 Lg1] Hg2]; subst. cbn [concat map length] in *. rewrite <- app_assoc.
    destruct (sl_coeffs_group logt size Hl Hs Hbig g out room j bl bs (concat r ++ more) Hg1 Lg1 Hbl W) as (o1 & r1 & j1 & E1 & L1 & W1); [lia|].
    rewrite E1.
    destruct (IH o1 r1 j1 0 _ more Hg2 (or_introl eq_refl) W1) as (o2 & r2 & j2 & bl2 & E2 & L2 & W2).
    { rewrite app_length, L1. pose proof (firstn_le_length (8 * size) (bitstring logt g)) as Hle. 
      rewrite firstn_length. lia. }
    exists o2, r2, j2, bl2. rewrite E2. split; [reflexivity|]. split; [congruence|]. rewrite app_assoc. exact W2.
Qed.

Lemma written_init : forall k, written (repeat 0%N k) 8 0 [].
Proof.
  intros k. exists [], (repeat 0%N k). split; [|split; reflexivity]. split; [reflexivity|]. split.
  - apply Forall_forall. intros x Hx. apply repeat_spec in Hx as ->. reflexivity.
  - destruct k as [|k]; [left; auto|]. right. exists 0%N, k. split; [reflexivity|lia].
Qed.

Lemma sl_coeffs_full : forall logt size cs out room j bl, length out <= j ->
  exists bl', sl_coeffs logt size cs (out, room, j, bl) = Ok (out, room, j, bl').
Proof.
  intros logt size. induction cs as [|c r IH]; intros out room j bl H; [exists bl; reflexivity|].
  cbn [sl_coeffs]. rewrite sl_coeff_full by exact H. cbn [bind]. apply IH, H.
Qed.

Lemma written_bytes : forall out room j bs k, written out room j bs -> k <= j ->
  Forall is_byte (firstn k out) /\ bitstring 8 (firstn k out) = firstn (8 * k) bs.
Proof.
  intros out room j bs k (pre & tail & (-> & F & _) & L & <-) Hk. split.
  - apply Forall_forall. intros x Hx. rewrite Forall_forall in F. apply F. rewrite <- (firstn_skipn k (pre ++ tail)). apply in_or_app. auto.
  - rewrite firstn_app. replace (k - length pre) with 0 by lia. rewrite firstn_O, app_nil_r.
    rewrite bitstring_firstn, firstn_app, bitstring_length. replace (8 * k - length pre * 8) with 0 by lia.
    rewrite firstn_O, app_nil_r. f_equal. lia.
Qed.

(** Several elements in one plaintext. *)
Lemma sl_unpack_many : forall logt size, 1 <= logt <= 64 -> 1 <= size -> (N.of_nat size < 2 ^ 29)%N -> forall gs more,
  Forall (fun g => Forall (fun x => (x < 2 ^ N.of_nat logt)%N) g /\ length g = coeffs_per_element logt size) gs ->
  exists out, sl_unpack logt (concat gs ++ more) (length gs * size) size = Ok out /\ length out = length gs * size
    /\ Forall is_byte out /\ bitstring 8 out = concat (map (fun g => firstn (8 * size) (bitstring logt g)) gs).
Proof.
  intros logt size Hl Hs Hbig gs more Hg. unfold sl_unpack.
  destruct (sl_coeffs_groups logt size Hl Hs Hbig gs (repeat 0%N (length gs * size)) 8 0 (8 * size) [] more Hg (or_intror eq_refl)
    (written_init _)) as (o1 & r1 & j1 & bl1 & E1 & L1 & W1).
  { rewrite repeat_length. cbn [length]. lia. }
  rewrite repeat_length in L1. cbn [app] in W1.
  assert (G : length (concat (map (fun g => firstn (8 * size) (bitstring logt g)) gs)) = length gs * (8 * size)).
  { clear - Hg Hl. induction Hg as [|g r [H1 H2] _ IH]; [reflexivity|]. cbn [map concat length]. rewrite app_length, IH, firstn_length, bitstring_length, H2.
    pose proof (uint_num_spec (size * 8) logt ltac:(lia)) as U. unfold uint_num in U. unfold coeffs_per_element, ceil_div. lia. }
  assert (EB : ele_bits size = 8 * size) by (unfold ele_bits, u32; rewrite N.mod_small by lia; lia).
  rewrite EB, E1. destruct (written_len _ _ _ _ W1) as [WL WR]. rewrite G in WL.
  destruct (sl_coeffs_full logt size more o1 r1 j1 bl1) as [bl2 E2]; [lia|]. rewrite E2. cbn [bind].
  exists o1. split; [reflexivity|]. split; [exact L1|].
  destruct (written_bytes _ _ _ _ (length o1) W1 ltac:(lia)) as [F B]. rewrite firstn_all in F, B. split; [exact F|].
  rewrite B. apply firstn_all2. rewrite G. lia.
Qed.

(** One part of an element: all bits of all coefficients count. *)
Lemma sl_unpack_one : forall logt size, 1 <= logt <= 64 -> 1 <= size -> (N.of_nat size < 2 ^ 29)%N -> forall cs,
  Forall (fun x => (x < 2 ^ N.of_nat logt)%N) cs -> length cs * logt <= 8 * size ->
  exists out, sl_unpack logt cs size size = Ok out /\ length out = size
    /\ forall k, 8 * k <= length cs * logt -> Forall is_byte (firstn k out) /\ bitstring 8 (firstn k out) = firstn (8 * k) (bitstring logt cs).
Proof.
  intros logt size Hl Hs Hbig cs Hc Hlen. unfold sl_unpack.
  assert (EB : ele_bits size = 8 * size) by (unfold ele_bits, u32; rewrite N.mod_small by lia; lia).
  destruct (sl_coeffs_plain logt size Hl cs (repeat 0%N size) 8 0 (8 * size) [] [] Hc Hlen ltac:(lia) (written_init _)) as (o1 & r1 & j1 & E1 & L1 & W1).
  { rewrite repeat_length. cbn [length]. lia. }
  rewrite app_nil_r in E1. rewrite EB, E1. cbn [sl_coeffs bind]. rewrite repeat_length in L1. exists o1. split; [reflexivity|]. split; [exact L1|].
  intros k Hk. cbn [app] in W1. apply (written_bytes _ _ _ _ k W1).
  destruct (written_len _ _ _ _ W1) as [WL WR]. rewrite bitstring_length in WL. lia.
Qed.
