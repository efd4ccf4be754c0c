(** Lemmas about Recenter, RecenertMod, Rescale. *)
From Coq Require Import NArith ZArith Lia Bool.
From Verif Require Import Base SpArithModel SpArithSpec.
Local Open Scope Z_scope.

Lemma to_i64_small : forall x, (x < 2 ^ 63)%N -> to_i64 x = Z.of_N x.
Proof. intros x H. unfold to_i64. apply N.ltb_lt in H. rewrite H. reflexivity. Qed.
Lemma of_i64_small : forall x, 0 <= x < 2 ^ 64 -> of_i64 x = Z.to_N x.
Proof. intros. unfold of_i64. rewrite Z.mod_small by lia. reflexivity. Qed.
Lemma i64_ok : forall x, - 2 ^ 63 <= x < 2 ^ 63 -> i64 x = Ok x.
Proof.
  intros x H. unfold i64. replace (- 2 ^ 63 <=? x) with true by (symmetry; apply Z.leb_le; lia).
  replace (x <? 2 ^ 63) with true by (symmetry; apply Z.ltb_lt; lia). reflexivity.
Qed.
Lemma i128_ok : forall x, - 2 ^ 127 <= x < 2 ^ 127 -> i128 x = Ok x.
Proof.
  intros x H. unfold i128. replace (- 2 ^ 127 <=? x) with true by (symmetry; apply Z.leb_le; lia).
  replace (x <? 2 ^ 127) with true by (symmetry; apply Z.ltb_lt; lia). reflexivity.
Qed.
Lemma quot_ok : forall a b, b <> 0 -> quot_c a b = Ok (Z.quot a b).
Proof. intros. unfold quot_c. apply Z.eqb_neq in H. rewrite H. reflexivity. Qed.
Lemma rem_ok : forall a b, b <> 0 -> rem_c a b = Ok (Z.rem a b).
Proof. intros. unfold rem_c. apply Z.eqb_neq in H. rewrite H. reflexivity. Qed.

Lemma mod_multiple : forall k m, m <> 0 -> (k * m) mod m = 0.
Proof. intros. apply Z.mod_mul. assumption. Qed.

(** The representative the code picks. *)
Lemma pick_around : forall v m, (0 < m)%N -> (v < m)%N ->
  around_zero (if (m / 2 <=? v)%N then Z.of_N v - Z.of_N m else Z.of_N v) v m.
Proof.
  intros v m Hm Hv.
  pose proof (N.div_mod m 2 ltac:(lia)) as D. pose proof (N.mod_lt m 2 ltac:(lia)).
  set (h := (m / 2)%N) in *. set (e := (m mod 2)%N) in *. clearbody h e.
  destruct (h <=? v)%N eqn:E; split.
  - replace (Z.of_N v - Z.of_N m - Z.of_N v) with ((-1) * Z.of_N m) by lia. apply mod_multiple. lia.
  - apply N.leb_le in E. lia.
  - replace (Z.of_N v - Z.of_N v) with 0 by lia. apply Z.mod_0_l. lia.
  - apply N.leb_gt in E. lia.
Qed.

Lemma recenter_exact : forall val f t, (0 < t)%N -> (t <= f)%N -> (f <= 2 ^ 60)%N -> (val < f)%N ->
  exists c r, around_zero c val f /\ recenter val f t = Ok r /\ Z.of_N r = c mod Z.of_N t.
Proof.
  intros val f t Ht Htf Hf Hv.
  set (c := if (f / 2 <=? val)%N then Z.of_N val - Z.of_N f else Z.of_N val).
  exists c.
  pose proof (pick_around val f ltac:(lia) Hv) as PA. fold c in PA.
  exists (Z.to_N (c mod Z.of_N t)). split; [exact PA|].
  pose proof (Z.mod_pos_bound c (Z.of_N t) ltac:(lia)) as MB.
  split; [|rewrite Z2N.id by lia; reflexivity].
  unfold recenter. apply N.leb_le in Htf as Htf'. rewrite Htf'. cbn [enforce].
  rewrite !to_i64_small by lia.
  assert (E1 : (if (f / 2 <=? val)%N then i64 (Z.of_N val - Z.of_N f) else Ok (Z.of_N val)) = Ok c).
  { unfold c. destruct (f / 2 <=? val)%N; [apply i64_ok; lia|reflexivity]. }
  rewrite E1. cbn [bind]. rewrite quot_ok by lia. cbn [bind].
  rewrite Z.quot_div_nonneg by lia.
  pose proof (Z.div_mod (Z.of_N f) (Z.of_N t) ltac:(lia)) as D.
  pose proof (Z.mod_pos_bound (Z.of_N f) (Z.of_N t) ltac:(lia)) as Dm.
  set (q := Z.of_N f / Z.of_N t) in *.
  destruct PA as [_ A].
  assert (Cb : - Z.of_N f <= c <= Z.of_N f) by (unfold c; destruct (f / 2 <=? val)%N; lia).
  assert (Cl : - Z.of_N f <= 2 * c + 1) by lia.
  replace (q * Z.of_N t) with (Z.of_N t * q) by lia.
  rewrite i64_ok by lia. cbn [bind]. rewrite i64_ok by lia. cbn [bind].
  rewrite i64_ok by lia. cbn [bind]. rewrite i64_ok by lia. cbn [bind].
  rewrite rem_ok by lia. cbn [bind].
  rewrite Z.rem_mod_nonneg by lia.
  replace (c + Z.of_N t * q + 2 * Z.of_N t) with (c + (q + 2) * Z.of_N t) by lia.
  rewrite Z.mod_add by lia. rewrite of_i64_small by lia. reflexivity.
Qed.

Lemma recenter_mod_exact : forall val s l, (val < s)%N -> (s <= 2 ^ 62)%N -> (s <= l)%N -> (l <= 2 ^ 62)%N ->
  exists c r, around_zero c val s /\ recenter_mod val s l = Ok r /\ (r < l)%N /\ (Z.of_N r - c) mod Z.of_N l = 0.
Proof.
  intros val s l Hv Hs Hsl Hl.
  set (h := Z.of_N s / 2).
  pose proof (Z.div_mod (Z.of_N s) 2 ltac:(lia)) as D. pose proof (Z.mod_pos_bound (Z.of_N s) 2 ltac:(lia)).
  fold h in D.
  set (c := if Z.of_N val >? h then Z.of_N val - Z.of_N s else Z.of_N val).
  exists c, (Z.to_N (if c <? 0 then c + Z.of_N l else c)).
  assert (A : around_zero c val s).
  { unfold c. destruct (Z.of_N val >? h) eqn:E; split.
    - replace (Z.of_N val - Z.of_N s - Z.of_N val) with ((-1) * Z.of_N s) by lia. apply mod_multiple. lia.
    - apply Z.gtb_lt in E. lia.
    - replace (Z.of_N val - Z.of_N val) with 0 by lia. apply Z.mod_0_l. lia.
    - rewrite Z.gtb_ltb in E. apply Z.ltb_ge in E. lia. }
  split; [exact A|].
  assert (Cb : - Z.of_N s < c < Z.of_N s).
  { unfold c. destruct (Z.of_N val >? h) eqn:E; [apply Z.gtb_lt in E; lia|lia]. }
  split; [|split].
  - unfold recenter_mod. apply N.ltb_lt in Hv as Hv'. rewrite Hv'. cbn [enforce].
    rewrite !to_i64_small by lia. rewrite quot_ok by lia. cbn [bind].
    rewrite Z.quot_div_nonneg by lia. fold h.
    assert (E1 : (if Z.of_N val >? h then i64 (Z.of_N val - Z.of_N s) else Ok (Z.of_N val)) = Ok c).
    { unfold c. destruct (Z.of_N val >? h); [apply i64_ok; lia|reflexivity]. }
    rewrite E1. cbn [bind].
    destruct (c <? 0) eqn:E.
    + apply Z.ltb_lt in E. rewrite i64_ok by lia. cbn [bind]. rewrite of_i64_small by lia. reflexivity.
    + apply Z.ltb_ge in E. cbn [bind]. rewrite of_i64_small by lia. reflexivity.
  - destruct (c <? 0) eqn:E; [apply Z.ltb_lt in E|apply Z.ltb_ge in E]; lia.
  - destruct (c <? 0) eqn:E; [apply Z.ltb_lt in E|apply Z.ltb_ge in E]; rewrite Z2N.id by lia.
    + replace (c + Z.of_N l - c) with (1 * Z.of_N l) by lia. apply mod_multiple. lia.
    + replace (c - c) with 0 by lia. apply Z.mod_0_l. lia.
Qed.

Lemma round_quot : forall c a b h, 0 < a -> h = a / 2 -> 0 <= b ->
  nearest (Z.quot (c * b + (if c >=? 0 then 1 else -1) * h) a) c a b.
Proof.
  intros c a b h Ha Hh Hb. unfold nearest.
  pose proof (Z.div_mod a 2 ltac:(lia)) as D. pose proof (Z.mod_pos_bound a 2 ltac:(lia)). rewrite <- Hh in D.
  destruct (c >=? 0) eqn:E.
  - apply Z.geb_le in E. rewrite Z.quot_div_nonneg by nia.
    pose proof (Z.div_mod (c * b + 1 * h) a ltac:(lia)) as D2.
    pose proof (Z.mod_pos_bound (c * b + 1 * h) a ltac:(lia)).
    set (y := (c * b + 1 * h) / a) in *. clearbody y. nia.
  - assert (c < 0) by (rewrite Z.geb_leb in E; apply Z.leb_gt in E; lia).
    replace (c * b + -1 * h) with (- ((- c) * b + h)) by lia.
    rewrite Z.quot_opp_l by lia. rewrite Z.quot_div_nonneg by nia.
    pose proof (Z.div_mod (- c * b + h) a ltac:(lia)) as D2.
    pose proof (Z.mod_pos_bound (- c * b + h) a ltac:(lia)).
    set (y := (- c * b + h) / a) in *. clearbody y. nia.
Qed.

Lemma rescale_exact : forall a im om, (0 < im)%N -> (im <= 2 ^ 62)%N -> (0 < om)%N -> (om <= 2 ^ 62)%N ->
  exists c y r, around_zero c (a mod im) im /\ nearest y c (Z.of_N im) (Z.of_N om) /\
    rescale a im om = Ok r /\ Z.of_N r = y mod Z.of_N om.
Proof.
  intros a im om Him Him' Hom Hom'.
  pose proof (N.mod_lt a im ltac:(lia)) as Hv. set (v := (a mod im)%N) in *.
  set (c := if (im / 2 <=? v)%N then Z.of_N v - Z.of_N im else Z.of_N v).
  pose proof (pick_around v im Him Hv) as PA. fold c in PA.
  set (h := Z.of_N im / 2).
  set (y := Z.quot (c * Z.of_N om + (if c >=? 0 then 1 else -1) * h) (Z.of_N im)).
  assert (NR : nearest y c (Z.of_N im) (Z.of_N om)) by (apply round_quot; [lia|reflexivity|lia]).
  exists c, y, (Z.to_N (y mod Z.of_N om)).
  pose proof (Z.mod_pos_bound y (Z.of_N om) ltac:(lia)) as MB.
  split; [exact PA|]. split; [exact NR|]. split; [|rewrite Z2N.id by lia; reflexivity].
  unfold rescale.
  replace (im =? 0)%N with false by (symmetry; apply N.eqb_neq; lia).
  replace (om =? 0)%N with false by (symmetry; apply N.eqb_neq; lia). cbn [orb]. fold v.
  rewrite !to_i64_small by lia. rewrite quot_ok by lia. cbn [bind].
  rewrite (Z.quot_div_nonneg (Z.of_N im) 2) by lia. fold h.
  assert (Hh : h = Z.of_N (im / 2)) by (unfold h; rewrite N2Z.inj_div; reflexivity).
  assert (E1 : (if Z.of_N v >=? h then i64 (Z.of_N v - Z.of_N im) else Ok (Z.of_N v)) = Ok c).
  { unfold c. rewrite Hh. destruct (im / 2 <=? v)%N eqn:E.
    - apply N.leb_le in E. replace (Z.of_N v >=? Z.of_N (im / 2)) with true by (symmetry; apply Z.geb_le; lia).
      apply i64_ok. lia.
    - apply N.leb_gt in E.
      replace (Z.of_N v >=? Z.of_N (im / 2)) with false by (symmetry; rewrite Z.geb_leb; apply Z.leb_gt; lia).
      reflexivity. }
  rewrite E1. cbn [bind].
  destruct PA as [_ A].
  assert (Cb : - Z.of_N im <= c <= Z.of_N im) by (unfold c; destruct (im / 2 <=? v)%N; lia).
  assert (Cp : Z.abs (c * Z.of_N om) <= 2 ^ 62 * 2 ^ 62) by (rewrite Z.abs_mul; apply Z.mul_le_mono_nonneg; lia).
  assert (Hb : 0 <= h <= 2 ^ 61) by (unfold h; split; [apply Z.div_pos; lia|apply Z.div_le_upper_bound; lia]).
  rewrite i128_ok by lia. cbn [bind].
  rewrite (i64_ok ((if c >=? 0 then 1 else -1) * h)) by (destruct (c >=? 0); lia). cbn [bind].
  rewrite i128_ok by (destruct (c >=? 0); lia). cbn [bind].
  rewrite quot_ok by lia. cbn [bind]. fold y.
  assert (Yb : - 2 * Z.of_N om <= y <= 2 * Z.of_N om).
  { unfold nearest in NR. nia. }
  assert (T : u64 (im / om * om) = (im / om * om)%N).
  { unfold u64. apply N.mod_small. pose proof (N.mul_div_le im om ltac:(lia)). lia. }
  rewrite T. pose proof (N.mul_div_le im om ltac:(lia)) as TL.
  set (k := (im / om)%N) in *.
  rewrite i128_ok by lia. cbn [bind]. rewrite i128_ok by lia. cbn [bind].
  rewrite i128_ok by lia. cbn [bind]. rewrite rem_ok by lia. cbn [bind].
  rewrite Z.rem_mod_nonneg by lia.
  replace (y + Z.of_N (k * om) + 2 * Z.of_N om) with (y + (Z.of_N k + 2) * Z.of_N om) by lia.
  rewrite Z.mod_add by lia.
  replace (0 <=? y mod Z.of_N om) with true by (symmetry; apply Z.leb_le; lia). cbn [enforce].
  rewrite i128_ok by lia. cbn [bind]. rewrite rem_ok by lia. cbn [bind].
  rewrite Z.rem_mod_nonneg by lia.
  replace (y mod Z.of_N om + Z.of_N om) with (y mod Z.of_N om + 1 * Z.of_N om) by lia.
  rewrite Z.mod_add, Z.mod_mod by lia. rewrite Z.mod_small by lia. reflexivity.
Qed.
