(** Rows of the OKVS: legal, and the same on every path. *)
From Coq Require Import List Arith NArith Bool Lia Sorting.Sorted.
From Verif Require Import Base BaseProofs StoreModel GfModel GfSpec GfProofs GfProofs2 OkvsModel OkvsSpec.
Import ListNotations.
Local Open Scope N_scope.

Lemma cast_small : forall w x, x < 2 ^ w -> cast w x = x.
Proof. intros. unfold cast. apply N.mod_small; assumption. Qed.

Lemma word_lt : forall h i, word_at h i < 2 ^ 64.
Proof. intros. unfold word_at. apply N.mod_lt. discriminate. Qed.

(** The three columns, as numbers. *)
Definition cols3 (a b c : N) : list N :=
  let mn := N.min a b in
  let '(b', mx) := if a <=? b then (b + 1, b + 1) else (b, a) in
  let c1 := if mn <=? c then c + 1 else c in
  let c2 := if mx <=? c1 then c1 + 1 else c1 in
  [a; b'; c2].

Lemma cols3_legal : forall s a b c, a < s -> b < s - 1 -> c < s - 2 -> legal_row 3 s (cols3 a b c).
Proof.
  intros s a b c Ha Hb Hc. unfold cols3, legal_row.
  destruct (N.leb_spec a b).
  - rewrite N.min_l by lia.
    destruct (N.leb_spec a c); [destruct (N.leb_spec (b+1) (c+1)) | destruct (N.leb_spec (b+1) c)];
      (split; [reflexivity | split; [repeat constructor; cbn; lia | repeat constructor; lia]]).
  - rewrite N.min_r by lia.
    destruct (N.leb_spec b c); [destruct (N.leb_spec a (c+1)) | destruct (N.leb_spec a c)];
      (split; [reflexivity | split; [repeat constructor; cbn; lia | repeat constructor; lia]]).
Qed.

Definition row3_of (s h : N) : list N :=
  cols3 (word_at h 0 mod s) (word_at h 1 mod (s - 1)) (word_at h 2 mod (s - 2)).

Lemma row3_of_legal : forall s h, 3 <= s -> legal_row 3 s (row3_of s h).
Proof.
  intros. apply cols3_legal; apply N.mod_lt; lia.
Qed.

Lemma build_row3_is : forall w s h, 3 <= s -> s <= 2 ^ w -> build_row3 w s h = Ok (row3_of s h).
Proof.
  intros w s h H3 Hw. unfold build_row3, row3_of.
  destruct (N.leb_spec s 2) as [X|_]; [lia|].
  assert (A : word_at h 0 mod s < s) by (apply N.mod_lt; lia).
  assert (B : word_at h 1 mod (s - 1) < s - 1) by (apply N.mod_lt; lia).
  assert (C : word_at h 2 mod (s - 2) < s - 2) by (apply N.mod_lt; lia).
  rewrite !cast_small by lia.
  revert A B C. generalize (word_at h 0 mod s) (word_at h 1 mod (s - 1)) (word_at h 2 mod (s - 2)).
  intros a b c A B C.
  destruct (N.ltb_spec a s); [|lia]. destruct (N.ltb_spec b s); [|lia]. destruct (N.ltb_spec c s); [|lia].
  cbn [enforce]. unfold cols3. cbv zeta.
  destruct (N.leb_spec a b) as [L|L].
  - rewrite N.min_l by lia. replace (a + b - a) with b by lia. rewrite N.eqb_refl.
    destruct (N.leb_spec a c).
    + rewrite ?(cast_small w (c + 1)) by lia.
      destruct (N.leb_spec (b+1) (c+1)); rewrite ?cast_small by lia; reflexivity.
    + destruct (N.leb_spec (b+1) c); rewrite ?cast_small by lia; reflexivity.
  - rewrite N.min_r by lia. replace (a + b - b) with a by lia.
    destruct (N.eqb_spec a b); [lia|].
    destruct (N.leb_spec b c).
    + rewrite ?(cast_small w (c + 1)) by lia.
      destruct (N.leb_spec a (c+1)); rewrite ?cast_small by lia; reflexivity.
    + destruct (N.leb_spec a c); rewrite ?cast_small by lia; reflexivity.
Qed.

Lemma do_mod_is : forall v m, v < 2 ^ 64 -> 0 < m -> do_mod v m = v mod m.
Proof.
  intros v m Hv Hm. unfold do_mod, vsub.
  assert (E := N.div_mod v m ltac:(lia)). rewrite (N.mul_comm m) in E.
  assert (L : v mod m < m) by (apply N.mod_lt; lia).
  revert E L. generalize (v / m * m) (v mod m). intros k r E L.
  rewrite (N.mod_small k) by lia.
  replace (v + 2 ^ 64 - k) with (r + 1 * 2 ^ 64) by lia.
  rewrite N.mod_add by discriminate. apply N.mod_small. lia.
Qed.

Lemma sgt_is : forall a b, a < 2 ^ 63 -> b < 2 ^ 63 -> sgt a b = if b <? a then ones64 else 0.
Proof.
  intros a b Ha Hb. unfold sgt.
  change (2 ^ 64) with (2 ^ 63 + 2 ^ 63).
  rewrite !N.mod_small by lia.
  destruct (N.ltb_spec (b + 2 ^ 63) (a + 2 ^ 63)), (N.ltb_spec b a); try reflexivity; lia.
Qed.

Lemma vsub_0 : forall a, a < 2 ^ 64 -> vsub a 0 = a.
Proof. intros a H. unfold vsub. replace (a + 2 ^ 64 - 0) with (a + 1 * 2 ^ 64) by lia.
  rewrite N.mod_add by discriminate. apply N.mod_small; lia. Qed.
Lemma vsub_ones : forall a, a < 2 ^ 63 -> vsub a ones64 = a + 1.
Proof. intros a H. unfold vsub, ones64. replace (a + 2 ^ 64 - (2 ^ 64 - 1)) with (a + 1) by lia.
  apply N.mod_small; lia. Qed.

Lemma land_ones64 : forall a, a < 2 ^ 64 -> N.land a ones64 = a.
Proof. intros a H. change ones64 with (N.ones 64). rewrite N.land_ones. apply N.mod_small; assumption. Qed.

Lemma lane_row3_is : forall w s h, 3 <= s -> s <= 2 ^ 63 -> s <= 2 ^ w -> lane_row3 w s h = row3_of s h.
Proof.
  intros w s h H3 H63 Hw. unfold lane_row3, row3_of.
  rewrite !do_mod_is by (try apply word_lt; lia).
  assert (A : word_at h 0 mod s < s) by (apply N.mod_lt; lia).
  assert (B : word_at h 1 mod (s - 1) < s - 1) by (apply N.mod_lt; lia).
  assert (C : word_at h 2 mod (s - 2) < s - 2) by (apply N.mod_lt; lia).
  revert A B C. generalize (word_at h 0 mod s) (word_at h 1 mod (s - 1)) (word_at h 2 mod (s - 2)).
  intros a b c A B C.
  rewrite (sgt_is a b) by lia.
  assert (X : N.lxor a b < 2 ^ 64) by (apply lxor_below; change (2 ^ 64) with (2 ^ 63 + 2 ^ 63); lia).
  assert (V : forall m x, m = 0 \/ m = ones64 -> x < 2 ^ 63 -> vsub x m = if m =? 0 then x else x + 1).
  { intros m x [-> | ->] Hx; [rewrite vsub_0 by (change (2 ^ 64) with (2 ^ 63 + 2 ^ 63); lia); reflexivity | rewrite vsub_ones by assumption; reflexivity]. }
  unfold cols3.
  destruct (N.ltb_spec b a) as [L|L]; destruct (N.leb_spec a b) as [M|M]; try lia.
  - (* a > b *)
    rewrite land_ones64 by assumption.
    replace (N.lxor (N.lxor a b) b) with a by (rewrite N.lxor_assoc, N.lxor_nilpotent, N.lxor_0_r; reflexivity).
    replace (N.lxor (N.lxor a b) a) with b by (rewrite (N.lxor_comm a b), N.lxor_assoc, N.lxor_nilpotent, N.lxor_0_r; reflexivity).
    unfold veq. destruct (N.eqb_spec a b); [lia|].
    rewrite !vsub_0 by (change (2 ^ 64) with (2 ^ 63 + 2 ^ 63); lia).
    rewrite (sgt_is b c) by lia. rewrite N.min_r by lia.
    destruct (N.ltb_spec c b), (N.leb_spec b c); try lia.
    + rewrite N.lxor_nilpotent, vsub_0 by (change (2 ^ 64) with (2 ^ 63 + 2 ^ 63); lia).
      rewrite (sgt_is a c) by lia.
      destruct (N.ltb_spec c a), (N.leb_spec a c); try lia.
      rewrite N.lxor_nilpotent, vsub_0 by (change (2 ^ 64) with (2 ^ 63 + 2 ^ 63); lia).
      rewrite !cast_small by lia; reflexivity.
    + rewrite N.lxor_0_l, vsub_ones by lia. rewrite (sgt_is a (c + 1)) by lia.
      destruct (N.ltb_spec (c + 1) a), (N.leb_spec a (c + 1)); try lia.
      * rewrite N.lxor_nilpotent, vsub_0 by (change (2 ^ 64) with (2 ^ 63 + 2 ^ 63); lia).
        rewrite !cast_small by lia; reflexivity.
      * rewrite N.lxor_0_l, vsub_ones by lia. rewrite !cast_small by lia; reflexivity.
  - (* a <= b *)
    rewrite N.land_0_r, N.lxor_0_l.
    replace (N.lxor (N.lxor a b) b) with a by (rewrite N.lxor_assoc, N.lxor_nilpotent, N.lxor_0_r; reflexivity).
    unfold veq. rewrite N.eqb_refl. rewrite !vsub_ones by lia.
    rewrite (sgt_is a c) by lia. rewrite N.min_l by lia.
    destruct (N.ltb_spec c a), (N.leb_spec a c); try lia.
    + rewrite N.lxor_nilpotent, vsub_0 by (change (2 ^ 64) with (2 ^ 63 + 2 ^ 63); lia).
      rewrite (sgt_is (b + 1) c) by lia.
      destruct (N.ltb_spec c (b + 1)), (N.leb_spec (b + 1) c); try lia.
      rewrite N.lxor_nilpotent, vsub_0 by (change (2 ^ 64) with (2 ^ 63 + 2 ^ 63); lia).
      rewrite !cast_small by lia; reflexivity.
    + rewrite N.lxor_0_l, vsub_ones by lia. rewrite (sgt_is (b + 1) (c + 1)) by lia.
      destruct (N.ltb_spec (c + 1) (b + 1)), (N.leb_spec (b + 1) (c + 1)); try lia.
      * rewrite N.lxor_nilpotent, vsub_0 by (change (2 ^ 64) with (2 ^ 63 + 2 ^ 63); lia).
        rewrite !cast_small by lia; reflexivity.
      * rewrite N.lxor_0_l, vsub_ones by lia. rewrite !cast_small by lia; reflexivity.
Qed.

(** Any other weight. *)
Lemma ins_col_sorted : forall w s l col, s <= 2 ^ w ->
  StronglySorted N.lt l -> Forall (fun c => c < s) l -> col + N.of_nat (length l) < s ->
  StronglySorted N.lt (ins_col w col l) /\ Forall (fun c => c < s) (ins_col w col l) /\
  length (ins_col w col l) = S (length l) /\
  (forall y, In y (ins_col w col l) -> In y l \/ col <= y).
Proof.
  intros w s l. induction l as [|x r IH]; intros col Hw Hs Hf Hc.
  - cbn [ins_col length] in *. rewrite cast_small by lia.
    split; [repeat constructor|]. split; [repeat constructor; lia|]. split; [reflexivity|].
    intros y [<-|[]]. right; lia.
  - inversion Hs as [|? ? Hs' Hx]; subst. inversion Hf as [|? ? Hxs Hf']; subst.
    cbn [length] in Hc. cbn [ins_col].
    destruct (N.leb_spec x col) as [L|L].
    + destruct (IH (col + 1) Hw Hs' Hf' ltac:(lia)) as (A & B & C & D).
      split; [|split; [|split]].
      * constructor; [assumption|]. apply Forall_forall. intros y Hy.
        destruct (D y Hy) as [E|E]; [rewrite Forall_forall in Hx; apply Hx; assumption|lia].
      * constructor; assumption.
      * cbn [length]. rewrite C. reflexivity.
      * intros y [<-|Hy]; [left; left; reflexivity|].
        destruct (D y Hy); [left; right; assumption|right; lia].
    + rewrite cast_small by lia.
      split; [|split; [|split]].
      * constructor; [assumption|]. constructor; [assumption|].
        rewrite Forall_forall in *. intros y Hy. specialize (Hx y Hy). lia.
      * constructor; [lia|assumption].
      * reflexivity.
      * intros y [<-|Hy]; [right; lia|left; assumption].
Qed.

Lemma rows_loop_sorted : forall avx w s todo hh j l, s <= 2 ^ w ->
  StronglySorted N.lt l -> Forall (fun c => c < s) l -> N.of_nat (length l) = j ->
  j + N.of_nat todo <= s ->
  exists r, rows_loop avx w s hh todo j l = Ok r /\ StronglySorted N.lt r /\
            Forall (fun c => c < s) r /\ length r = (length l + todo)%nat.
Proof.
  intros avx w s todo. induction todo as [|k IH]; intros hh j l Hw Hs Hf Hl Hj.
  - exists l. cbn [rows_loop]. repeat split; try assumption. lia.
  - cbn [rows_loop]. destruct (N.eqb_spec (s - j) 0) as [E|_]; [lia|].
    assert (M : (gf_mul avx hh hh mod 2 ^ 64) mod (s - j) < s - j) by (apply N.mod_lt; lia).
    destruct (ins_col_sorted w s l _ Hw Hs Hf (ltac:(lia) : (gf_mul avx hh hh mod 2 ^ 64) mod (s - j) + N.of_nat (length l) < s))
      as (A & B & C & _).
    edestruct (IH (gf_mul avx hh hh) (j + 1) _ Hw A B) as (r & E & F & G & H); [lia|lia|].
    exists r. repeat split; try assumption. rewrite H, C. lia.
Qed.

Lemma rows_loop_any : forall avx w s todo hh j l, hh < 2 ^ 128 ->
  rows_loop avx w s hh todo j l = rows_loop true w s hh todo j l.
Proof.
  intros avx w s todo. induction todo as [|k IH]; intros hh j l H; [reflexivity|].
  cbn [rows_loop]. rewrite (mul_any avx hh hh H H).
  destruct (s - j =? 0); [reflexivity|]. apply IH. apply mul_red; assumption.
Qed.

Lemma rows_loop_width : forall w w' s todo hh j l, s <= 2 ^ w -> s <= 2 ^ w' ->
  N.of_nat (length l) = j -> j + N.of_nat todo <= s ->
  StronglySorted N.lt l -> Forall (fun c => c < s) l ->
  rows_loop true w s hh todo j l = rows_loop true w' s hh todo j l.
Proof.
  intros w w' s todo. induction todo as [|k IH]; intros hh j l Hw Hw' Hl Hj Hs Hf; [reflexivity|].
  cbn [rows_loop]. destruct (N.eqb_spec (s - j) 0) as [E|_]; [lia|].
  set (c := (gf_mul true hh hh mod 2 ^ 64) mod (s - j)).
  assert (M : c < s - j) by (apply N.mod_lt; lia).
  assert (I : forall l c, c + N.of_nat (length l) < s -> ins_col w c l = ins_col w' c l).
  { clear - Hw Hw'. induction l as [|x r IHl]; intros c Hc; cbn [ins_col length] in *.
    - rewrite !cast_small by lia. reflexivity.
    - destruct (x <=? c); [rewrite IHl by lia; reflexivity|]. rewrite !cast_small by lia. reflexivity. }
  rewrite <- (I l c) by lia.
  destruct (ins_col_sorted w s l c Hw Hs Hf ltac:(lia)) as (A & B & C & _).
  apply IH; try assumption; lia.
Qed.

(** Parameters for which decoding is defined. *)
Definition param_ok (w : N) (q : okvs_param) : Prop :=
  (1 <= ok_weight q)%nat /\ ok_sparse q <= 2 ^ w /\ ok_sparse q <= 2 ^ 63 /\
  N.of_nat (ok_weight q) <= ok_sparse q.

(** The row of a hash: computed with the widest index type on an AVX2 machine. *)
Definition row_of (q : okvs_param) (h : N) : list N :=
  match build_row true 64 q h with Ok r => r | _ => [] end.

Lemma pow63_64 : 2 ^ 63 <= 2 ^ 64. Proof. apply N.pow_le_mono_r; lia. Qed.

Lemma build_row_ok : forall avx w q h, param_ok w q -> h < 2 ^ 128 ->
  build_row avx w q h = Ok (row_of q h) /\ legal_row (ok_weight q) (ok_sparse q) (row_of q h).
Proof.
  intros avx w q h (H1 & Hw & H63 & Hn) Hh. unfold row_of, build_row.
  pose proof pow63_64 as P.
  destruct (Nat.eqb_spec (ok_weight q) 3) as [E|E].
  - rewrite E in *. rewrite !build_row3_is by lia.
    split; [reflexivity|]. apply row3_of_legal. lia.
  - rewrite (rows_loop_any avx) by assumption.
    rewrite (rows_loop_width w 64) by (try constructor; cbn [length]; lia).
    destruct (rows_loop_sorted true 64 (ok_sparse q) (ok_weight q) h 0 []) as (r & A & B & C & D);
      [lia | constructor | constructor | reflexivity | lia |].
    rewrite A. split; [reflexivity|]. split; [assumption|]. split; [|assumption].
    clear - B. induction B as [|x l S IH F]; constructor; [|assumption].
    intros I. rewrite Forall_forall in F. specialize (F x I). lia.
Qed.

Lemma omapM_ok : forall A B (f : A -> outcome B) g l, (forall x, In x l -> f x = Ok (g x)) ->
  omapM f l = Ok (map g l).
Proof.
  induction l as [|x r IH]; intros H; [reflexivity|].
  cbn [omapM map]. rewrite H by (left; reflexivity). cbn [bind].
  rewrite IH by (intros; apply H; right; assumption). reflexivity.
Qed.

Lemma build_row32_ok : forall avx w q hs, param_ok w q -> Forall (fun h => h < 2 ^ 128) hs ->
  build_row32 avx w q hs = Ok (map (row_of q) hs).
Proof.
  intros avx w q hs Hq Hh. unfold build_row32. rewrite Forall_forall in Hh.
  destruct (Nat.eqb_spec (ok_weight q) 3) as [E|E]; destruct avx; cbn [andb];
    try (apply omapM_ok; intros h I; apply build_row_ok; auto; fail).
  destruct Hq as (H1 & Hw & H63 & Hn). rewrite E in Hn. pose proof pow63_64 as P.
  destruct (N.leb_spec (ok_sparse q) 2); [lia|]. f_equal. apply map_ext_in. intros h I.
  unfold row_of, build_row. rewrite E. cbn [Nat.eqb].
  rewrite build_row3_is by lia. apply lane_row3_is; lia.
Qed.
