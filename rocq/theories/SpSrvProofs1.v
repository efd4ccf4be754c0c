(** Matrices of words and the polynomials they stand for: copying, adding, scaling, automorphisms. *)
From Coq Require Import List Arith NArith ZArith Bool Lia.
From Verif Require Import Base StoreModel StoreProofs PirPackModel PirPackProofs2 SpArithModel SpArithProofs SpLoopModel SpLoopProofs
  SpGadgetModel SpGadgetSpec SpGadgetProofs SpDecodeModel SpDecodeSpec SpDecodeProofs2 SpRingModel SpRingSpec SpRingProofs SpRingProofs2
  SpSelModel NttModel NttSpec NttProofs NttProofs2 NttProofs3 NttProofs4 NttProofs5 SpSrvModel.
Import ListNotations.
Local Open Scope N_scope.
Local Notation zN := Z.of_N.

Lemma idx_lt : forall r c rows cols, (r < rows)%nat -> (c < cols)%nat -> (r * cols + c < rows * cols)%nat.
Proof. intros. nia. Qed.
Lemma poly_span : forall k K w, (k < K)%nat -> (k * w + w <= K * w)%nat.
Proof. intros. nia. Qed.
Lemma list_ext : forall (l l' : list N), length l = length l' -> (forall i, (i < length l)%nat -> nth i l 0 = nth i l' 0) -> l = l'.
Proof. intros l l' H1 H2. apply (nth_ext _ _ 0 0 H1 H2). Qed.

Lemma get_lt : forall (A : Type) (d : A) p l, (p < length l)%nat -> get p l = Ok (nth p l d).
Proof.
  intros A d p l H. unfold get. destruct (nth_error l p) as [v|] eqn:E.
  - rewrite (nth_error_nth _ _ _ E). reflexivity.
  - apply nth_error_None in E. lia.
Qed.
Lemma put_lt : forall (A : Type) (d : A) p x l, (p < length l)%nat ->
  exists l', put p x l = Ok l' /\ length l' = length l /\ forall k, nth k l' d = if (k =? p)%nat then x else nth k l d.
Proof.
  intros A d p x l Hp. unfold put. rewrite (proj2 (Nat.ltb_lt _ _) Hp). eexists. split; [reflexivity|].
  split; [apply upd_length|]. intros k. revert p Hp k.
  induction l as [|y l IH]; intros p Hp k; cbn [length] in Hp; [lia|].
  destruct p as [|p]; cbn [upd]; destruct k as [|k]; cbn [nth Nat.eqb]; try reflexivity.
  apply IH. lia.
Qed.

(** * Copying *)
Definition sized (w rows cols : nat) (m : raw_mat) : Prop :=
  rm_rows m = rows /\ rm_cols m = cols /\ length (rm_data m) = (rows * cols * w)%nat.

Lemma poly_at_len : forall w rows cols m r c, sized w rows cols m -> (r < rows)%nat -> (c < cols)%nat -> length (poly_at w m r c) = w.
Proof.
  intros w rows cols m r c (H1 & H2 & H3) Hr Hc. unfold poly_at. apply slice_length. rewrite H2, H3.
  apply poly_span, idx_lt; assumption.
Qed.
Lemma poly_at_nth : forall w m r c i, (i < w)%nat -> nth i (poly_at w m r c) 0 = nth ((r * rm_cols m + c) * w + i) (rm_data m) 0.
Proof. intros. unfold poly_at. apply slice_nth. assumption. Qed.

Lemma store_at : forall w rows cols m r c xs, sized w rows cols m -> (r < rows)%nat -> (c < cols)%nat -> length xs = w ->
  exists d, store ((r * cols + c) * w) xs (rm_data m) = Ok d /\ sized w rows cols (RawMat rows cols d)
    /\ forall r' c', (r' < rows)%nat -> (c' < cols)%nat ->
       poly_at w (RawMat rows cols d) r' c' = if ((r' =? r) && (c' =? c))%nat then xs else poly_at w m r' c'.
Proof.
  intros w rows cols m r c xs (S1 & S2 & S3) Hr Hc Hx.
  pose proof (poly_span _ _ w (idx_lt r c rows cols Hr Hc)) as Hb.
  destruct (store_ok xs ((r * cols + c) * w) (rm_data m)) as (d & E & Ld & Hd); [rewrite Hx, S3; exact Hb|].
  exists d. split; [exact E|]. split; [split; [reflexivity|]; split; [reflexivity|]; cbn [rm_data]; lia|].
  intros r' c' Hr' Hc'. pose proof (poly_span _ _ w (idx_lt r' c' rows cols Hr' Hc')) as Hb'.
  assert (SZ : sized w rows cols (RawMat rows cols d)) by (split; [reflexivity|]; split; [reflexivity|]; cbn [rm_data]; lia).
  assert (SM : sized w rows cols m) by (split; auto).
  destruct ((r' =? r) && (c' =? c))%nat eqn:B.
  - apply andb_true_iff in B as [B1 B2]. apply Nat.eqb_eq in B1, B2. subst r' c'.
    apply list_ext; [rewrite (poly_at_len w rows cols) by assumption; lia|].
    rewrite (poly_at_len w rows cols) by assumption. intros i Hi. rewrite poly_at_nth by exact Hi. cbn [rm_cols rm_data]. rewrite Hd, Hx.
    replace (((r * cols + c) * w <=? (r * cols + c) * w + i) && ((r * cols + c) * w + i <? (r * cols + c) * w + w))%nat with true.
    + f_equal. lia.
    + symmetry. apply andb_true_iff. split; [apply Nat.leb_le|apply Nat.ltb_lt]; lia.
  - apply list_ext; [rewrite !(poly_at_len w rows cols) by assumption; lia|].
    rewrite (poly_at_len w rows cols) by assumption. intros i Hi. rewrite !poly_at_nth by exact Hi. cbn [rm_cols rm_data]. rewrite Hd, Hx, S2.
    replace (((r * cols + c) * w <=? (r' * cols + c') * w + i) && ((r' * cols + c') * w + i <? (r * cols + c) * w + w))%nat with false; [reflexivity|].
    symmetry. apply andb_false_iff.
    assert (K : (r' * cols + c' <> r * cols + c)%nat).
    { intros K. assert (r' = r) by (clear - K Hc Hc'; nia). assert (c' = c) by (subst; lia). subst.
      rewrite !Nat.eqb_refl in B. discriminate. }
    destruct (Nat.lt_ge_cases (r' * cols + c') (r * cols + c)) as [K1|K1].
    + left. apply Nat.leb_gt. pose proof (poly_span _ _ w K1). lia.
    + right. apply Nat.ltb_ge. pose proof (poly_span (r * cols + c) (r' * cols + c') w ltac:(lia)). lia.
Qed.

Lemma read_ok : forall w rows cols m r c, sized w rows cols m -> (r < rows)%nat -> (c < cols)%nat -> read_poly w m r c = Ok (poly_at w m r c).
Proof.
  intros w rows cols m r c (H1 & H2 & H3) Hr Hc. unfold read_poly. rewrite H2, H3.
  rewrite (proj2 (Nat.leb_le _ _)); [reflexivity|]. apply poly_span, idx_lt; assumption.
Qed.

Lemma copy_ok : forall w rows cols srows scols dst src row col, sized w rows cols dst -> sized w srows scols src ->
  (1 <= srows)%nat -> (1 <= scols)%nat -> (row + srows <= rows)%nat -> (col + scols <= cols)%nat ->
  exists m, copy_into w dst src row col = Ok m /\ sized w rows cols m
    /\ forall r c, (r < rows)%nat -> (c < cols)%nat ->
       poly_at w m r c = if ((row <=? r) && (r <? row + srows) && (col <=? c) && (c <? col + scols))%nat
                         then poly_at w src (r - row) (c - col) else poly_at w dst r c.
Proof.
  intros w rows cols srows scols dst src row col SD SS H1 H2 H3 H4.
  destruct SD as (D1 & D2 & D3). destruct SS as (S1 & S2 & S3). assert (SS : sized w srows scols src) by (split; auto).
  unfold copy_into. rewrite D1, D2, S1, S2.
  rewrite (proj2 (Nat.ltb_lt row rows)), (proj2 (Nat.ltb_lt col cols)), (proj2 (Nat.leb_le (row + srows) rows)),
    (proj2 (Nat.leb_le (col + scols) cols)) by lia. cbn [andb enforce].
  set (Inv := fun (R C : nat) (d : list N) => sized w rows cols (RawMat rows cols d)
     /\ forall r c, (r < rows)%nat -> (c < cols)%nat ->
        poly_at w (RawMat rows cols d) r c
        = if ((row <=? r) && (r <? row + R) && (col <=? c) && (c <? col + scols)
              || (r =? row + R) && (col <=? c) && (c <? col + C))%nat%bool
          then poly_at w src (r - row) (c - col) else poly_at w dst r c).
  match goal with |- context [loop srows 0 ?f (rm_data dst)] =>
    destruct (loop_rule (list N) srows 0 f (fun R d => Inv R 0%nat d) (rm_data dst)) as (d & E & Hd) end.
  - split; [split; [reflexivity|]; split; [reflexivity|exact D3]|]. intros r c Hr Hc.
    replace (poly_at w (RawMat rows cols (rm_data dst)) r c) with (poly_at w dst r c) by (unfold poly_at; cbn [rm_cols rm_data]; rewrite D2; reflexivity).
    match goal with |- _ = if ?b then _ else _ => replace b with false; [reflexivity|symmetry] end.
    apply orb_false_iff. split.
    + destruct (Nat.leb_spec row r); [|reflexivity]. rewrite (proj2 (Nat.ltb_ge r (row + 0))) by lia. reflexivity.
    + destruct (Nat.leb_spec col c); [|rewrite andb_false_r; reflexivity]. rewrite (proj2 (Nat.ltb_ge c (col + 0))) by lia. apply andb_false_r.
  - intros R d HR HI.
    match goal with |- context [loop scols 0 ?f d] =>
      destruct (loop_rule (list N) scols 0 f (fun C d => Inv R C d) d HI) as (d' & E' & Hd') end.
    + intros C d1 HC [I1 I2]. rewrite (read_ok w srows scols src R C SS) by lia. cbn [bind].
      destruct (store_at w rows cols (RawMat rows cols d1) (row + R) (col + C) (poly_at w src R C) I1) as (d2 & E2 & I3 & I4); try lia.
      { apply (poly_at_len w srows scols); [exact SS|lia|lia]. }
      cbn [rm_data] in E2. exists d2. split; [exact E2|]. split; [exact I3|]. intros r c Hr Hc. rewrite I4 by assumption.
      destruct ((r =? row + R) && (c =? col + C))%nat eqn:B.
      * apply andb_true_iff in B as [B1 B2]. apply Nat.eqb_eq in B1, B2. subst r c.
        replace (row + R - row)%nat with R by lia. replace (col + C - col)%nat with C by lia.
        match goal with |- _ = if ?b then _ else _ => replace b with true; [reflexivity|symmetry] end.
        apply orb_true_iff. right. rewrite Nat.eqb_refl, (proj2 (Nat.leb_le col (col + C))) by lia. cbn [andb]. apply Nat.ltb_lt. lia.
      * rewrite I2 by assumption.
        match goal with |- (if ?a then _ else _) = if ?b then _ else _ => replace b with a; [reflexivity|] end.
        f_equal. destruct (Nat.eqb_spec r (row + R)) as [Hr'|]; [|reflexivity]. cbn [andb] in *.
        apply Nat.eqb_neq in B. f_equal. clear - B. destruct (Nat.ltb_spec c (col + C)), (Nat.ltb_spec c (col + (C + 1))); try reflexivity; lia.
    + exists d'. split; [exact E'|]. destruct Hd' as [I1 I2]. split; [exact I1|]. intros r c Hr Hc. rewrite I2 by assumption.
      match goal with |- (if ?a then _ else _) = if ?b then _ else _ => replace b with a; [reflexivity|] end.
      clear.
      destruct (Nat.leb_spec row r), (Nat.ltb_spec r (row + R)), (Nat.ltb_spec r (row + (R + 1))), (Nat.leb_spec col c),
        (Nat.ltb_spec c (col + scols)), (Nat.eqb_spec r (row + R)), (Nat.eqb_spec r (row + (R + 1))),
        (Nat.ltb_spec c (col + (0 + scols))), (Nat.ltb_spec c (col + 0)); cbn [andb orb]; try reflexivity; lia.
  - rewrite E. cbn [bind]. eexists. split; [reflexivity|]. destruct Hd as [I1 I2]. split; [exact I1|].
    intros r c Hr Hc. rewrite I2 by assumption. rewrite Nat.add_0_l.
    match goal with |- (if ?a then _ else _) = if ?b then _ else _ => assert (X : a = b); [|rewrite X; reflexivity] end.
    clear - Hr Hc. destruct (Nat.ltb_spec c (col + 0)), (Nat.leb_spec col c); cbn [andb]; rewrite ?andb_false_r, ?orb_false_r; try reflexivity; lia.
Qed.
