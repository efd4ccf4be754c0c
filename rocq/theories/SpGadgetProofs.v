(** Proofs about SpGadgetModel. *)
From Coq Require Import List Arith NArith Bool Lia.
From Verif Require Import Base StoreModel StoreProofs SpLoopModel SpLoopProofs SpGadgetModel SpGadgetSpec.
Import ListNotations.

Lemma fold_right_add : forall l a, fold_right N.add a l = (fold_right N.add 0 l + a)%N.
Proof. induction l as [|x l IH]; intros a; cbn [fold_right]; [lia|]. rewrite IH. lia. Qed.

Lemma nsum_S : forall n f, nsum (S n) f = (nsum n f + f n)%N.
Proof.
  intros n f. unfold nsum. rewrite seq_S, map_app, fold_right_app. cbn [map fold_right Nat.add].
  rewrite fold_right_add. lia.
Qed.
Lemma nsum_0 : forall f, nsum 0 f = 0%N. Proof. reflexivity. Qed.
Lemma nsum_ext : forall n f g, (forall i, i < n -> f i = g i) -> nsum n f = nsum n g.
Proof.
  induction n as [|n IH]; intros f g H; [reflexivity|]. rewrite !nsum_S, (IH f g), H; auto.
Qed.
Lemma nsum_zero : forall n f, (forall i, i < n -> f i = 0%N) -> nsum n f = 0%N.
Proof.
  induction n as [|n IH]; intros f H; [reflexivity|]. rewrite nsum_S, IH, H; auto.
Qed.
Lemma nsum_single : forall n f r, r < n -> (forall i, i < n -> i <> r -> f i = 0%N) -> nsum n f = f r.
Proof.
  induction n as [|n IH]; intros f r Hr H; [lia|]. rewrite nsum_S.
  destruct (Nat.eq_dec r n) as [->|Hne].
  - rewrite nsum_zero; [lia|]. intros i Hi. apply H; lia.
  - rewrite (IH f r), (H n) by (try lia; auto). lia.
Qed.
Lemma nsum_app : forall n m f, nsum (n + m) f = (nsum n f + nsum m (fun i => f (n + i)%nat))%N.
Proof.
  intros n m. revert n. induction m as [|m IH]; intros n f.
  - rewrite Nat.add_0_r, nsum_0. lia.
  - rewrite Nat.add_succ_r, !nsum_S, IH. lia.
Qed.
Lemma nsum_blocks : forall num rdim f,
  nsum (num * rdim) f = nsum num (fun k => nsum rdim (fun j => f (k * rdim + j))).
Proof.
  induction num as [|num IH]; intros rdim f; [reflexivity|].
  replace (S num * rdim) with (num * rdim + rdim) by lia.
  rewrite nsum_app, IH, nsum_S. reflexivity.
Qed.

(** Digits of a number. *)
Definition digit (bits : nat) (v : N) (k : nat) : N :=
  ((v / 2 ^ N.of_nat (bits * k)) mod 2 ^ N.of_nat bits)%N.

Lemma digits_sum : forall bits v num,
  nsum num (fun k => 2 ^ N.of_nat (bits * k) * digit bits v k)%N
  = (v mod 2 ^ N.of_nat (bits * num))%N.
Proof.
  intros bits v. induction num as [|num IH].
  - rewrite Nat.mul_0_r. cbn [N.of_nat]. rewrite N.mod_1_r. reflexivity.
  - rewrite nsum_S, IH. unfold digit.
    replace (N.of_nat (bits * S num)) with (N.of_nat (bits * num) + N.of_nat bits)%N by lia.
    rewrite N.pow_add_r, N.mod_mul_r by (apply N.pow_nonzero; lia). lia.
Qed.

(** What the code computes. *)
Definition piece (bits : nat) (v : N) (k : nat) : N :=
  if 64 <=? k * bits then 0%N
  else N.land (N.shiftr v (N.of_nat (k * bits))) (2 ^ N.of_nat bits - 1).
Definition weight (bits k : nat) : N :=
  if 64 <=? bits * k then 0%N else (2 ^ N.of_nat (bits * k))%N.

Lemma piece_digit : forall bits v k, (v < 2 ^ 64)%N -> piece bits v k = digit bits v k.
Proof.
  intros bits v k Hv. unfold piece, digit. rewrite (Nat.mul_comm k bits).
  destruct (Nat.leb_spec 64 (bits * k)) as [H|H].
  - rewrite N.div_small; [rewrite N.mod_0_l; [reflexivity|apply N.pow_nonzero; lia]|].
    eapply N.lt_le_trans; [exact Hv|]. apply N.pow_le_mono_r; lia.
  - rewrite N.shiftr_div_pow2. change (2 ^ N.of_nat bits - 1)%N with (2 ^ N.of_nat bits - 1)%N.
    rewrite <- N.pred_sub, <- N.ones_equiv, N.land_ones. reflexivity.
Qed.

Lemma weight_piece : forall bits v k, (v < 2 ^ 64)%N ->
  (weight bits k * piece bits v k = 2 ^ N.of_nat (bits * k) * digit bits v k)%N.
Proof.
  intros bits v k Hv. rewrite <- (piece_digit bits v k Hv). unfold weight, piece.
  rewrite (Nat.mul_comm k bits). destruct (64 <=? bits * k); [lia|reflexivity].
Qed.

Lemma pieces_sum : forall bits v num ml, (v < 2 ^ N.of_nat ml)%N -> ml <= 64 -> ml <= bits * num ->
  nsum num (fun k => weight bits k * piece bits v k)%N = v.
Proof.
  intros bits v num ml Hv Hml Hb.
  assert (Hv64 : (v < 2 ^ 64)%N).
  { eapply N.lt_le_trans; [exact Hv|]. apply N.pow_le_mono_r; lia. }
  rewrite (nsum_ext _ _ (fun k => 2 ^ N.of_nat (bits * k) * digit bits v k)%N)
    by (intros; apply weight_piece; auto).
  rewrite digits_sum. apply N.mod_small. eapply N.lt_le_trans; [exact Hv|]. apply N.pow_le_mono_r; lia.
Qed.

Lemma bits_cover : forall ml num bits, get_bits_per ml num = Ok bits -> 1 <= num -> ml <= bits * num /\ 1 <= bits.
Proof.
  intros ml num bits H Hn. unfold get_bits_per in H. destruct (Nat.eqb_spec num ml) as [->|Hne].
  - injection H as <-. lia.
  - destruct (Nat.eqb_spec num 0); [lia|]. injection H as <-.
    pose proof (Nat.div_mod ml num ltac:(lia)). pose proof (Nat.mod_upper_bound ml num ltac:(lia)). nia.
Qed.

Section Fill.
Variables poly_len modulus_log2 : nat.
Hypothesis Hpl : 1 <= poly_len.

Lemma gadget_fill : forall rows num bits, 1 <= rows -> 1 <= num ->
  get_bits_per modulus_log2 num = Ok bits ->
  exists d, build_gadget poly_len modulus_log2 rows (num * rows) = Ok (RawMat rows (num * rows) d)
    /\ length d = rows * (num * rows) * poly_len
    /\ forall r t z, r < rows -> t < num * rows -> z < poly_len ->
       coeff poly_len (num * rows) d r t z
       = if (z =? 0) && (t mod rows =? r) then weight bits (t / rows) else 0%N.
Proof using Hpl. clear - Hpl.
  intros rows num bits Hr Hn Hb. unfold build_gadget.
  destruct (Nat.eqb_spec rows 0); [lia|]. rewrite Nat.mod_mul by lia. cbn [Nat.eqb enforce].
  rewrite Nat.div_mul by lia. rewrite Hb. cbn [bind raw_zero rm_data].
  set (L := rows * (num * rows) * poly_len).
  set (F := fun p => let z := p mod poly_len in let t := (p / poly_len) mod (num * rows) in
                     let r := p / poly_len / (num * rows) in
                     if (z =? 0) && (t mod rows =? r) then weight bits (t / rows) else 0%N).
  assert (Hc : num * rows <> 0) by (apply Nat.neq_mul_0; lia).
  assert (HF : forall r t z, t < num * rows -> z < poly_len ->
    F ((r * (num * rows) + t) * poly_len + z)
    = if (z =? 0) && (t mod rows =? r) then weight bits (t / rows) else 0%N).
  { intros r t z Ht Hz. unfold F. destruct (div_mod_unique2 (r * (num * rows) + t) poly_len z Hz) as [-> ->].
    destruct (div_mod_unique2 r (num * rows) t Ht) as [-> ->]. reflexivity. }
  assert (Hpos : forall r t z, r < rows -> t < num * rows -> z < poly_len ->
    (r * (num * rows) + t) * poly_len + z < L).
  { intros r t z H1 H2 H3. unfold L. set (c := num * rows) in *. clearbody c.
    assert (r * c + t + 1 <= rows * c) by nia. nia. }
  assert (Hfill : filler L F (fun p => exists i, 0 <= i < 0 + rows /\ exists j, 0 <= j < 0 + num
                   /\ (bits * j < 64 /\ p = (i * (num * rows) + (i + j * rows)) * poly_len))
     (loop rows 0 (fun i d => loop num 0 (fun j d =>
        if 64 <=? bits * j then Ok d
        else put (poly_start poly_len (RawMat rows (num * rows) (repeat 0%N (poly_len * rows * (num * rows)))) i (i + j * rows))
                 (2 ^ N.of_nat (bits * j))%N d) d))).
  { apply loop_filler. intros i Hi. apply (loop_filler _ L F num 0).
    intros j Hj. unfold poly_start. cbn [rm_cols].
    destruct (Nat.leb_spec 64 (bits * j)) as [Hb64|Hb64].
    - apply (filler_weaken _ L F (fun _ => False)); [intros p [Hp _]; lia|apply ok_filler].
    - assert (Ht : i + j * rows < num * rows) by nia.
      apply (filler_weaken _ L F (eq ((i * (num * rows) + (i + j * rows)) * poly_len))); [intros p [_ ->]; reflexivity|].
      apply put_filler.
      + rewrite <- (Nat.add_0_r (_ * poly_len)). apply Hpos; lia.
      + rewrite <- (Nat.add_0_r (_ * poly_len)). rewrite HF by lia. cbn [Nat.eqb andb].
        rewrite (Nat.add_comm i (j * rows)).
        destruct (div_mod_unique2 j rows i ltac:(lia)) as [-> ->]. rewrite Nat.eqb_refl.
        unfold weight. rewrite (proj2 (Nat.leb_gt _ _)) by lia. reflexivity. }
  destruct (Hfill (repeat 0%N (poly_len * rows * (num * rows)))
             (fun p => p < L /\ F p = 0%N)) as (d & E & Ld & G).
  - rewrite repeat_length. unfold L. lia.
  - intros p [Hp HFp]. rewrite HFp. rewrite nth_error_repeat; [reflexivity|]. unfold L in Hp. lia.
  - exists d. unfold raw_zero. rewrite E. cbn [bind]. split; [reflexivity|]. split; [exact Ld|].
    intros r t z H1 H2 H3. rewrite <- HF by auto. unfold coeff.
    apply nth_error_nth. apply G.
    destruct (N.eq_dec (F ((r * (num * rows) + t) * poly_len + z)) 0) as [Hz|Hz].
    + left. split; [apply Hpos; auto|exact Hz].
    + right. rewrite HF in Hz by auto.
      destruct (Nat.eqb_spec z 0) as [->|]; [|contradiction].
      destruct (Nat.eqb_spec (t mod rows) r) as [Hm|]; [|contradiction]. cbn [andb] in Hz.
      exists r. split; [lia|]. exists (t / rows). pose proof (Nat.div_mod t rows ltac:(lia)) as Hdm.
      assert (t / rows < num) by (apply Nat.div_lt_upper_bound; lia).
      split; [lia|]. split.
      * unfold weight in Hz. destruct (Nat.leb_spec 64 (bits * (t / rows))); [contradiction|lia].
      * rewrite Nat.add_0_r. f_equal. f_equal. rewrite Hdm at 1. rewrite Hm. lia.
Qed.

Lemma invert_fill : forall rdim num bits out inp, 1 <= rdim -> 1 <= num ->
  get_bits_per modulus_log2 num = Ok bits -> bits < 64 ->
  rm_rows out = num * rdim -> rm_cols out = rm_cols inp ->
  length (rm_data out) = num * rdim * rm_cols inp * poly_len ->
  (rm_cols inp - 1) * rm_cols inp + rdim <= rm_rows inp * rm_cols inp ->
  length (rm_data inp) = rm_rows inp * rm_cols inp * poly_len ->
  exists d, gadget_invert_rdim poly_len modulus_log2 out inp rdim = Ok (RawMat (num * rdim) (rm_cols inp) d)
    /\ length d = num * rdim * rm_cols inp * poly_len
    /\ forall r k c z, r < rdim -> k < num -> c < rm_cols inp -> z < poly_len ->
       coeff poly_len (rm_cols inp) d (r + k * rdim) c z
       = piece bits (coeff poly_len (rm_cols inp) (rm_data inp) c r z) k.
Proof using Hpl. clear - Hpl.
  intros rdim num bits out inp Hr Hn Hb Hb64 Hrows Hcols Hlo Hin Hli. unfold gadget_invert_rdim.
  rewrite Hcols, Nat.eqb_refl. cbn [enforce]. destruct (Nat.eqb_spec rdim 0); [lia|].
  rewrite Hrows, Nat.div_mul by lia. rewrite Hb. cbn [bind].
  rewrite (proj2 (Nat.leb_gt _ _)) by lia.
  set (C := rm_cols inp) in *. set (L := num * rdim * C * poly_len) in *.
  set (F := fun p => let z := p mod poly_len in let c := (p / poly_len) mod C in
                     let r := p / poly_len / C in
                     piece bits (coeff poly_len C (rm_data inp) c (r mod rdim) z) (r / rdim)).
  assert (HF : forall r k c z, r < rdim -> k < num -> c < C -> z < poly_len ->
    F (((r + k * rdim) * C + c) * poly_len + z) = piece bits (coeff poly_len C (rm_data inp) c r z) k).
  { intros r k c z H1 H2 H3 H4. unfold F.
    destruct (div_mod_unique2 ((r + k * rdim) * C + c) poly_len z H4) as [-> ->].
    destruct (div_mod_unique2 (r + k * rdim) C c H3) as [-> ->].
    rewrite (Nat.add_comm r (k * rdim)).
    destruct (div_mod_unique2 k rdim r H1) as [-> ->]. reflexivity. }
  assert (Hpos : forall r k c z, r < rdim -> k < num -> c < C -> z < poly_len ->
    ((r + k * rdim) * C + c) * poly_len + z < L).
  { intros r k c z H1 H2 H3 H4. unfold L. assert (r + k * rdim + 1 <= num * rdim) by nia.
    set (x := r + k * rdim) in *. set (y := num * rdim) in *. clearbody x y.
    assert (x * C + c + 1 <= y * C) by nia. nia. }
  assert (Hget : forall i j z, i < C -> j < rdim -> z < poly_len ->
    get (poly_start poly_len inp i j + z) (rm_data inp) = Ok (coeff poly_len C (rm_data inp) i j z)).
  { intros i j z H1 H2 H3. unfold get, poly_start, coeff. fold C.
    assert (Hlt : (i * C + j) * poly_len + z < length (rm_data inp)).
    { rewrite Hli. assert (i * C <= (C - 1) * C) by nia. set (R := rm_rows inp * C) in *. clearbody R.
      assert (i * C + j + 1 <= R) by lia. nia. }
    apply nth_error_Some in Hlt. destruct (nth_error (rm_data inp) ((i * C + j) * poly_len + z)) as [v|] eqn:E; [|contradiction].
    rewrite (nth_error_nth _ _ _ E). reflexivity. }
  match goal with |- context [loop C 0 ?ff (rm_data out)] => set (body := ff) end.
  assert (Hfill : filler L F (fun p => exists i, 0 <= i < 0 + C /\ exists j, 0 <= j < 0 + rdim
                   /\ exists z, 0 <= z < 0 + poly_len /\ exists k, 0 <= k < 0 + num
                   /\ ((j + k * rdim) * C + i) * poly_len + z = p) (loop C 0 body)).
  { apply loop_filler. intros i Hi. unfold body. apply (loop_filler _ L F rdim 0). intros j Hj.
    apply (loop_filler _ L F poly_len 0). intros z Hz.
    eapply filler_ext; [intros st; rewrite Hget by lia; cbn [bind]; reflexivity|].
    apply (loop_filler _ L F num 0). intros k Hk. unfold poly_start. rewrite Hcols.
    apply put_filler; [apply Hpos; lia|]. rewrite HF by lia. unfold piece.
    destruct (Nat.leb_spec 64 (k * bits)) as [H64|H64].
    - rewrite Nat.min_r by lia. reflexivity.
    - rewrite Nat.min_l by lia. rewrite (proj2 (Nat.leb_gt _ _)) by lia. reflexivity. }
  destruct (Hfill (rm_data out) (fun _ => False) Hlo) as (d & E & Ld & G); [intros p []|].
  exists d. rewrite E. cbn [bind]. split; [reflexivity|]. split; [exact Ld|].
  intros r k c z H1 H2 H3 H4. rewrite <- HF by auto. unfold coeff. apply nth_error_nth. apply G.
  right. exists c. split; [lia|]. exists r. split; [lia|]. exists z. split; [lia|]. exists k. split; [lia|reflexivity].
Qed.

(** The gadget times the digits. *)
Lemma recompose : forall rdim num bits inp out, 1 <= rdim -> 1 <= num ->
  get_bits_per modulus_log2 num = Ok bits -> bits < 64 -> modulus_log2 <= 64 ->
  rm_rows out = num * rdim -> rm_cols out = rm_cols inp ->
  length (rm_data out) = num * rdim * rm_cols inp * poly_len ->
  (rm_cols inp - 1) * rm_cols inp + rdim <= rm_rows inp * rm_cols inp ->
  length (rm_data inp) = rm_rows inp * rm_cols inp * poly_len ->
  Forall (fun v => (v < 2 ^ N.of_nat modulus_log2)%N) (rm_data inp) ->
  exists g o, build_gadget poly_len modulus_log2 rdim (num * rdim) = Ok (RawMat rdim (num * rdim) g)
    /\ gadget_invert_rdim poly_len modulus_log2 out inp rdim = Ok (RawMat (num * rdim) (rm_cols inp) o)
    /\ (forall r t z, r < rdim -> t < num * rdim -> 0 < z < poly_len -> coeff poly_len (num * rdim) g r t z = 0%N)
    /\ (forall t c z, t < num * rdim -> c < rm_cols inp -> z < poly_len ->
          (coeff poly_len (rm_cols inp) o t c z < 2 ^ N.of_nat bits)%N)
    /\ forall r c z, r < rdim -> c < rm_cols inp -> z < poly_len ->
         nsum (num * rdim) (fun t => coeff poly_len (num * rdim) g r t 0 * coeff poly_len (rm_cols inp) o t c z)%N
         = coeff poly_len (rm_cols inp) (rm_data inp) c r z.
Proof using Hpl. clear - Hpl.
  intros rdim num bits inp out Hr Hn Hb Hb64 Hml Hrows Hcols Hlo Hin Hli Hv.
  destruct (gadget_fill rdim num bits Hr Hn Hb) as (g & Eg & _ & Hg).
  destruct (invert_fill rdim num bits out inp Hr Hn Hb Hb64 Hrows Hcols Hlo Hin Hli) as (o & Eo & _ & Ho).
  exists g, o. split; [exact Eg|]. split; [exact Eo|]. split; [|split].
  - intros r t z H1 H2 H3. rewrite Hg by lia. destruct (Nat.eqb_spec z 0); [lia|reflexivity].
  - intros t c z H1 H2 H3. pose proof (Nat.div_mod t rdim ltac:(lia)) as Hdm.
    assert (Et : t mod rdim + t / rdim * rdim = t) by lia. rewrite <- Et.
    rewrite Ho; [|apply Nat.mod_upper_bound; lia|apply Nat.div_lt_upper_bound; lia|auto|auto].
    rewrite piece_digit; [apply N.mod_upper_bound, N.pow_nonzero; lia|].
    unfold coeff. match goal with |- context [nth ?p _ _] => set (q := p) end.
    destruct (nth_in_or_default q (rm_data inp) 0%N) as [Hi|He].
    + rewrite Forall_forall in Hv. eapply N.lt_le_trans; [apply Hv, Hi|]. apply N.pow_le_mono_r; lia.
    + rewrite He. reflexivity.
  - intros r c z H1 H2 H3. rewrite nsum_blocks.
    assert (Hval : (coeff poly_len (rm_cols inp) (rm_data inp) c r z < 2 ^ N.of_nat modulus_log2)%N).
    { unfold coeff. match goal with |- context [nth ?p _ _] => set (q := p) end.
      destruct (nth_in_or_default q (rm_data inp) 0%N) as [Hi|He].
      - rewrite Forall_forall in Hv. apply Hv, Hi.
      - rewrite He. apply N.neq_0_lt_0, N.pow_nonzero. lia. }
    rewrite (nsum_ext num _ (fun k => weight bits k * piece bits (coeff poly_len (rm_cols inp) (rm_data inp) c r z) k)%N).
    + destruct (bits_cover _ _ _ Hb Hn). apply (pieces_sum _ _ _ modulus_log2); auto.
    + intros k Hk. rewrite (nsum_single rdim _ r H1).
      * rewrite Hg by (try lia; nia). destruct (div_mod_unique2 k rdim r H1) as [-> ->].
        rewrite !Nat.eqb_refl. cbn [andb]. rewrite (Nat.add_comm (k * rdim) r), Ho by auto. reflexivity.
      * intros j Hj Hne. rewrite Hg by (try lia; nia).
        destruct (div_mod_unique2 k rdim j Hj) as [-> ->].
        rewrite (proj2 (Nat.eqb_neq j r) Hne), andb_false_r. lia.
Qed.
End Fill.
