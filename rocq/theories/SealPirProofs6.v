(** Supporting lemmas for C69: decomposition and composition, the recursion levels, and their decoding. *)
From Coq Require Import List Arith NArith ZArith Lia Bool.
From Verif Require Import Base StoreModel StoreProofs Text PirPackModel PirPackProofs PirPackProofs2 SpLoopModel SpLoopProofs NttModel
  SpArithModel SpDecodeSpec SpRingSpec SpDecodeProofs2 SpRingModel SpSrvProofs1
  SealPirModel SealPirSpec SealPirProofs1 SealPirProofs2 SealPirProofs3 SealPirProofs4 SealPirProofs5.
Import ListNotations.

Lemma Forall2_nth_intro : forall (A B : Type) (Q : A -> B -> Prop) da db l r, length l = length r ->
  (forall i, i < length l -> Q (nth i l da) (nth i r db)) -> Forall2 Q l r.
Proof.
  intros A B Q da db. induction l as [|x l IH]; intros [|y r] H H0; cbn in H; try lia; constructor.
  - apply (H0 0). cbn. lia.
  - apply IH; [lia|]. intros i Hi. apply (H0 (S i)). cbn. lia.
Qed.
Lemma Forall2_skipn : forall (A B : Type) (Q : A -> B -> Prop) k l r, Forall2 Q l r -> Forall2 Q (skipn k l) (skipn k r).
Proof. intros A B Q. induction k as [|k IH]; intros l r H; [exact H|]. destruct H; cbn [skipn]; [constructor|apply IH; exact H0]. Qed.
Lemma Forall2_firstn : forall (A B : Type) (Q : A -> B -> Prop) k l r, Forall2 Q l r -> Forall2 Q (firstn k l) (firstn k r).
Proof. intros A B Q. induction k as [|k IH]; intros l r H; [constructor|]. destruct H; cbn [firstn]; [constructor|constructor; [exact H|apply IH; exact H0]]. Qed.

Lemma skipn_plus : forall (A : Type) a b (l : list A), skipn a (skipn b l) = skipn (b + a) l.
Proof. intros A a b. induction b as [|b IH]; intros l; [reflexivity|]. destruct l; [cbn [skipn]; apply skipn_nil|]. cbn [skipn Nat.add]. apply IH. Qed.

Lemma firstn_one_more : forall (A : Type) (d : A) l j, j < length l -> firstn (j + 1) l = firstn j l ++ [nth j l d].
Proof. intros A d. induction l as [|y l IH]; intros j Hl; [cbn in Hl; lia|]. destruct j; cbn [firstn app nth Nat.add]; [reflexivity|]. f_equal. apply IH. cbn in Hl. lia. Qed.
Lemma sum_last : forall l x, list_sum (l ++ [x]) = list_sum l + x.
Proof. induction l as [|y l IH]; intros x; cbn [app list_sum fold_right]; [lia|]. unfold list_sum in IH. rewrite IH. lia. Qed.

Section Digits.
Variable P : seal_params.
Let n := sl_n P.
Let logt := sl_logt P.
Variables (t : N) (last : list N) (ratio : N -> nat).
Hypothesis Hn : 0 < n.
Hypothesis Hlogt : 1 <= logt.
Hypothesis Htt : (2 ^ N.of_nat logt <= t)%N.
Hypothesis Hlast : last <> [].
Hypothesis Hdig : Forall (fun q => (q < 2 ^ 64)%N /\ digits_for logt q (ratio q)) last.

(** The same coefficients, possibly with another number of leading zeros. *)
Definition same (a b : list N) : Prop := plain n t a /\ forall z, nth z a 0%N = nth z b 0%N.

Definition dig (w : list N) (i : nat) : list N := map (fun x => N.land (N.shiftr x (N.of_nat (i * logt))) (2 ^ N.of_nat logt - 1)%N) w.
Definition word_digits (q : N) (w : list N) : list (list N) := map (dig w) (seq 0 (ratio q)).
Definition polys (d : list N) : list (list N) := concat (map (fun j => word_digits (nth j last 0%N) (residue n j d)) (seq 0 (length last))).
Definition digs (c : cipher) : list (list N) := concat (map polys c).
Definition er : nat := expansion_ratio last ratio.

Lemma dig_val : forall x i, N.land (N.shiftr x (N.of_nat (i * logt))) (2 ^ N.of_nat logt - 1) = (x / 2 ^ N.of_nat (i * logt) mod 2 ^ N.of_nat logt)%N.
Proof using Hn Hlogt Htt Hlast Hdig. intros x i. rewrite N.shiftr_div_pow2. replace (2 ^ N.of_nat logt - 1)%N with (N.ones (N.of_nat logt)) by (rewrite N.ones_equiv; lia). apply N.land_ones. Qed.

Lemma dig_plain : forall w i, length w = n -> plain n t (dig w i).
Proof using Hn Hlogt Htt Hlast Hdig.
  intros w i Lw. split; [unfold dig; rewrite map_length; clear - Lw; lia|]. apply Forall_forall. intros y Hy. unfold dig in Hy. apply in_map_iff in Hy as (x & <- & _).
  rewrite dig_val. eapply N.lt_le_trans; [apply N.mod_lt; apply N.pow_nonzero; discriminate|exact Htt].
Qed.
Lemma dig_nth : forall w i z, nth z (dig w i) 0%N = (nth z w 0 / 2 ^ N.of_nat (i * logt) mod 2 ^ N.of_nat logt)%N.
Proof using Hn Hlogt Htt Hlast Hdig.
  intros w i z. unfold dig. destruct (Nat.lt_ge_cases z (length w)).
  - rewrite (map_nth' _ _ _ _ 0%N) by assumption. apply dig_val.
  - rewrite !nth_overflow by (try rewrite map_length; assumption). rewrite N.div_0_l by (apply N.pow_nonzero; discriminate). symmetry. apply N.mod_0_l. apply N.pow_nonzero; discriminate.
Qed.

Lemma pow_lt_inv : forall a b, (2 ^ N.of_nat a < 2 ^ N.of_nat b)%N -> a < b.
Proof using Hn Hlogt Htt Hlast Hdig. intros a b H. apply N.pow_lt_mono_r_iff in H; lia. Qed.

Lemma digit_poly_ok : forall q w, (q < 2 ^ 64)%N -> digits_for logt q (ratio q) -> map_out (digit_poly P w) (seq 0 (ratio q)) = Ok (word_digits q w).
Proof using Hn Hlogt Htt Hlast Hdig.
  intros q w Hq (H1 & H2 & H3). unfold word_digits. apply map_out_ok. intros i Hi. apply in_seq in Hi. unfold digit_poly. fold logt.
  destruct (Nat.leb_spec 64 (i * logt)) as [X|X]; [|reflexivity]. exfalso.
  assert (logt * (ratio q - 1) < 64) by (apply pow_lt_inv; change (N.of_nat 64) with 64%N; lia). nia.
Qed.

Definition sound (c : cipher) : Prop := in_form n last c
  /\ forall d j, In d c -> j < length last -> Forall (fun x => (x < nth j last 0)%N) (residue n j d).

Lemma residue_len : forall c d j, in_form n last c -> In d c -> j < length last -> length (residue n j d) = n.
Proof using Hn Hlogt Htt Hlast Hdig.
  intros c d j (_ & Ld & _) Hd Hj. rewrite Forall_forall in Ld. unfold residue. rewrite firstn_length_le; [reflexivity|]. rewrite skipn_length, (Ld d Hd). nia.
Qed.
Lemma Hdig_at : forall j, j < length last -> (nth j last 0 < 2 ^ 64)%N /\ digits_for logt (nth j last 0%N) (ratio (nth j last 0%N)).
Proof using Hn Hlogt Htt Hlast Hdig. intros j Hj. rewrite Forall_forall in Hdig. apply Hdig, nth_In, Hj. Qed.

Theorem decompose_ok : forall c, sound c -> decompose P last ratio c = Ok (digs c).
Proof using Hn Hlogt Htt Hlast Hdig.
  intros c [F _]. unfold decompose. rewrite (map_out_ok _ _ _ polys); [reflexivity|]. intros d Hd. unfold decompose_poly. fold n.
  rewrite (map_out_ok _ _ _ (fun j => word_digits (nth j last 0%N) (residue n j d))); [reflexivity|]. intros j Hj. apply in_seq in Hj.
  rewrite (get_lt N 0%N) by (clear - Hj; lia). cbn [bind]. destruct F as (_ & Ld & _). rewrite Forall_forall in Ld. rewrite (Ld d Hd).
  destruct (Nat.leb_spec (j * n + n) (length last * n)) as [_|X]; [|exfalso; clear - X Hj; nia].
  destruct (Hdig_at j ltac:(clear - Hj; lia)) as [H1 H2]. apply digit_poly_ok; assumption.
Qed.

Lemma word_digits_len : forall q w, length (word_digits q w) = ratio q.
Proof using Hn Hlogt Htt Hlast Hdig. intros. unfold word_digits. rewrite map_length, seq_length. reflexivity. Qed.

Lemma polys_len : forall d, length (polys d) = er.
Proof using Hn Hlogt Htt Hlast Hdig.
  intros d. unfold polys, er, expansion_ratio.
  assert (G : forall (f : nat -> list N) l s, (forall j, j < length l -> nth (s + j) last 0%N = nth j l 0%N) ->
    length (concat (map (fun j => word_digits (nth j last 0%N) (f j)) (seq s (length l)))) = list_sum (map ratio l)).
  { intros f. induction l as [|q l IH]; intros s Hl; [reflexivity|]. cbn [length seq map concat list_sum fold_right]. rewrite app_length, word_digits_len.
    pose proof (Hl 0 ltac:(cbn; lia)) as H0. rewrite Nat.add_0_r in H0. rewrite H0. cbn [nth]. f_equal. apply IH. intros j Hj.
    specialize (Hl (S j) ltac:(cbn; lia)). cbn [nth] in Hl. rewrite <- Hl. f_equal. lia. }
  apply (G (fun j => residue n j d) last 0). reflexivity.
Qed.
Lemma digs_len : forall c, length c = 2 -> length (digs c) = er * 2.
Proof using Hn Hlogt Htt Hlast Hdig.
  intros c Hc. unfold digs. destruct c as [|a [|b [|]]]; try discriminate. cbn [map concat]. rewrite app_nil_r, app_length, !polys_len. lia.
Qed.
Lemma digs_plain : forall c, sound c -> Forall (plain n t) (digs c).
Proof using Hn Hlogt Htt Hlast Hdig.
  intros c [F _]. apply Forall_forall. intros p Hp. unfold digs in Hp. apply in_concat in Hp as (l & Hl & Hp). apply in_map_iff in Hl as (d & <- & Hd).
  unfold polys in Hp. apply in_concat in Hp as (l & Hl & Hp). apply in_map_iff in Hl as (j & <- & Hj). apply in_seq in Hj.
  unfold word_digits in Hp. apply in_map_iff in Hp as (i & <- & _). apply dig_plain. eapply residue_len; [exact F|exact Hd|clear - Hj; lia].
Qed.
Lemma er_pos : 1 <= er.
Proof using Hn Hlogt Htt Hlast Hdig.
  unfold er, expansion_ratio. pose proof (Hdig_at 0) as H0. destruct last as [|q l]; [congruence|]. destruct (H0 ltac:(cbn; lia)) as [_ [H1 _]]. cbn [nth] in H1.
  cbn [map list_sum fold_right]. clear - H1. lia.
Qed.

(** * Composition *)

Lemma add_digit_ok : forall x i p w, length w = n -> length p <= n -> (forall z, (nth z x 0 < 2 ^ 64)%N) -> i * logt < 64 ->
  (forall z, (nth z p 0 = nth z x 0 / 2 ^ N.of_nat (i * logt) mod 2 ^ N.of_nat logt)%N) ->
  (forall z, z < n -> (nth z w 0 = nth z x 0 mod 2 ^ N.of_nat (i * logt))%N) ->
  exists w', add_digit (i * logt) p w = Ok w' /\ length w' = n /\ forall z, z < n -> (nth z w' 0 = nth z x 0 mod 2 ^ N.of_nat ((i + 1) * logt))%N.
Proof using Hn Hlogt Htt Hlast Hdig.
  intros x i p w Lw Lp Hx Hi Hp Hw. unfold add_digit. destruct (Nat.leb_spec 64 (i * logt)); [lia|].
  assert (Step : forall z, (nth z x 0 mod 2 ^ N.of_nat ((i + 1) * logt) = nth z x 0 mod 2 ^ N.of_nat (i * logt) + nth z p 0 * 2 ^ N.of_nat (i * logt))%N).
  { intros z. rewrite Hp. replace (N.of_nat ((i + 1) * logt)) with (N.of_nat (i * logt) + N.of_nat logt)%N by lia.
    rewrite N.pow_add_r. rewrite N.mod_mul_r by (apply N.pow_nonzero; discriminate). lia. }
  destruct (loop_rule (list N) (length p) 0 (fun j w => do x <- get j w; do y <- get j p;
      put j (if i * logt =? 0 then y else u64 (x + u64 (N.shiftl y (N.of_nat (i * logt))))) w)
    (fun j w' => length w' = n /\ forall z, z < n -> (nth z w' 0 = if (z <? j)%nat then nth z x 0 mod 2 ^ N.of_nat ((i + 1) * logt)
                                                            else nth z x 0 mod 2 ^ N.of_nat (i * logt))%N) w) as (w' & Ew & Lw' & Nw).
  - split; [exact Lw|]. intros z Hz. apply Hw. exact Hz.
  - intros j w1 Hj [L1 N1]. rewrite (get_lt N 0%N) by lia. cbn [bind]. rewrite (get_lt N 0%N) by lia. cbn [bind].
    destruct (put_lt N 0%N j (if i * logt =? 0 then nth j p 0%N else u64 (nth j w1 0 + u64 (N.shiftl (nth j p 0) (N.of_nat (i * logt))))%N) w1) as (w2 & E2 & L2 & N2); [lia|].
    exists w2. split; [exact E2|]. split; [lia|]. intros z Hz. rewrite N2. destruct (Nat.eqb_spec z j) as [->|Hzj].
    + destruct (Nat.ltb_spec j (j + 1)); [|lia]. rewrite Step. pose proof (N1 j Hz) as N1j. destruct (Nat.ltb_spec j j) in N1j; [lia|].
      destruct (Nat.eqb_spec (i * logt) 0) as [E0|E0].
      * rewrite E0. change (2 ^ N.of_nat 0)%N with 1%N. rewrite N.mod_1_r. lia.
      * rewrite N1j. rewrite N.shiftl_mul_pow2.
        assert (B : (nth j x 0 mod 2 ^ N.of_nat (i * logt) + nth j p 0 * 2 ^ N.of_nat (i * logt) < 2 ^ 64)%N).
        { rewrite <- Step. eapply N.le_lt_trans; [apply N.mod_le; apply N.pow_nonzero; discriminate|apply Hx]. }
        unfold u64. rewrite (N.mod_small (nth j p 0 * _)%N) by lia. apply N.mod_small. exact B.
    + rewrite N1 by exact Hz. destruct (Nat.ltb_spec z j); destruct (Nat.ltb_spec z (j + 1)); try lia; reflexivity.
  - rewrite Ew. exists w'. split; [reflexivity|]. split; [exact Lw'|]. intros z Hz. rewrite Nw by exact Hz. rewrite Nat.add_0_l. destruct (Nat.ltb_spec z (length p)) as [|Hge]; [reflexivity|].
    rewrite Step. rewrite (nth_overflow p) by exact Hge. lia.
Qed.

Lemma compose_words_ok : forall q w pts more, length w = n -> Forall (fun x => (x < q)%N) w -> (0 < q < 2 ^ 64)%N -> digits_for logt q (ratio q) ->
  Forall2 same pts (word_digits q w ++ more) -> compose_words P (ratio q) pts = Ok w.
Proof using Hn Hlogt Htt Hlast Hdig.
  intros q w pts more Lw Hw Hq (R1 & R2 & R3) HS. unfold compose_words. fold n logt.
  assert (Hwz : forall z, (nth z w 0 < q)%N).
  { intros z. destruct (Nat.lt_ge_cases z (length w)) as [Hz|Hz]; [rewrite Forall_forall in Hw; apply Hw, nth_In, Hz|rewrite nth_overflow by exact Hz; lia]. }
  destruct (Forall2_nth' _ _ _ _ _ HS) as [Ls Ns]. rewrite app_length, word_digits_len in Ls.
  destruct (loop_rule (list N) (ratio q) 0 (fun i w => do p <- get i pts; add_digit (i * logt) p w)
    (fun i w' => length w' = n /\ forall z, z < n -> (nth z w' 0 = nth z w 0 mod 2 ^ N.of_nat (i * logt))%N) (repeat 0%N n)) as (w' & Ew & Lw' & Nw).
  - split; [apply repeat_length|]. intros z Hz. rewrite nth_repeat. cbn [Nat.mul]. change (2 ^ N.of_nat 0)%N with 1%N. rewrite N.mod_1_r. reflexivity.
  - intros i w1 Hi [L1 N1]. rewrite (get_lt (list N) []) by lia. cbn [bind]. destruct (Ns i [] [] ltac:(lia)) as [Pp Sp].
    rewrite app_nth1 in Sp by (rewrite word_digits_len; lia). unfold word_digits in Sp.
    rewrite (map_nth' _ _ _ _ 0) in Sp by (rewrite seq_length; lia). rewrite seq_nth in Sp by lia. rewrite Nat.add_0_l in Sp.
    apply (add_digit_ok w); [exact L1|apply Pp|intros z; eapply N.lt_trans; [apply Hwz|apply Hq]| |intros z; rewrite Sp; apply dig_nth|exact N1].
    assert (logt * (ratio q - 1) < 64) by (apply pow_lt_inv; change (N.of_nat 64) with 64%N; lia). nia.
  - rewrite Ew. f_equal. apply (nth_ext _ _ 0%N 0%N); [lia|]. intros z Hz. rewrite Lw' in Hz. rewrite Nw by exact Hz. apply N.mod_small.
    eapply N.lt_le_trans; [apply Hwz|]. rewrite Nat.add_0_l, Nat.mul_comm. exact R3.
Qed.

Lemma residues_app : forall d j, firstn (j * n) d ++ residue n j d = firstn ((j + 1) * n) d.
Proof using Hn Hlogt Htt Hlast Hdig.
  intros d j. unfold residue. replace ((j + 1) * n) with (j * n + n) by lia. rewrite <- (firstn_skipn (j * n) (firstn (j * n + n) d)).
  rewrite firstn_firstn, Nat.min_l by lia. f_equal. rewrite skipn_firstn_comm. f_equal. lia.
Qed.

Lemma compose_poly_ok : forall c d pts more, sound c -> In d c -> Forall2 same pts (polys d ++ more) ->
  loop (length last) 0 (fun j '(d, pts) => do q <- get j last; do w <- compose_words P (ratio q) pts; Ok (d ++ w, skipn (ratio q) pts)) ([], pts)
  = Ok (d, skipn er pts).
Proof using Hn Hlogt Htt Hlast Hdig.
  intros c d pts more [F Sw] Hd HS.
  set (tailp := fun j => concat (map (fun j => word_digits (nth j last 0%N) (residue n j d)) (seq j (length last - j)))).
  set (sumr := fun j => list_sum (map ratio (firstn j last))).
  destruct (loop_rule (list N * list (list N)) (length last) 0
    (fun j '(d, pts) => do q <- get j last; do w <- compose_words P (ratio q) pts; Ok (d ++ w, skipn (ratio q) pts))
    (fun j st => st = (firstn (j * n) d, skipn (sumr j) pts) /\ Forall2 same (snd st) (tailp j ++ more)) ([], pts)) as (st & Est & -> & _).
  - split; [unfold sumr; cbn [Nat.mul firstn map list_sum fold_right skipn]; reflexivity|]. cbn [snd]. unfold tailp. rewrite Nat.sub_0_r. exact HS.
  - intros j st Hj [-> Hs]. cbn [snd] in Hs. rewrite (get_lt N 0%N) by (clear - Hj; lia). cbn [bind]. set (q := nth j last 0%N).
    destruct (Hdig_at j ltac:(clear - Hj; lia)) as [Hq Dq]. fold q in Hq, Dq.
    assert (Et : tailp j = word_digits q (residue n j d) ++ tailp (j + 1)).
    { unfold tailp. replace (length last - j) with (S (length last - (j + 1))) by (clear - Hj; lia). cbn [seq map concat].
      replace (S j) with (j + 1) by (clear; lia). reflexivity. }
    rewrite Et, <- app_assoc in Hs.
    rewrite (compose_words_ok q (residue n j d) _ (tailp (j + 1) ++ more)).
    + cbn [bind]. eexists. split; [reflexivity|]. split.
      * rewrite residues_app. f_equal. rewrite skipn_plus. f_equal. unfold sumr.
        assert (Ef : firstn (j + 1) last = firstn j last ++ [q]).
        { apply firstn_one_more. clear - Hj. lia. }
        rewrite Ef, map_app. cbn [map]. rewrite sum_last. clear. lia.
      * cbn [snd]. replace (tailp (j + 1) ++ more) with (skipn (ratio q) (word_digits q (residue n j d) ++ tailp (j + 1) ++ more)).
        -- apply Forall2_skipn. exact Hs.
        -- rewrite skipn_app, word_digits_len, Nat.sub_diag, skipn_all2 by (rewrite word_digits_len; clear; lia). reflexivity.
    + eapply residue_len; [exact F|exact Hd|clear - Hj; lia].
    + apply Sw; [exact Hd|clear - Hj; lia].
    + split; [|exact Hq]. destruct Dq as (_ & D2 & _). clear - D2. lia.
    + exact Dq.
    + exact Hs.
  - rewrite Est. destruct F as (_ & Ld & _). rewrite Forall_forall in Ld. rewrite firstn_all2 by (rewrite (Ld d Hd); clear; lia).
    unfold sumr. rewrite firstn_all2 by (clear; lia). reflexivity.
Qed.

Theorem compose_ok : forall c pts, sound c -> Forall2 same pts (digs c) -> compose P last ratio pts = Ok c.
Proof using Hn Hlogt Htt Hlast Hdig.
  intros c pts Hc HS. pose proof (proj1 (proj1 Hc)) as Lc. pose proof er_pos as Her. unfold compose. fold er. destruct (Nat.eqb_spec er 0) as [X|_]; [clear - X Her; lia|].
  pose proof (proj1 (Forall2_nth' _ _ _ _ _ HS)) as Lp. rewrite (digs_len c Lc) in Lp. rewrite Lp.
  rewrite (Nat.mul_comm er 2), Nat.div_mul by (clear - Her; lia).
  destruct c as [|a [|b [|]]]; try discriminate. unfold digs in HS. cbn [map concat] in HS. cbn [loop].
  rewrite (compose_poly_ok [a; b] a pts (polys b ++ []) Hc (or_introl eq_refl) HS). cbn [bind app].
  rewrite (compose_poly_ok [a; b] b (skipn er pts) [] Hc (or_intror (or_introl eq_refl))); [reflexivity|].
  replace (polys b ++ []) with (skipn er (polys a ++ polys b ++ [])) by (rewrite skipn_app, polys_len, Nat.sub_diag, skipn_all2 by (rewrite polys_len; clear; lia); reflexivity).
  apply Forall2_skipn. exact HS.
Qed.
End Digits.
