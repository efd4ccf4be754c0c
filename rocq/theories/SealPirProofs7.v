(** Supporting lemmas for C69: the recursion levels and their decoding. *)
From Coq Require Import List Arith NArith ZArith Lia Bool.
From Verif Require Import Base StoreModel StoreProofs Text PirPackModel PirPackProofs PirPackProofs2 SpLoopModel SpLoopProofs NttModel
  SpArithModel SpDecodeSpec SpRingSpec SpDecodeProofs2 SpRingModel SpSrvProofs1
  SealPirModel SealPirSpec SealPirProofs1 SealPirProofs2 SealPirProofs3 SealPirProofs4 SealPirProofs5 SealPirProofs6.
Import ListNotations.

Lemma plain_exact : forall n t a b, plain n t a -> plain n t b -> peq n (Z.of_N t) (lpoly a) (lpoly b) -> forall z, nth z a 0%N = nth z b 0%N.
Proof.
  intros n t a b [La Ha] [Lb Hb] H z. destruct (Nat.lt_ge_cases z n) as [Hz|Hz].
  - destruct (H z Hz) as [k Hk]. unfold lpoly in Hk. rewrite Forall_forall in Ha, Hb.
    assert (G : forall l, (forall x, In x l -> (x < t)%N) -> (0 < t)%N -> (nth z l 0 < t)%N).
    { intros l Hl T0. destruct (Nat.lt_ge_cases z (length l)); [apply Hl, nth_In; assumption|rewrite nth_overflow by assumption; exact T0]. }
    destruct (N.eq_dec t 0) as [->|T0].
    + assert (E : forall l : list N, (forall x, In x l -> (x < 0)%N) -> l = []) by (intros [|y l] Hl; [reflexivity|specialize (Hl y (or_introl eq_refl)); lia]).
      rewrite (E a Ha), (E b Hb). reflexivity.
    + pose proof (G a Ha ltac:(lia)). pose proof (G b Hb ltac:(lia)). assert (k = 0)%Z by nia. subst k. lia.
  - rewrite !nth_overflow by lia. reflexivity.
Qed.

Lemma concat_len_all : forall (X : Type) (es : list (list X)) w, (forall k, k < length es -> length (nth k es []) = w) -> length (concat es) = length es * w.
Proof.
  intros X es w. induction es as [|e es IH]; intros H; [reflexivity|]. cbn [concat length]. rewrite app_length.
  pose proof (H 0 ltac:(cbn; lia)) as H0. cbn [nth] in H0. rewrite H0, IH; [lia|]. intros k Hk. apply (H (S k)). cbn. lia.
Qed.

Section Levels.
Variable P : seal_params.
Variables (moduli last : list N) (throws : bool) (galois : cipher -> nat -> cipher) (cadd : cipher -> cipher -> cipher)
  (cmul : cipher -> list N -> outcome cipher) (mod_switch : cipher -> cipher) (encrypt : nat -> list N -> cipher) (decrypt : cipher -> list N)
  (t : N) (Enc : Z -> cipher -> (nat -> Z) -> Prop) (e0 A E : Z) (L : nat) (ratio : N -> nat).
Let n := sl_n P.
Let logt := sl_logt P.
Hypothesis Sch : seal_scheme n t moduli last throws galois cadd cmul mod_switch encrypt decrypt Enc e0 A E.
Hypothesis HL : n = 2 ^ L.
Hypothesis Hq : Forall (fun q => (0 < q < 2 ^ 64)%N) moduli.
Hypothesis HA : (0 <= A)%Z.
Hypothesis He0 : (0 <= e0)%Z.
Hypothesis Ht : (2 < t)%N.
Hypothesis Hlogt : 1 <= logt.
Hypothesis Htt : (2 ^ N.of_nat logt <= t)%N.
Hypothesis Hlast : last <> [].
Hypothesis Hdig : Forall (fun q => (q < 2 ^ 64)%N /\ digits_for logt q (ratio q)) last.

Let F := expansion_ratio last ratio * 2.
Let same' := same P t.
Let sound' := sound P last.
Let digs' := digs P last ratio.

Lemma Hn7 : 0 < n.
Proof using HL. rewrite HL. clear. pose proof (Nat.pow_nonzero 2 L). lia. Qed.
Lemma F2 : 2 <= F.
Proof using Hlast Hdig HL Hlogt Htt. pose proof (er_pos P t last ratio Hn7 Hlogt Htt Hlast Hdig) as H. unfold er in H. unfold F. clear - H. lia. Qed.

Lemma decode_level_ok : forall (cs tmp : list cipher), length tmp = length cs * F -> Forall sound' cs ->
  (forall w f, w < length cs -> f < F -> same' (decrypt (nth (w * F + f) tmp [])) (nth f (digs' (nth w cs [])) [])) ->
  decode_level P last ratio decrypt 2 tmp = Ok (cs, []).
Proof using Hlast Hdig HL Hlogt Htt.
  intros cs tmp Lt Hs Hd. pose proof F2 as HF.
  set (f := fun j '(newtmp, plain) => do c <- get j tmp; let plain := plain ++ [decrypt c] in
    if negb (j =? 0) && ((j + 1) mod F =? 0) then do c <- compose P last ratio plain; Ok (newtmp ++ [c], []) else Ok (newtmp, plain)).
  destruct (loop_rule (list cipher * list (list N)) (length tmp) 0 f
    (fun j st => st = (firstn (j / F) cs, map decrypt (firstn (j mod F) (skipn (j / F * F) tmp)))) ([], [])) as (st & Est & ->).
  - rewrite Nat.div_0_l, Nat.mod_0_l by (clear - HF; lia). reflexivity.
  - intros j st Hj ->. unfold f. rewrite (get_lt' cipher [] j tmp _ eq_refl) by exact (proj2 Hj). cbn [bind]. cbv zeta.
    assert (HF0 : F <> 0) by (clear - HF; lia).
    pose proof (Nat.div_mod j F HF0) as D. pose proof (Nat.mod_upper_bound j F HF0) as B.
    set (a := j / F) in *. set (b := j mod F) in *.
    assert (Ha : a < length cs) by (rewrite Lt in Hj; clear - D B Hj; nia).
    assert (Em : map decrypt (firstn b (skipn (a * F) tmp)) ++ [decrypt (nth j tmp [])] = map decrypt (firstn (b + 1) (skipn (a * F) tmp))).
    { rewrite (firstn_one_more cipher [] (skipn (a * F) tmp) b).
      - rewrite map_app. cbn [map]. f_equal. apply (f_equal (fun x => [decrypt x])). pose proof (nth_firstn_skipn cipher [] tmp (a * F) (b + 1) b ltac:(clear; lia)) as N0.
        rewrite nth_firstn_lt' in N0 by (clear; lia). etransitivity; [|symmetry; exact N0].
        replace (a * F + b) with j by (clear - D; lia). reflexivity.
      - rewrite skipn_length. clear - D Hj. nia. }
    rewrite Em.
    destruct (Nat.eq_dec (b + 1) F) as [Eb|Eb].
    + assert (E1 : j + 1 = (a + 1) * F) by (clear - D Eb; nia).
      rewrite E1, Nat.mod_mul, Nat.div_mul by exact HF0. rewrite Nat.eqb_refl. destruct (Nat.eqb_spec j 0) as [J0|_]; [exfalso; clear - E1 J0 HF; nia|]. cbn [negb andb].
      rewrite (compose_ok P t last ratio Hn7 Hlogt Htt Hlast Hdig (nth a cs [])).
      * cbn [bind]. eexists. split; [reflexivity|]. cbn [firstn map]. f_equal. symmetry. exact (firstn_one_more cipher [] cs a Ha).
      * rewrite Forall_forall in Hs. apply Hs. apply nth_In. exact Ha.
      * rewrite Eb. assert (Lch : length (firstn F (skipn (a * F) tmp)) = F) by (rewrite firstn_length_le; [reflexivity|rewrite skipn_length, Lt; clear - Ha; nia]).
        apply (Forall2_nth_intro (list N) (list N) _ [] []).
        -- rewrite map_length, Lch. symmetry. apply (digs_len P t last ratio Hn7 Hlogt Htt Hlast Hdig). rewrite Forall_forall in Hs. apply (Hs (nth a cs [])). apply nth_In. exact Ha.
        -- intros i Hi. rewrite map_length, Lch in Hi. rewrite (map_nth' cipher _ _ _ []) by (rewrite Lch; exact Hi).
           rewrite (nth_firstn_skipn cipher) by exact Hi. apply Hd; assumption.
    + assert (E1 : j + 1 = (b + 1) + a * F) by (clear - D; nia).
      rewrite E1, Nat.mod_add, Nat.div_add by exact HF0. rewrite Nat.mod_small, Nat.div_small by (clear - B Eb; lia).
      destruct (Nat.eqb_spec (b + 1) 0) as [X|_]; [exfalso; clear - X; lia|]. rewrite andb_false_r. eexists. split; reflexivity.
  - unfold decode_level. fold F. change (loop (length tmp) 0 f ([], []) = Ok (cs, [])). rewrite Est.
    rewrite Nat.add_0_l, Lt. rewrite Nat.div_mul, Nat.mod_mul by (clear - HF; lia). rewrite firstn_all. reflexivity.
Qed.

(** k rounds of DecodeResponse. *)
Fixpoint cl (k : nat) (tmp : list cipher) : outcome (list cipher) :=
  match k with O => Ok tmp | S k => do (nt, _) <- decode_level P last ratio decrypt 2 tmp; cl k nt end.
Lemma cl_S : forall k (tmp cts nt : list cipher) p, cl k tmp = Ok cts -> decode_level P last ratio decrypt 2 cts = Ok (nt, p) -> cl (S k) tmp = Ok nt.
Proof using.
  induction k as [|k IH]; intros tmp cts nt p H1 H2; [injection H1 as ->; cbn [cl]; rewrite H2; reflexivity|].
  cbn [cl] in H1. destruct (decode_level P last ratio decrypt 2 tmp) as [[x y]| | |] eqn:Ed; try discriminate. cbn [bind] in H1.
  change (cl (S (S k)) tmp) with (do (nt, _) <- decode_level P last ratio decrypt 2 tmp; cl (S k) nt). rewrite Ed. cbn [bind]. exact (IH _ _ _ _ H1 H2).
Qed.
Lemma cl_levels : forall k (tmp : list cipher) (c : cipher), cl k tmp = Ok [c] -> decode_levels P last ratio decrypt (S k) 2 tmp = Ok (decrypt c).
Proof using.
  induction k as [|k IH]; intros tmp c H.
  - injection H as ->. reflexivity.
  - cbn [cl] in H. destruct (decode_level P last ratio decrypt 2 tmp) as [[x y]| | |] eqn:Ed; try discriminate. cbn [bind] in H.
    change (decode_levels P last ratio decrypt (S (S k)) 2 tmp) with
      (do (newtmp, plain) <- decode_level P last ratio decrypt 2 tmp; decode_levels P last ratio decrypt (S k) 2 newtmp).
    rewrite Ed. cbn [bind]. exact (IH _ _ H).
Qed.

Lemma same_of : forall a b, plain n t b -> plain_of n t a (lpoly b) -> same' a b.
Proof using. intros a b Hb [Ha He]. split; [exact Ha|]. exact (plain_exact n t a b Ha Hb He). Qed.

Theorem levels_ok : forall dims is i (query : list (list cipher)) W (cur : list (list N)), dims <> [] -> Forall2 lt is dims -> 1 <= W ->
  (forall k, k < length dims -> exists q, nth_error query (i + k) = Some q
     /\ dim_query P t Enc e0 (nth k dims 0) (nth k is 0) q) ->
  Forall (fun ni => (level_noise n t e0 A L ni <= E)%Z) dims ->
  length cur = prodn dims * W -> Forall (plain n t) cur ->
  unless throws (fun rs : list cipher => 1 <= length rs /\ Forall (fun c : cipher => length c = 2) rs /\ exists cts : list cipher, cl (length dims - 1) rs = Ok cts /\ length cts = W
      /\ forall w, w < W -> same' (decrypt (nth w cts [])) (nth (place dims is * W + w) cur []))
    (answer_levels P galois cadd cmul mod_switch moduli last ratio dims i query (length cur) cur).
Proof using Sch HL Hq HA He0 Ht Hlogt Htt Hlast Hdig.
  induction dims as [|ni r IH]; intros is i query W cur Hne His HW Hqu Hno Lcur Pcur; [congruence|].
  inversion His as [|i1 d1 is' r1 Hi1 His' E1 E2]. subst is d1 r1. clear His.
  assert (No1 := Forall_inv Hno). assert (No2 := Forall_inv_tail Hno).
  assert (Hn := Hn7). cbn [answer_levels].
  destruct (Hqu 0 ltac:(cbn; clear; lia)) as (q & Eq & Dq). rewrite Nat.add_0_r in Eq. cbn [nth] in Dq.
  unfold get at 1. rewrite Eq. cbn [bind].
  eapply unless_bind; [apply (expand_dim_ok P moduli last throws galois cadd cmul mod_switch encrypt decrypt t Enc e0 A E L Sch HL Hq HA He0 Ht ni i1 q Hi1 Dq)|].
  intros e [Le He]. destruct (Nat.eqb_spec ni 0) as [X|Hni]; [exfalso; clear - X Hi1; lia|].
  set (prod := length cur / ni).
  assert (Eprod : prod = prodn r * W).
  { unfold prod. rewrite Lcur. cbn [prodn fold_right]. fold (prodn r). replace (ni * prodn r * W) with (prodn r * W * ni) by (clear; lia). apply Nat.div_mul. exact Hni. }
  assert (Lcur' : length cur = ni * prod) by (rewrite Eprod, Lcur; cbn [prodn fold_right]; fold (prodn r); clear; lia).
  eapply unless_bind; [apply (unless_map_seq throws cipher _ (fun k c => Enc (level_noise n t e0 A L ni) c (lpoly (nth (i1 * prod + k) cur []))))|].
  { intros k Hk. apply (select_ok P moduli last throws galois cadd cmul mod_switch encrypt decrypt t Enc e0 A E L Sch HL Hq HA He0 Ht); assumption. }
  intros cts [Lcts Ncts].
  assert (Pk : forall k, k < prod -> plain n t (nth (i1 * prod + k) cur [])).
  { intros k Hk. rewrite Forall_forall in Pcur. apply Pcur, nth_In. rewrite Lcur'. clear - Hk Hi1. nia. }
  destruct r as [|n2 r'].
  - (* last level *)
    inversion His'; subst. apply unless_ok. cbn [prodn fold_right] in Eprod. rewrite Nat.mul_1_l in Eprod.
    split; [rewrite Lcts, Eprod; exact HW|]. split.
    + apply Forall_forall. intros c Hc. apply (@In_nth cipher _ _ []) in Hc as (k & Hk & <-). rewrite Lcts in Hk.
      apply (ss_form _ _ _ _ _ _ _ _ _ _ _ _ _ _ _ Sch _ _ _ (Ncts k [] Hk)).
    + exists cts. split; [reflexivity|]. split; [rewrite Lcts; exact Eprod|]. intros w Hw. cbn [place prodn fold_right].
      replace ((i1 * 1 + 0) * W + w) with (i1 * prod + w) by (rewrite Eprod; clear; lia). rewrite <- Eprod in Hw.
      apply same_of; [apply Pk; exact Hw|]. eapply (ss_decrypt _ _ _ _ _ _ _ _ _ _ _ _ _ _ _ Sch); [apply Ncts; exact Hw|exact No1].
  - (* further levels *)
    set (r := n2 :: r') in *.
    assert (Hms : forall k, k < prod -> sound' (mod_switch (nth k cts [])) /\ plain_of n t (decrypt (mod_switch (nth k cts []))) (lpoly (nth (i1 * prod + k) cur []))).
    { intros k Hk. destruct (ss_switch _ _ _ _ _ _ _ _ _ _ _ _ _ _ _ Sch _ _ _ (Ncts k [] Hk) No1) as (S1 & S2 & S3). split; [split; assumption|exact S3]. }
    assert (Ems : map_out (fun c => decompose P last ratio (mod_switch c)) cts = Ok (map (fun c => digs' (mod_switch c)) cts)).
    { apply map_out_ok. intros c Hc. apply (@In_nth cipher _ _ []) in Hc as (k & Hk & <-). rewrite Lcts in Hk. apply (decompose_ok P t last ratio Hn Hlogt Htt Hlast Hdig). apply Hms. exact Hk. }
    change (unless throws (fun rs : list cipher => 1 <= length rs /\ Forall (fun c : cipher => length c = 2) rs /\ exists cts : list cipher, cl (length (ni :: r) - 1) rs = Ok cts /\ length cts = W
      /\ forall w, w < W -> same' (decrypt (nth w cts [])) (nth (place (ni :: r) (i1 :: is') * W + w) cur []))
      (do ps <- map_out (fun c => decompose P last ratio (mod_switch c)) cts;
       answer_levels P galois cadd cmul mod_switch moduli last ratio r (S i) query (length (concat ps)) (concat ps))).
    rewrite Ems. cbn [bind].
    set (cur' := concat (map (fun c => digs' (mod_switch c)) cts)).
    assert (Lds : forall k, k < prod -> length (nth k (map (fun c => digs' (mod_switch c)) cts) []) = F).
    { intros k Hk. rewrite (map_nth' cipher _ _ _ []) by (rewrite Lcts; exact Hk). apply (digs_len P t last ratio Hn Hlogt Htt Hlast Hdig). apply (Hms k Hk). }
    assert (Lcur2 : length cur' = prod * F).
    { unfold cur'. rewrite (concat_len_all (list N) _ F); rewrite map_length, Lcts; [reflexivity|]. exact Lds. }
    eapply unless_weaken; [apply (IH is' (S i) query (W * F) cur')|].
    + unfold r. discriminate.
    + exact His'.
    + pose proof F2. clear - HW H. nia.
    + intros k Hk. destruct (Hqu (S k) ltac:(cbn [length]; clear - Hk; lia)) as (q' & Eq' & Dq'). cbn [nth] in Dq'. exists q'. split; [|exact Dq'].
      rewrite <- Eq'. f_equal. clear. lia.
    + exact No2.
    + rewrite Lcur2, Eprod. clear. lia.
    + apply Forall_forall. intros p Hp. unfold cur' in Hp. apply in_concat in Hp as (l & Hl & Hp). apply in_map_iff in Hl as (c & <- & Hc).
      apply (@In_nth cipher _ _ []) in Hc as (k & Hk & <-). rewrite Lcts in Hk.
      pose proof (digs_plain P t last ratio Hn Hlogt Htt Hlast Hdig _ (proj1 (Hms k Hk))) as G. rewrite Forall_forall in G. apply G. exact Hp.
    + intros rs (R1 & R2 & ctsr & Ecl & Lr & Nr). split; [exact R1|]. split; [exact R2|].
      assert (Hpl : place r is' < prodn r).
      { clear - His'. induction His' as [|x y l l' Hxy _ IH]; [cbn; lia|]. cbn [place prodn fold_right]. fold (prodn l'). nia. }
      set (cs := map (fun w => mod_switch (nth (place r is' * W + w) cts [])) (seq 0 W)).
      assert (Hkw : forall w, w < W -> place r is' * W + w < prod) by (intros w Hw; rewrite Eprod; clear - Hw Hpl; nia).
      assert (Ncs : forall w, w < W -> nth w cs [] = mod_switch (nth (place r is' * W + w) cts [])).
      { intros w Hw. unfold cs. rewrite (map_nth' _ _ _ _ 0) by (rewrite seq_length; exact Hw). rewrite seq_nth by exact Hw. reflexivity. }
      assert (Lcs : length cs = W) by (unfold cs; rewrite map_length, seq_length; reflexivity).
      exists cs. split; [|split; [exact Lcs|]].
      * replace (length (ni :: r) - 1) with (S (length r - 1)) by (unfold r; cbn [length]; clear; lia).
        apply (cl_S _ _ ctsr _ []); [exact Ecl|]. apply decode_level_ok.
        -- rewrite Lr, Lcs. reflexivity.
        -- apply Forall_forall. intros c Hc. unfold cs in Hc. apply in_map_iff in Hc as (w & <- & Hw). apply in_seq in Hw. apply Hms. apply Hkw. clear - Hw; lia.
        -- intros w f Hw Hf. rewrite Lcs in Hw. rewrite Ncs by exact Hw.
           specialize (Nr (w * F + f) ltac:(clear - Hw Hf; nia)).
           replace (place r is' * (W * F) + (w * F + f)) with ((place r is' * W + w) * F + f) in Nr by (clear; lia).
           unfold cur' in Nr. rewrite (nth_concat_fixed (list N)) in Nr.
           ++ rewrite (map_nth' cipher _ _ _ []) in Nr by (rewrite Lcts; apply Hkw; exact Hw). exact Nr.
           ++ intros k Hk. apply Lds. specialize (Hkw w Hw). clear - Hk Hkw. lia.
           ++ rewrite map_length, Lcts. apply Hkw. exact Hw.
           ++ rewrite Lds by (apply Hkw; exact Hw). exact Hf.
      * intros w Hw. rewrite Ncs by exact Hw. destruct (Hms _ (Hkw w Hw)) as [_ D].
        replace (place (ni :: r) (i1 :: is') * W + w) with (i1 * prod + (place r is' * W + w)) by (cbn [place]; rewrite Eprod; clear; lia).
        apply same_of; [apply Pk; apply Hkw; exact Hw|exact D].
Qed.
End Levels.
