(** From the random tables to the code of PIANO. *)
From Coq Require Import List NArith Bool Arith Lia Permutation.
From Verif Require Import Base PianoModel PianoSpec PianoProofs PianoPriv.
Import ListNotations.

Lemma nth_concat : forall {A} (ll : list (list A)) m d i k, (forall l, In l ll -> length l = m) -> i < length ll -> k < m ->
  nth (i * m + k) (concat ll) d = nth k (nth i ll []) d.
Proof.
  intros A ll m d. induction ll as [|l ll IH]; intros i k H Hi Hk; [cbn in Hi; lia|]. cbn [concat].
  pose proof (H l (or_introl eq_refl)) as L. destruct i as [|i].
  - cbn [nth]. rewrite app_nth1 by lia. reflexivity.
  - rewrite app_nth2 by (cbn; lia). replace (S i * m + k - length l) with (i * m + k) by (cbn; lia). cbn [nth]. apply IH; [intros; apply H; right; assumption|cbn in Hi; lia|exact Hk].
Qed.
Lemma aviews_rows : forall C S0 qs T pools masks, (forall r, In r T -> In r (rows C S0)) -> (forall p, In p pools -> forall x, In x p -> In x (cells C S0)) ->
  (forall m, In m masks -> In m (rows C S0)) -> (forall q, In q qs -> fst q < S0 /\ snd q < C) -> length pools = S0 ->
  forall v, In v (aviews T pools qs masks) -> In v (rows C S0).
Proof.
  intros C S0. induction qs as [|[ci off] qs IH]; intros T pools masks HT HP HM HQ LP v Hv; [destruct Hv|].
  destruct masks as [|m masks]; [destruct Hv|]. cbn [aviews] in Hv.
  assert (HQ' : forall q, In q qs -> fst q < S0 /\ snd q < C) by (intros; apply HQ; right; assumption).
  assert (HM' : forall m, In m masks -> In m (rows C S0)) by (intros; apply HM; right; assumption).
  destruct (HQ (ci, off) (or_introl eq_refl)) as [Hci Hoff]. cbn [fst snd] in Hci, Hoff.
  destruct (first_hit T ci off) as [h|] eqn:FH.
  - destruct (first_hit_at _ _ _ _ FH) as [Hh _].
    assert (HIN : In (nth ci pools []) pools) by (apply nth_In; lia).
    destruct (nth ci pools []) as [|[R r] rest] eqn:E.
    + destruct Hv as [<-|Hv]; [apply HM; left; reflexivity|]. apply (IH T pools masks); auto.
    + assert (HR : In R (rows C S0) /\ r < C).
      { pose proof (HP _ HIN (R, r) (or_introl eq_refl)) as X. apply in_prod_iff in X. destruct X as [X1 X2]. apply in_seq in X2. split; [exact X1|lia]. }
      destruct HR as [HR Hr]. destruct Hv as [<-|Hv].
      * apply row_upd; [exact S0| |exact Hr]. apply HT, nth_In, Hh.
      * apply (IH (pn_upd h (pn_upd ci off R) T) (pn_upd ci rest pools) masks); auto.
        -- intros x Hx. apply upd_In in Hx. destruct Hx as [->|Hx]; [|apply HT, Hx]. apply row_upd; assumption.
        -- intros p Hp x Hx. apply upd_In in Hp. destruct Hp as [->|Hp]; [|apply (HP p Hp x Hx)]. apply (HP _ HIN). right. exact Hx.
        -- rewrite upd_length. exact LP.
  - destruct Hv as [<-|Hv]; [apply HM; left; reflexivity|]. apply (IH T pools masks); auto.
Qed.

Lemma nth_ms : forall {A} (f : nat -> A) n i d, i < n -> nth i (map f (seq 0 n)) d = f i.
Proof.
  intros A f n i d H. rewrite (nth_indep _ d (f 0)) by (rewrite map_length, seq_length; exact H). rewrite map_nth, seq_nth by exact H. reflexivity.
Qed.

Section Link.
Set Default Proof Using "All".
Variables (db : list N) (num size threads tq bk : nat) (seed : N) (order : list nat) (qs : list nat).
Notation chunk := (pn_chunk num).
Notation sets := (pn_sets num).
Notation thr := (pn_thr threads).
Notation m1 := (round_up tq thr).
Notation m2 := (round_up bk thr).
Notation total := (chunk * sets).
Hypothesis Ldb : length db = num * size.
Hypothesis Hord : Permutation order (seq 0 sets).
Hypothesis Hqs : forall q, In q qs -> q < total.
Hypothesis NDq : NoDup qs.
Hypothesis Htags : (N.of_nat (m1 + m2 * sets) <= 2 ^ 32)%N.

Lemma pow_chunk : exists k, chunk = 2 ^ k.
Proof. apply (chunk_pow (fun _ _ => 0%N) db num size threads tq bk seed Ldb). Qed.
Lemma low_id : forall a, a < chunk -> pn_low chunk (N.of_nat a) = a.
Proof. destruct pow_chunk as [k ->]. apply pn_low_small. Qed.
Lemma row_ext : forall v, In v (rows chunk sets) -> forall f, (forall i, i < sets -> f i = nth i v 0) -> map f (seq 0 sets) = v.
Proof.
  intros v Hv f H. apply row_In in Hv; [|exact 0]. destruct Hv as [L _]. apply (nth_ext _ _ 0 0).
  - rewrite map_length, seq_length. congruence.
  - intros i Hi. rewrite map_length, seq_length in Hi. rewrite (nth_indep _ 0 (f 0)) by (rewrite map_length, seq_length; exact Hi).
    rewrite map_nth, seq_nth by exact Hi. apply H, Hi.
Qed.

Lemma run_views : forall T pools masks, In T (tabs chunk sets m1) -> In pools (pspace (cells chunk sets) (repeat m2 sets)) -> In masks (tuples (rows chunk sets) (length qs)) ->
  exists res, pn_run (coin_prf (T, pools, masks)) db num size threads tq bk seed (coin_repl (T, pools, masks)) order (coin_queries (T, pools, masks) qs) = Ok res /\
    map (fun r => snd (fst r)) res = map (abs_ix num) (aviews T pools (map (fun q => (q / chunk, q mod chunk)) qs) masks).
Proof.
  intros T pools masks HT HP HM. set (w := (T, pools, masks)). set (prf := coin_prf w). set (rnd := coin_repl w).
  apply tuples_In in HT. destruct HT as [LT FT].
  apply pspace_In in HP. rewrite repeat_length in HP. destruct HP as [LP FP].
  apply tuples_In in HM. destruct HM as [LM FM].
  assert (FP' : forall i, i < sets -> length (nth i pools []) = m2 /\ forall x, In x (nth i pools []) -> In x (cells chunk sets)).
  { intros i Hi. specialize (FP i Hi). rewrite (nth_indep _ 0 m2), nth_repeat in FP by (rewrite repeat_length; exact Hi). apply tuples_In in FP. exact FP. }
  clear FP. set (P := T ++ concat (map (map fst) pools)).
  assert (OFF : forall i x, i < m1 + m2 * sets -> In (nth i P []) (rows chunk sets) -> x < sets -> pn_off prf chunk (tagp i) x = nth x (nth i P []) 0).
  { intros i x Hi HR Hx. unfold pn_off, prf, coin_prf, w. fold P. unfold tagp, u32.
    rewrite N.mod_small by (change 4294967296%N with (2 ^ 32)%N; lia). rewrite !Nat2N.id. apply low_id. apply (row_nth chunk sets 0); assumption. }
  assert (P1 : forall i, i < m1 -> nth i P [] = nth i T [] /\ In (nth i T []) (rows chunk sets)).
  { intros i Hi. unfold P. rewrite app_nth1 by lia. split; [reflexivity|]. apply FT, nth_In. lia. }
  assert (P2 : forall ci k, ci < sets -> k < m2 -> nth (m1 + (ci * m2 + k)) P [] = fst (nth k (nth ci pools []) ([], 0)) /\ In (nth k (nth ci pools []) ([], 0)) (cells chunk sets)).
  { intros ci k Hci Hk. destruct (FP' ci Hci) as [L F]. unfold P. rewrite app_nth2 by lia. rewrite LT. replace (m1 + (ci * m2 + k) - m1) with (ci * m2 + k) by lia.
    rewrite nth_concat with (m := m2).
    - rewrite (nth_indep _ [] (map fst (@nil (list nat * nat)))) by (rewrite map_length; lia). rewrite map_nth.
      split; [|apply F, nth_In; lia].
      rewrite (nth_indep _ [] (fst (@nil nat, 0))) by (rewrite map_length; lia). apply map_nth.
    - intros l Hl. apply in_map_iff in Hl. destruct Hl as [p [<- Hp]]. rewrite map_length. apply (In_nth _ _ []) in Hp. destruct Hp as [i [Hi <-]]. apply FP'. lia.
    - rewrite map_length. lia.
    - exact Hk. }
  destruct (offline_ok prf db num size threads tq bk seed Ldb rnd order [] _ (off_init prf db num size threads tq bk seed Ldb rnd)) as [c [E I]].
  { intros i Hi. apply (Permutation_in i Hord) in Hi. apply in_seq in Hi. lia. }
  assert (HD : Permutation (rev order ++ []) (seq 0 sets)).
  { rewrite app_nil_r. etransitivity; [symmetry; apply Permutation_rev|exact Hord]. }
  destruct (on_init prf db num size threads tq bk seed Ldb rnd _ HD c I) as [I' TR].
  assert (ET : map (rowof prf num) (pc_prim c) = T).
  { rewrite TR. apply (nth_ext _ _ [] []).
    - rewrite map_length, seq_length. congruence.
    - intros i Hi. rewrite map_length, seq_length in Hi.
      rewrite (nth_indep _ [] (map (pn_off prf chunk (tagp 0)) (seq 0 sets))) by (rewrite map_length, seq_length; exact Hi).
      rewrite (map_nth (fun i => map (pn_off prf chunk (tagp i)) (seq 0 sets))). rewrite seq_nth by exact Hi. cbn [plus].
      destruct (P1 i Hi) as [E1 E2]. apply row_ext; [exact E2|]. intros x Hx. rewrite OFF by (try lia; rewrite E1; assumption). rewrite E1. reflexivity. }
  assert (PR : pool_rel prf num threads tq bk rnd (repeat 0 sets) pools).
  { split; [exact LP|]. intros ci Hci. rewrite nth_repeat, Nat.sub_0_r. destruct (FP' ci Hci) as [L _].
    apply (nth_ext _ _ ([], 0) ([], 0)).
    - rewrite map_length, seq_length. exact L.
    - intros k Hk. rewrite L in Hk. rewrite nth_ms by exact Hk. cbn [plus]. destruct (P2 ci k Hci Hk) as [E1 E2].
      assert (B : ci * m2 + k < m2 * sets). { assert ((ci + 1) * m2 <= sets * m2) by (apply Nat.mul_le_mono_r; lia). lia. }
      destruct (nth k (nth ci pools []) ([], 0)) as [R r] eqn:EK. cbn [fst] in E1. apply in_prod_iff in E2. destruct E2 as [E2 E3]. apply in_seq in E3.
      f_equal.
      + symmetry. apply row_ext; [exact E2|]. intros x Hx. rewrite OFF by (try lia; rewrite E1; assumption). rewrite E1. reflexivity.
      + unfold rnd, coin_repl, w. rewrite EK. cbn [snd]. symmetry. apply low_id. lia. }
  destruct (rounds_views prf db num size threads tq bk seed Ldb rnd _ HD (coin_queries w qs) _ c pools I' PR) as [res [ER V]].
  { unfold coin_queries, w. rewrite map_fst_combine || idtac. replace (map fst (combine qs (map (fun (m : list nat) (i : nat) => N.of_nat (nth i m 0)) masks))) with qs; [exact NDq|].
    assert (L : length qs = length (map (fun (m : list nat) (i : nat) => N.of_nat (nth i m 0)) masks)) by (rewrite map_length; congruence).
    revert L. generalize (map (fun (m : list nat) (i : nat) => N.of_nat (nth i m 0)) masks) as l. clear. induction qs as [|q r IH]; intros [|x l] L; try discriminate; [reflexivity|].
    cbn [combine map fst]. f_equal. apply IH. cbn in L. lia. }
  { intros [q r] Hq. apply in_combine_l in Hq. cbn [fst]. split; [apply Hqs, Hq|]. unfold cached. rewrite (oi_cache _ _ _ _ _ _ _ _ _ _ _ I). intros X. apply X. reflexivity. }
  exists res. split.
  - unfold pn_run. rewrite E. cbn [bind]. exact ER.
  - rewrite V, ET. f_equal. f_equal.
    + unfold coin_queries, w. assert (L : length qs = length (map (fun (m : list nat) (i : nat) => N.of_nat (nth i m 0)) masks)) by (rewrite map_length; congruence).
      revert L. generalize (map (fun (m : list nat) (i : nat) => N.of_nat (nth i m 0)) masks) as l. generalize chunk as c0. clear. induction qs as [|q r IH]; intros c0 [|x l] L; try discriminate; [reflexivity|].
      cbn [combine map fst]. f_equal. apply IH. cbn in L. lia.
    + unfold coin_queries, w. assert (FM' : forall m, In m masks -> mask_offs num (fun i => N.of_nat (nth i m 0)) = m).
      { intros m Hm. unfold mask_offs. apply row_ext; [apply FM, Hm|]. intros i Hi. pose proof (row_nth chunk sets 0 m i (FM m Hm) Hi). rewrite N.mod_small by lia. apply Nat2N.id. }
      revert LM FM'. generalize (mask_offs num) as g. clear. revert qs. induction masks as [|m ms IH]; intros qs g LM FM'; destruct qs as [|q r]; try discriminate; [reflexivity|].
      cbn [combine map snd]. f_equal; [apply FM'; left; reflexivity|]. apply IH; [cbn in LM; lia|]. intros; apply FM'; right; assumption.
Qed.

Hypothesis Huse : forall ci, length (filter (fun q => Nat.eqb (q / chunk) ci) qs) <= m2.

Theorem views_uniform : forall view, length view = length qs -> (forall v, In v view -> one_per_chunk chunk sets v) ->
  length (filter (fun w => sees (pn_run (coin_prf w) db num size threads tq bk seed (coin_repl w) order (coin_queries w qs)) view) (all_coins chunk sets m1 m2 (length qs)))
    * (chunk ^ sets) ^ length qs = length (all_coins chunk sets m1 m2 (length qs)).
Proof.
  intros view LV HV.
  assert (CP : 0 < chunk) by (apply (chunk_pos (fun _ _ => 0%N) db num size threads tq bk seed Ldb)).
  set (aq := map (fun q => (q / chunk, q mod chunk)) qs).
  assert (LA : length aq = length qs) by (unfold aq; apply map_length).
  assert (HA : forall q, In q aq -> fst q < sets /\ snd q < chunk).
  { intros q Hq. apply in_map_iff in Hq. destruct Hq as [x [<- Hx]]. cbn [fst snd]. split; [|apply Nat.mod_upper_bound; lia].
    apply Nat.div_lt_upper_bound; [lia|]. apply Hqs, Hx. }
  set (offs := fun v : list nat => map (fun i => nth i v 0 - i * chunk) (seq 0 sets)).
  assert (OB : forall v, one_per_chunk chunk sets v -> In (offs v) (rows chunk sets) /\ abs_ix num (offs v) = v).
  { intros v [L H].
    assert (B : forall i, i < sets -> i * chunk <= nth i v 0 < i * chunk + chunk).
    { intros i Hi. pose proof (Nat.div_mod (nth i v 0) chunk ltac:(lia)) as D. rewrite (H i Hi) in D. pose proof (Nat.mod_upper_bound (nth i v 0) chunk ltac:(lia)). lia. }
    split.
    - apply row_In; [exact 0|]. split; [unfold offs; rewrite map_length, seq_length; reflexivity|].
      intros x Hx. apply in_map_iff in Hx. destruct Hx as [i [<- Hi]]. apply in_seq in Hi. specialize (B i ltac:(lia)). lia.
    - unfold abs_ix. apply (nth_ext _ _ 0 0); [rewrite map_length, seq_length; congruence|].
      intros i Hi. rewrite map_length, seq_length in Hi. unfold offs. rewrite !nth_ms by exact Hi. specialize (B i Hi). lia. }
  assert (AI : forall a b, In a (rows chunk sets) -> In b (rows chunk sets) -> abs_ix num a = abs_ix num b -> a = b).
  { intros a b Ha Hb Hab. apply row_In in Ha; [|exact 0]. apply row_In in Hb; [|exact 0]. destruct Ha as [La _], Hb as [Lb _].
    apply (nth_ext _ _ 0 0); [congruence|]. intros i Hi. rewrite La in Hi.
    assert (F : nth i (abs_ix num a) 0 = nth i (abs_ix num b) 0) by (rewrite Hab; reflexivity). unfold abs_ix in F.
    rewrite !nth_ms in F by exact Hi. lia. }
  assert (EV : map (abs_ix num) (map offs view) = view).
  { rewrite map_map. rewrite <- (map_id view) at 2. apply map_ext_in. intros v Hv. apply OB, HV, Hv. }
  rewrite tot_filter. unfold all_coins, pn_coins. cbv zeta. fold (rows chunk sets). fold (cells chunk sets). fold (tabs chunk sets m1).
  rewrite !tot_prod.
  rewrite (tot_ext _ (fun T => tot (fun pools => tot (fun masks => ind (view_eqb (aviews T pools aq masks) (map offs view))) (tuples (rows chunk sets) (length aq))) (pspace (cells chunk sets) (repeat m2 sets)))).
  - fold (count chunk sets m1 (repeat m2 sets) aq (map offs view)). rewrite count_ok.
    + rewrite !prod_length, (tuples_len _ (length qs)). assert (LR : length (rows chunk sets) = chunk ^ sets) by (unfold rows; rewrite tuples_len, seq_length; reflexivity). rewrite LR. reflexivity.
    + intros q Hq. apply HA, Hq.
    + apply repeat_length.
    + intros ci Hci. rewrite (nth_indep _ 0 m2), nth_repeat by (rewrite repeat_length; exact Hci). unfold uses, aq.
      rewrite <- (Huse ci). clear. induction qs as [|q r IH]; [cbn; lia|]. cbn [map filter fst]. destruct (Nat.eqb _ _); cbn [length]; lia.
    + apply tuples_In. split; [rewrite map_length; congruence|]. intros x Hx. apply in_map_iff in Hx. destruct Hx as [v [<- Hv]]. apply OB, HV, Hv.
  - intros T HT. apply tot_ext. intros pools HP. rewrite LA. apply tot_ext. intros masks HM.
    destruct (run_views T pools masks HT HP HM) as [res [-> V]]. cbn [sees]. rewrite V. fold aq.
    assert (RW : forall v, In v (aviews T pools aq masks) -> In v (rows chunk sets)).
    { apply tuples_In in HT. apply pspace_In in HP. rewrite repeat_length in HP. apply tuples_In in HM. apply aviews_rows; try apply HT; try apply HM; try assumption; [|apply HP].
      intros p Hp x Hx. apply (In_nth _ _ []) in Hp. destruct Hp as [i [Hi <-]]. destruct HP as [LP FP]. rewrite LP in Hi. specialize (FP i Hi). apply tuples_In in FP. apply FP, Hx. }
    unfold ind, view_eqb. destruct (list_eq_dec _ (map (abs_ix num) _) view) as [X|X]; destruct (list_eq_dec _ (aviews _ _ _ _) _) as [Y|Y]; auto; exfalso.
    + apply Y. rewrite <- EV in X.
      assert (RO : forall v, In v (map offs view) -> In v (rows chunk sets)).
      { intros v Hv. apply in_map_iff in Hv. destruct Hv as [y [<- Hy]]. apply OB, HV, Hy. }
      revert X RW RO. generalize (map offs view) as b. generalize (aviews T pools aq masks) as a. clear - AI.
      induction a as [|x a IH]; intros [|y b] X RW RO; try discriminate; [reflexivity|]. cbn [map] in X. injection X as X1 X2.
      f_equal; [apply AI; auto; [apply RW|apply RO]; left; reflexivity|]. apply IH; [exact X2| |]; intros; [apply RW|apply RO]; right; assumption.
    + apply X. rewrite Y. exact EV.
Qed.
End Link.

(** ** Results of a run *)
Lemma pn_low_mod : forall k w, pn_low (2 ^ k) w = N.to_nat (w mod N.of_nat (2 ^ k)).
Proof.
  intros k w. unfold pn_low. f_equal. replace (N.of_nat (2 ^ k - 1)) with (N.ones (N.of_nat k)).
  - rewrite N.land_ones. f_equal. rewrite Nat2N.inj_pow. reflexivity.
  - rewrite N.ones_equiv, Nat2N.inj_sub, Nat2N.inj_pow. cbn. lia.
Qed.

Section Results.
Set Default Proof Using "All".
Variables (prf : N -> N -> N) (db : list N) (num size threads tq bk : nat) (seed : N) (rnd : nat -> nat -> N) (order : list nat).
Notation chunk := (pn_chunk num).
Notation sets := (pn_sets num).
Notation thr := (pn_thr threads).
Notation m1 := (round_up tq thr).
Notation m2 := (round_up bk thr).
Notation total := (chunk * sets).
Hypothesis Ldb : length db = num * size.
Hypothesis Hord : Permutation order (seq 0 sets).

Lemma order_perm : Permutation (rev order ++ []) (seq 0 sets).
Proof. rewrite app_nil_r. etransitivity; [symmetry; apply Permutation_rev|exact Hord]. Qed.
Lemma run_start : exists c, pn_offline prf (pn_server_new db num size seed) (pn_client_new num threads size tq bk) rnd order = Ok c /\
  on_inv prf db num size threads tq bk seed rnd (rev order ++ []) (repeat 0 sets) c /\
  (forall idx, idx < total -> hits_at prf chunk m1 idx = hitn (map (rowof prf num) (pc_prim c)) (idx / chunk) (idx mod chunk)) /\
  (forall idx, idx < total -> hits_at prf chunk m1 idx = 0 -> pn_find idx (pc_miss c) <> None).
Proof.
  destruct (offline_ok prf db num size threads tq bk seed Ldb rnd order [] _ (off_init prf db num size threads tq bk seed Ldb rnd)) as [c [E I]].
  { intros i Hi. apply (Permutation_in i Hord) in Hi. apply in_seq in Hi. lia. }
  destruct (on_init prf db num size threads tq bk seed Ldb rnd _ order_perm c I) as [I' TR].
  destruct (chunk_pow prf db num size threads tq bk seed Ldb) as [k CP].
  pose proof (chunk_pos prf db num size threads tq bk seed Ldb) as C.
  assert (HE : forall idx i, Nat.eqb (N.to_nat (prf (N.of_nat i mod 2 ^ 32)%N (N.of_nat (idx / chunk)) mod N.of_nat chunk)) (idx mod chunk) =
     Nat.eqb (idx mod chunk) (pn_off prf chunk (tagp i) (idx / chunk))).
  { intros idx i. rewrite Nat.eqb_sym. f_equal. unfold pn_off, tagp, u32. change (2 ^ 32)%N with 4294967296%N.
    generalize (prf (N.of_nat i mod 4294967296)%N (N.of_nat (idx / chunk))) as w. rewrite CP. intros w. symmetry. apply pn_low_mod. }
  exists c. split; [exact E|]. split; [exact I'|]. split.
  - intros idx Hidx. unfold hits_at. rewrite TR. unfold hitn.
    assert (Hci : idx / chunk < sets) by (apply Nat.div_lt_upper_bound; lia).
    generalize (seq 0 m1) as l. induction l as [|i l IH]; [reflexivity|]. cbn [map filter]. rewrite HE, (nth_ms (pn_off prf chunk (tagp i))) by exact Hci.
    destruct (Nat.eqb _ _); cbn [length]; rewrite IH; reflexivity.
  - intros idx Hidx H0. assert (Hci : idx / chunk < sets) by (apply Nat.div_lt_upper_bound; lia).
    destruct (oi_cover _ _ _ _ _ _ _ _ _ _ _ I (idx / chunk) (idx mod chunk)) as [[i [Hi HO]]|M].
    + apply (Permutation_in _ (Permutation_sym order_perm)). apply in_seq. lia.
    + apply Nat.mod_upper_bound. lia.
    + exfalso. unfold hits_at in H0. apply length_zero_iff_nil in H0.
      assert (X : In i []) by (rewrite <- H0; apply filter_In; split; [apply in_seq; lia|rewrite HE, HO; apply Nat.eqb_refl]). exact X.
    + replace (idx / chunk * chunk + idx mod chunk) with idx in M; [exact M|]. rewrite (Nat.div_mod idx chunk) at 1 by lia. lia.
Qed.

Lemma run_good : forall qs, (forall q, In q qs -> fst q < num) -> exists res, pn_run prf db num size threads tq bk seed rnd order qs = Ok res /\
  Forall2 (fun q r => let '(e, sent, err) := r in
    (err = false -> e = db_entry size db (fst q)) /\ (err = true -> e = repeat 0%N size) /\ one_per_chunk chunk sets sent) qs res.
Proof.
  intros qs H. destruct run_start as (c & E & I & _). unfold pn_run. rewrite E. cbn [bind].
  pose proof (num_total prf db num size threads tq bk seed Ldb) as NT.
  destruct (rounds_good prf db num size threads tq bk seed Ldb rnd _ order_perm qs _ c I) as [res [ER F]].
  { intros q Hq. specialize (H q Hq). lia. }
  exists res. split; [exact ER|]. clear ER E I. induction F as [|q [[e sent] err] qs res [G1 [G2 G3]] F IH]; [constructor|]. constructor.
  - cbn [fst snd] in *. split; [|split; [exact G2|exact G3]].
    intros X. rewrite (G1 X). apply (ent_db prf db num size threads tq bk seed Ldb). apply (H q). left. reflexivity.
  - apply IH. intros q0 Hq0. apply H. right. exact Hq0.
Qed.

Lemma run_noerr : forall pre idx r post, (forall q, In q (pre ++ (idx, r) :: post) -> fst q < num) ->
  length (filter (fun q => Nat.eqb (fst q / chunk) (idx / chunk)) pre) < m2 ->
  length pre < hits_at prf chunk m1 idx \/ hits_at prf chunk m1 idx = 0 ->
  exists res sent, pn_run prf db num size threads tq bk seed rnd order (pre ++ (idx, r) :: post) = Ok res /\
    nth_error res (length pre) = Some (db_entry size db idx, sent, false).
Proof.
  intros pre idx r post HB HU HH. destruct run_start as (c & E & I & HN & HM). unfold pn_run. rewrite E. cbn [bind].
  pose proof (num_total prf db num size threads tq bk seed Ldb) as NT.
  assert (Hidx : idx < num) by (apply (HB (idx, r)); apply in_or_app; right; left; reflexivity).
  destruct (rounds_noerr prf db num size threads tq bk seed Ldb rnd _ order_perm pre _ c idx r post I) as (res & e & q & ER & NE & ->).
  - intros q Hq. specialize (HB q Hq). lia.
  - rewrite nth_repeat. exact HU.
  - rewrite <- HN by lia. destruct HH as [HH|HH]; [left; exact HH|right; apply HM; [lia|exact HH]].
  - exists res, q. split; [exact ER|]. rewrite NE. rewrite (ent_db prf db num size threads tq bk seed Ldb) by exact Hidx. reflexivity.
Qed.

Lemma run_repeat : forall qs, (forall q, In q qs -> fst q < num) -> forall res, pn_run prf db num size threads tq bk seed rnd order qs = Ok res ->
  forall a b ra rb idx ea qa eb qb err, a < b -> nth_error qs a = Some (idx, ra) -> nth_error qs b = Some (idx, rb) ->
    nth_error res a = Some (ea, qa, false) -> nth_error res b = Some (eb, qb, err) -> err = false.
Proof.
  intros qs HB res ER a b ra rb idx ea qa eb qb err. destruct run_start as (c & E & I & _). unfold pn_run in ER. rewrite E in ER. cbn [bind] in ER.
  pose proof (num_total prf db num size threads tq bk seed Ldb) as NT.
  eapply (rounds_repeat prf db num size threads tq bk seed Ldb rnd _ order_perm qs _ c I); [|exact ER].
  intros q Hq. specialize (HB q Hq). lia.
Qed.
End Results.

(** ** Sizes *)
Lemma chunk_loop_S : forall f c n, chunk_loop (S f) c n = if Nat.ltb (c * c) (4 * n) then chunk_loop f (c * 2) n else c. Proof. reflexivity. Qed.
Lemma chunk_loop_ok : forall f c n, (4 * N.of_nat n <= N.of_nat c * N.of_nat c * 4 ^ N.of_nat f)%N -> 4 * n <= chunk_loop f c n * chunk_loop f c n /\
  (chunk_loop f c n = c \/ exists h, chunk_loop f c n = 2 * h /\ h * h < 4 * n).
Proof.
  induction f as [|f IH]; intros c n H.
  - cbn [chunk_loop]. rewrite N.mul_1_r in H. split; [lia|left; reflexivity].
  - rewrite chunk_loop_S. destruct (Nat.ltb_spec (c * c) (4 * n)) as [L|L]; [|split; [lia|left; reflexivity]].
    destruct (IH (c * 2) n) as [A B].
    { rewrite Nat2N.inj_succ, N.pow_succ_r' in H. lia. }
    split; [exact A|]. right. destruct B as [->|B]; [exists c; split; [lia|exact L]|exact B].
Qed.
