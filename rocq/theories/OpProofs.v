From Coq Require Import List NArith Lia Bool Arith Sorted Permutation.
From Verif Require Import Base Text TextProofs StoreModel BucketSpec CuckooModel CuckooSpec SyncModel KkrtModel KkrtSpec KkrtProps OpModel OpSpec.
Import ListNotations.

(* ---------------- offer ---------------- *)
Lemma op_offer_ok : forall inputs r i,
  (forall j c, In (j, c) r -> j < length inputs) ->
  exists m, op_offer inputs i r = Ok m /\ length (fst m) = length r /\
    (forall q, (q < N.of_nat i)%N -> dup_get (snd m) q = None) /\
    forall k, nth_error (fst m) k = match nth_error r k with
                                    | Some (j, _) => option_map fst (nth_error inputs j) | None => None end /\
      dup_get (snd m) (N.of_nat (i + k)) =
        match nth_error r k with
        | Some (j, _) => match nth_error inputs j with
                         | Some (_, n) => if (1 <? n)%N then Some n else None | None => None end
        | None => None end.
Proof.
  intros inputs r; induction r as [ | [j c] r IH]; intros i H.
  - exists ([], []). cbn [op_offer]. repeat split.
    + now destruct k.
    + now destruct k.
  - cbn [op_offer]. destruct (nth_error inputs j) as [[b n] | ] eqn:E.
    2:{ apply nth_error_None in E. pose proof (H j c (or_introl eq_refl)). lia. }
    destruct (IH (S i)) as (m & Em & Hl & Hlow & Hm).
    { intros j' c' I. apply (H j' c'). now right. }
    rewrite Em. cbn [bind].
    eexists; split; [reflexivity | ]. cbn [fst snd length].
    split; [now rewrite Hl | ]. split.
    { intros q Hq. destruct (1 <? n)%N.
      - cbn [dup_get]. destruct (N.of_nat i =? q)%N eqn:Eq; [apply N.eqb_eq in Eq; lia | ]. apply Hlow. lia.
      - apply Hlow. lia. }
    intros [ | k].
    + cbn [nth_error]. rewrite E. cbn [option_map fst]. split; [reflexivity | ].
      rewrite Nat.add_0_r. destruct (1 <? n)%N.
      * cbn [dup_get]. now rewrite N.eqb_refl.
      * apply Hlow. lia.
    + cbn [nth_error]. destruct (Hm k) as [H1 H2]. split; [exact H1 | ].
      replace (i + S k) with (S i + k) by lia. rewrite <- H2.
      destruct (1 <? n)%N; [ | reflexivity]. cbn [dup_get].
      destruct (N.of_nat i =? N.of_nat (S i + k))%N eqn:Eq; [apply N.eqb_eq in Eq; lia | reflexivity].
Qed.

Lemma last_index_some : forall l i x j, last_index l i x = Some j -> exists k, j = i + k /\ nth_error l k = Some x.
Proof.
  induction l as [ | y r IH]; intros i x j H; cbn [last_index] in H; [discriminate | ].
  destruct (last_index r (S i) x) as [j' | ] eqn:E.
  - injection H as <-. destruct (IH _ _ _ E) as (k & -> & N). exists (S k). split; [lia | exact N].
  - destruct (beqb y x) eqn:B; [ | discriminate]. apply beqb_spec in B. subst y. injection H as <-.
    exists 0. split; [lia | reflexivity].
Qed.

Lemma last_index_none : forall l i x, last_index l i x = None -> ~ In x l.
Proof.
  induction l as [ | y r IH]; intros i x H; cbn [last_index] in H; [easy | ].
  destruct (last_index r (S i) x) eqn:E; [discriminate | ].
  destruct (beqb y x) eqn:B; [discriminate | ].
  intros [-> | I]; [ | exact (IH _ _ E I)].
  assert (beqb x x = true) by now apply beqb_spec. congruence.
Qed.

Lemma op_adopt_in : forall inputs i held q c,
  In (q, c) (op_adopt inputs i held) <->
  exists k x d j, q = i + k /\ nth_error inputs k = Some (x, d) /\ last_index (fst held) 0 x = Some j /\
    c = match dup_get (snd held) (N.of_nat j) with Some c => c | None => 1%N end.
Proof.
  induction inputs as [ | [b n] r IH]; intros i held q c; cbn [op_adopt].
  - split; [intros [] | ]. intros (k & x & d & j & _ & H & _). now destruct k.
  - destruct (last_index (fst held) 0 b) as [j | ] eqn:E.
    + split.
      * intros [H | H].
        -- injection H as <- <-. exists 0, b, n, j. split; [lia | ]. auto.
        -- apply IH in H. destruct H as (k & x & d & j' & -> & H & H'). exists (S k), x, d, j'.
           split; [lia | ]. auto.
      * intros ([ | k] & x & d & j' & -> & H & H' & ->); cbn [nth_error] in H.
        -- injection H as -> ->. rewrite E in H'. injection H' as ->. left. f_equal. lia.
        -- right. apply IH. exists k, x, d, j'. split; [lia | ]. auto.
    + rewrite IH. split.
      * intros (k & x & d & j' & -> & H & H'). exists (S k), x, d, j'. split; [lia | ]. auto.
      * intros ([ | k] & x & d & j' & -> & H & H' & ->); cbn [nth_error] in H.
        -- injection H as -> ->. congruence.
        -- exists k, x, d, j'. split; [lia | ]. auto.
Qed.

Lemma op_adopt_ge : forall inputs i held, Forall (fun q => i <= q) (map fst (op_adopt inputs i held)).
Proof.
  intros. apply Forall_forall. intros q H. apply in_map_iff in H. destruct H as ([q' c] & <- & I).
  apply op_adopt_in in I. destruct I as (k & _ & _ & _ & -> & _). cbn. lia.
Qed.

Lemma op_adopt_sorted : forall inputs i held, StronglySorted lt (map fst (op_adopt inputs i held)).
Proof.
  induction inputs as [ | [b n] r IH]; intros i held; cbn [op_adopt]; [constructor | ].
  destruct (last_index (fst held) 0 b); [ | apply IH]. cbn [map fst]. constructor; [apply IH | ].
  eapply Forall_impl; [ | apply op_adopt_ge]. intros a H. cbn in H. lia.
Qed.

Lemma sorted_nodup : forall l, StronglySorted lt l -> NoDup l.
Proof.
  induction 1; constructor; [ | assumption]. intros I. rewrite Forall_forall in H0. apply H0 in I. lia.
Qed.

Lemma nodup_nth : forall (l : list pitem) j j' x n n',
  NoDup (map fst l) -> nth_error l j = Some (x, n) -> nth_error l j' = Some (x, n') -> j = j' /\ n = n'.
Proof.
  intros l j j' x n n' ND H H'.
  assert (EJ : j = j').
  { rewrite NoDup_nth_error in ND. apply ND.
    - rewrite map_length. apply (proj1 (nth_error_Some l j)). rewrite H. discriminate.
    - erewrite !map_nth_error; [ | exact H' | exact H]. reflexivity. }
  subst j'. rewrite H in H'. injection H' as <-. auto.
Qed.

(** What the party without results obtains from the offer. *)
Lemma adopt_exact : forall own other r m,
  NoDup (map fst own) -> (forall j c, In (j, c) r -> j < length own) -> op_offer own 0 r = Ok m ->
  let res := op_adopt other 0 m in
  in_order res /\
  forall q c, In (q, c) res <->
    exists x d j cj n, nth_error other q = Some (x, d) /\ In (j, cj) r /\ nth_error own j = Some (x, n) /\ c = at_least_one n.
Proof.
  intros own other r m ND HR E res. split; [apply op_adopt_sorted | ].
  destruct (op_offer_ok own r 0 HR) as (m' & E' & Hl & _ & Hm). rewrite E in E'. injection E' as <-.
  assert (CNT : forall n, match (if (1 <? n)%N then Some n else None) with Some c => c | None => 1%N end = at_least_one n).
  { intros n. unfold at_least_one. destruct (1 <? n)%N eqn:L; [apply N.ltb_lt in L | apply N.ltb_ge in L]; lia. }
  assert (AT : forall k x, nth_error (fst m) k = Some x ->
    exists j cj n, nth_error r k = Some (j, cj) /\ nth_error own j = Some (x, n) /\
      match dup_get (snd m) (N.of_nat k) with Some c => c | None => 1%N end = at_least_one n).
  { intros k x Hk. destruct (Hm k) as [H1 H2]. rewrite Hk in H1. rewrite Nat.add_0_l in H2.
    destruct (nth_error r k) as [[j cj] | ] eqn:Er; [ | discriminate].
    destruct (nth_error own j) as [[x' n] | ] eqn:Eo; [ | discriminate]. cbn in H1. injection H1 as ->.
    exists j, cj, n. split; [reflexivity | ]. split; [assumption | ]. rewrite H2. apply CNT. }
  intros q c. unfold res. rewrite op_adopt_in. split.
  - intros (k & x & d & j & -> & Hn & HL & ->). rewrite Nat.add_0_l.
    destruct (last_index_some _ _ _ _ HL) as (k' & -> & Hk). rewrite Nat.add_0_l.
    destruct (AT _ _ Hk) as (j & cj & n & R & O & C).
    exists x, d, j, cj, n. split; [assumption | ]. split; [now apply nth_error_In in R | ]. split; assumption.
  - intros (x & d & j & cj & n & Ho & I & On & ->).
    destruct (last_index (fst m) 0 x) as [p | ] eqn:L.
    + exists q, x, d, p. split; [lia | ]. split; [assumption | ]. split; [assumption | ].
      destruct (last_index_some _ _ _ _ L) as (k' & -> & Hk). rewrite Nat.add_0_l in *.
      destruct (AT _ _ Hk) as (j' & cj' & n' & R & O & C). rewrite C.
      destruct (nodup_nth own j j' x n n' ND On O) as [_ ->]. reflexivity.
    + exfalso. apply (last_index_none _ _ _ L).
      apply In_nth_error in I. destruct I as [k Hk]. destruct (Hm k) as [H1 _]. rewrite Hk, On in H1.
      apply nth_error_In in H1. exact H1.
Qed.

Lemma op_adopt_nil : forall inputs i d, op_adopt inputs i ([], d) = [].
Proof. induction inputs as [ | [b n] r IH]; intros; cbn; auto. Qed.

Lemma broadcast_first : forall own other r,
  (forall j c, In (j, c) r -> j < length own) ->
  exists m, op_offer own 0 r = Ok m /\ op_broadcast own other (r, []) = Ok (r, op_adopt other 0 m).
Proof.
  intros own other r HR. destruct (op_offer_ok own r 0 HR) as (m & E & Hl & _ & _).
  exists m. split; [assumption | ]. unfold op_broadcast. cbn [fst snd]. rewrite E. cbn [bind op_offer].
  destruct r as [ | p r].
  - cbn in E. injection E as <-. cbn. now rewrite !op_adopt_nil.
  - destruct m as [[ | b l] dm]; [discriminate Hl | ].
    unfold broadcast_result. cbn [map fst length pick_rank Nat.ltb Nat.leb enforce Nat.eqb bind fold_right Nat.max nth].
    cbn. reflexivity.
Qed.

Lemma broadcast_second : forall own other r,
  (forall j c, In (j, c) r -> j < length own) ->
  exists m, op_offer own 0 r = Ok m /\ op_broadcast other own ([], r) = Ok (op_adopt other 0 m, r).
Proof.
  intros own other r HR. destruct (op_offer_ok own r 0 HR) as (m & E & Hl & _ & _).
  exists m. split; [assumption | ]. unfold op_broadcast. cbn [fst snd]. rewrite E. cbn [bind op_offer].
  destruct r as [ | p r].
  - cbn in E. injection E as <-. cbn. now rewrite !op_adopt_nil.
  - destruct m as [[ | b l] dm]; [discriminate Hl | ].
    unfold broadcast_result. cbn. reflexivity.
Qed.

Lemma op_broadcast_exact : forall (first : bool) own other r,
  NoDup (map fst own) -> (forall j c, In (j, c) r -> j < length own) ->
  exists res, op_broadcast (fst (flip first own other)) (snd (flip first own other)) (flip first r []) = Ok (flip first r res) /\
    in_order res /\
    forall q c, In (q, c) res <->
      exists x d j cj n, nth_error other q = Some (x, d) /\ In (j, cj) r /\ nth_error own j = Some (x, n) /\ c = at_least_one n.
Proof.
  intros first own other r ND HR.
  destruct first; cbn [flip fst snd];
    [destruct (broadcast_first own other r HR) as (m & E & B) | destruct (broadcast_second own other r HR) as (m & E & B)];
    exists (op_adopt other 0 m); (split; [exact B | ]); exact (adopt_exact own other r m ND HR E).
Qed.

(* ---------------- one bucket ---------------- *)
Lemma common_in_range : forall val own peer r, common_with val own peer r -> forall j c, In (j, c) r -> j < length own.
Proof.
  intros val own peer r [_ H] j c I. apply H in I. destruct I as (x & d & n & E & _). apply nth_error_Some. congruence.
Qed.

Lemma bucket_exact : forall core val (first bcast : bool) k b0 b1 r,
  distinct b0 -> distinct b1 ->
  core k b0 b1 = Ok (flip first r []) ->
  (if first then common_with val b0 b1 r else common_with val b1 b0 r) ->
  exists o, op_bucket core bcast (first || bcast) (negb first || bcast) k b0 b1 = Ok o /\ bucket_result val first bcast b0 b1 o.
Proof.
  intros core val first bcast k b0 b1 r D0 D1 C HC. unfold op_bucket. rewrite C. cbn [bind].
  set (own := if first then b0 else b1). set (peer := if first then b1 else b0).
  assert (HC' : common_with val own peer r) by (unfold own, peer; destruct first; exact HC).
  assert (Do : distinct own) by (unfold own; destruct first; assumption).
  assert (Dp : distinct peer) by (unfold peer; destruct first; assumption).
  destruct bcast.
  - destruct (op_broadcast_exact first own peer r Do (common_in_range _ _ _ _ HC')) as (res & B & S & M).
    assert (B' : op_broadcast b0 b1 (flip first r []) = Ok (flip first r res)).
    { revert B. unfold own, peer. destruct first; exact (fun x => x). }
    rewrite B'. cbn [bind]. rewrite !orb_true_r. eexists; split; [reflexivity | ].
    assert (CW : common_with at_least_one peer own res /\ in_order res).
    { split; [ | exact S]. split; [apply sorted_nodup; exact S | ].
      intros i c. rewrite M. split.
      - intros (x & d & j & cj & n & H1 & _ & H3 & H4). exists x, d, n. split; [assumption | ].
        split; [now apply nth_error_In in H3 | assumption].
      - intros (x & d & n & H1 & H2 & H3). apply In_nth_error in H2. destruct H2 as [j Hj].
        exists x, d, j. destruct HC' as [_ HC2].
        exists (val d), n. split; [assumption | ]. split; [ | split; assumption].
        apply HC2. exists x, n, d. split; [assumption | ]. split; [now apply nth_error_In in H1 | reflexivity]. }
    unfold bucket_result, pair_result. unfold own, peer in *. destruct first; cbn [flip fst snd]; auto.
  - rewrite !orb_false_r. eexists; split; [reflexivity | ].
    unfold bucket_result, pair_result, own, peer in *. destruct first; cbn [flip fst snd negb]; auto.
Qed.

Lemma loop_exact : forall core val first bcast bs0 bs1 k,
  length bs0 = length bs1 -> Forall distinct bs0 -> Forall distinct bs1 ->
  (forall i b0 b1, nth_error bs0 i = Some b0 -> nth_error bs1 i = Some b1 ->
     exists r, core (k + i) b0 b1 = Ok (flip first r []) /\
       (if first then common_with val b0 b1 r else common_with val b1 b0 r)) ->
  exists outs, op_loop core bcast (first || bcast) (negb first || bcast) k bs0 bs1 = Ok outs /\
    length outs = length bs0 /\
    forall i b0 b1, nth_error bs0 i = Some b0 -> nth_error bs1 i = Some b1 ->
      exists o, nth_error outs i = Some o /\ bucket_result val first bcast b0 b1 o.
Proof.
  intros core val first bcast bs0. induction bs0 as [ | b0 bs0 IH]; intros [ | b1 bs1] k L D0 D1 HC; try discriminate L.
  - exists []. cbn. repeat split. intros [ | i] ? ? H; discriminate H.
  - apply Forall_inv in D0 as X0. apply Forall_inv in D1 as X1.
    apply Forall_inv_tail in D0. apply Forall_inv_tail in D1. injection L as L.
    destruct (HC 0 b0 b1 eq_refl eq_refl) as (r & C & CW). rewrite Nat.add_0_r in C.
    destruct (bucket_exact core val first bcast k b0 b1 r X0 X1 C CW) as (o & Eo & Ho).
    destruct (IH bs1 (S k) L D0 D1) as (outs & E & Hl & Hn).
    { intros i x y Hx Hy. destruct (HC (S i) x y Hx Hy) as (r' & C' & CW'). exists r'.
      rewrite <- Nat.add_succ_comm in C'. auto. }
    exists (o :: outs). cbn [op_loop]. rewrite Eo. cbn [bind]. rewrite E. cbn [bind].
    split; [reflexivity | ]. split; [cbn; congruence | ].
    intros [ | i] x y Hx Hy; cbn [nth_error] in *.
    + injection Hx as <-. injection Hy as <-. eauto.
    + exact (Hn i x y Hx Hy).
Qed.

Lemma op_withheld : forall core bcast get0 get1 bs0 bs1 k outs,
  op_loop core bcast get0 get1 k bs0 bs1 = Ok outs ->
  (get0 = false -> Forall (fun o => fst o = []) outs) /\ (get1 = false -> Forall (fun o => snd o = []) outs).
Proof.
  intros core bcast get0 get1. induction bs0 as [|b0 bs0 IH]; intros [|b1 bs1] k outs E; cbn [op_loop] in E; try discriminate.
  - injection E as <-. split; constructor.
  - destruct (op_bucket core bcast get0 get1 k b0 b1) as [o| | |] eqn:B; try discriminate. cbn [bind] in E.
    destruct (op_loop core bcast get0 get1 (S k) bs0 bs1) as [os| | |] eqn:L; try discriminate. cbn [bind] in E. injection E as <-.
    destruct (IH _ _ _ L) as [H0 H1]. unfold op_bucket in B. destruct (core k b0 b1) as [r| | |]; try discriminate. cbn [bind] in B.
    destruct (if bcast then op_broadcast b0 b1 r else Ok r) as [r'| | |]; try discriminate. cbn [bind] in B. injection B as <-.
    split; intros ->; (constructor; [reflexivity|auto]).
Qed.

Lemma nth_error_skipn : forall {A} (l : list A) n i, nth_error (skipn n l) i = nth_error l (n + i).
Proof. intros A l; induction l as [ | x l IH]; intros [ | n] i; cbn; auto. now destruct i. Qed.

Lemma Forall_skipn : forall {A} (P : A -> Prop) n l, Forall P l -> Forall P (skipn n l).
Proof. intros A P n; induction n; intros [ | x l] H; cbn; auto. inversion H; auto. Qed.

Lemma op_run_exact : forall core val first bcast parsed bs0 bs1,
  let st := op_start parsed in
  length bs0 = length bs1 -> st <= length bs0 -> Forall distinct bs0 -> Forall distinct bs1 ->
  (forall k b0 b1, st <= k -> nth_error bs0 k = Some b0 -> nth_error bs1 k = Some b1 ->
     exists r, core k b0 b1 = Ok (flip first r []) /\
       (if first then common_with val b0 b1 r else common_with val b1 b0 r)) ->
  exists outs, op_run core bcast (first || bcast) (negb first || bcast) parsed bs0 bs1 = Ok outs /\
    length outs = length bs0 - st /\
    forall k b0 b1, nth_error bs0 (st + k) = Some b0 -> nth_error bs1 (st + k) = Some b1 ->
      exists o, nth_error outs k = Some o /\ bucket_result val first bcast b0 b1 o.
Proof.
  intros core val first bcast parsed bs0 bs1 st L LE D0 D1 HC. unfold op_run. fold st.
  assert (F0 : Nat.ltb (length bs0) st = false) by now apply Nat.ltb_ge.
  assert (F1 : Nat.ltb (length bs1) st = false) by (apply Nat.ltb_ge; lia).
  rewrite F0, F1. cbn [orb].
  destruct (loop_exact core val first bcast (skipn st bs0) (skipn st bs1) st) as (outs & E & Hl & Hn).
  - rewrite !skipn_length. lia.
  - now apply Forall_skipn.
  - now apply Forall_skipn.
  - intros i b0 b1. rewrite !nth_error_skipn. intros. apply HC; auto. lia.
  - exists outs. split; [exact E | ]. split; [now rewrite Hl, skipn_length | ].
    intros k b0 b1 H0 H1. apply Hn; now rewrite nth_error_skipn.
Qed.

(* ---------------- KKRT ---------------- *)
Lemma kkrt_two_exact : forall blake env k rin sin,
  kkrt_good blake (env k) rin sin -> distinct rin -> distinct sin -> rin <> [] -> sin <> [] ->
  exists fuel0, (forall fuel, fuel0 <= fuel -> kkrt_two blake env fuel k rin sin = Throw) \/
    exists r, (forall fuel, fuel0 <= fuel -> kkrt_two blake env fuel k rin sin = Ok r) /\
              common_with kkrt_cnt rin sin r.
Proof.
  intros blake env k rin sin G DR DS NR NS.
  destruct G as (G1 & G2 & G3 & G4 & G5 & G6 & G7 & G8 & G9 & G10 & G11 & G12 & G13).
  set (codes := map (fun x => blake (fst x)) rin) in *.
  set (items := map (fun x => (blake (fst x), snd x)) sin) in *.
  assert (INJ : forall l, NoDup (map fst l) -> (forall x, In x (map fst l) -> In x (map fst (rin ++ sin))) ->
                NoDup (map (fun x : pitem => blake (fst x)) l)).
  { induction l as [ | x l IH]; intros ND HI; cbn [map] in *; constructor.
    - inversion ND as [ | ? ? NI ND']; subst. intros I. apply in_map_iff in I. destruct I as (y & E & I).
      apply NI. apply in_map_iff. exists y. split; [ | assumption].
      apply G13; [ | | exact E]; apply HI; [right; now apply in_map | now left].
    - inversion ND; subst. apply IH; auto. intros y Hy. apply HI. now right. }
  assert (NC : NoDup codes).
  { apply INJ; [exact DR | ]. intros x Hx. rewrite map_app. apply in_or_app. now left. }
  assert (NI : NoDup (map fst items)).
  { unfold items. rewrite map_map. cbn [fst]. apply INJ; [exact DS | ].
    intros x Hx. rewrite map_app. apply in_or_app. now right. }
  assert (NE : items <> []). { unfold items. intros E. apply NS. now destruct sin. }
  assert (P7 : Permutation (ke_perm (env k)) (seq 0 (length items))) by (unfold items; rewrite map_length; exact G7).
  destruct (C23_kkrt_indices_exact (ke_oprf (env k)) (ke_esz (env k)) (ke_opts (env k)) (ke_ot (env k)) (ke_psi (env k))
     (ke_perm (env k)) (ke_fill (env k)) (ke_garbage (env k)) (ke_arr (env k)) items codes
     G1 G2 G3 G4 G5 G6 P7 G8 G9 G10 G11 G12 NC NI NE) as (fuel0 & bs & HS & HR).
  exists fuel0.
  assert (RUN : forall fuel, fuel0 <= fuel -> kkrt_two blake env fuel k rin sin =
    omap (map (fun p => (N.to_nat (fst p), snd p))) (kkrt_recv_indices (ke_oprf (env k)) (ke_esz (env k)) (ke_opts (env k)) codes bs)).
  { intros fuel HF. unfold kkrt_two. destruct rin; [congruence | ]. destruct sin; [congruence | ].
    cbn [length Nat.eqb negb andb enforce]. fold codes. fold items. rewrite (HS fuel HF). reflexivity. }
  destruct HR as [HR | (res & HR & ND & IFF)].
  - left. intros fuel HF. rewrite (RUN fuel HF), HR. reflexivity.
  - right. exists (map (fun p => (N.to_nat (fst p), snd p)) res). split.
    { intros fuel HF. rewrite (RUN fuel HF), HR. reflexivity. }
    split.
    { rewrite map_map. cbn [fst]. exact ND. }
    intros i c. specialize (IFF i c).
    assert (A : In (i, c) (map (fun p => (N.to_nat (fst p), snd p)) res) <-> exists p, N.to_nat p = i /\ In (p, c) res).
    { rewrite in_map_iff. split.
      - intros ([p c'] & E & I). injection E as <- <-. eauto.
      - intros (p & <- & I). exists (p, c). auto. }
    rewrite A, IFF. split.
    + intros (x & cnt & H1 & H2 & H3). unfold codes in H1. rewrite nth_error_map in H1.
      destruct (nth_error rin i) as [[y d] | ] eqn:E; [ | discriminate]. cbn in H1. injection H1 as <-.
      unfold items in H2. apply in_map_iff in H2. destruct H2 as ([z n] & E2 & I2). cbn in E2. injection E2 as E2 <-.
      exists y, d, n. split; [reflexivity | ]. split; [ | exact H3].
      assert (z = y) as <-; [ | assumption].
      apply G13; [ | | exact E2]; rewrite map_app; apply in_or_app.
      * right. apply in_map_iff. exists (z, n). auto.
      * left. apply nth_error_In in E. apply in_map_iff. exists (y, d). auto.
    + intros (x & d & n & H1 & H2 & H3). exists (blake x), n. split; [ | split; [ | exact H3]].
      * unfold codes. now rewrite nth_error_map, H1.
      * unfold items. apply in_map_iff. exists (x, n). auto.
Qed.

Lemma kkrt_loop : forall blake env first bcast bs0 bs1 k,
  length bs0 = length bs1 -> Forall distinct bs0 -> Forall distinct bs1 ->
  ~ In [] bs0 -> ~ In [] bs1 ->
  (forall i b0 b1, nth_error bs0 i = Some b0 -> nth_error bs1 i = Some b1 -> kkrt_side first blake env (k + i) b0 b1) ->
  exists fuel0,
   (forall fuel, fuel0 <= fuel -> op_loop (kkrt_core blake env fuel first) bcast (first || bcast) (negb first || bcast) k bs0 bs1 = Throw) \/
   exists outs,
    (forall fuel, fuel0 <= fuel -> op_loop (kkrt_core blake env fuel first) bcast (first || bcast) (negb first || bcast) k bs0 bs1 = Ok outs) /\
    length outs = length bs0 /\
    forall i b0 b1, nth_error bs0 i = Some b0 -> nth_error bs1 i = Some b1 ->
      exists o, nth_error outs i = Some o /\ bucket_result kkrt_cnt first bcast b0 b1 o.
Proof.
  intros blake env first bcast bs0. induction bs0 as [ | b0 bs0 IH]; intros [ | b1 bs1] k L D0 D1 N0 N1 G; try discriminate L.
  - exists 0. right. exists []. cbn. repeat split. intros [ | i] ? ? H; discriminate H.
  - apply Forall_inv in D0 as X0. apply Forall_inv in D1 as X1.
    apply Forall_inv_tail in D0. apply Forall_inv_tail in D1. injection L as L.
    pose proof (G 0 b0 b1 eq_refl eq_refl) as G0. rewrite Nat.add_0_r in G0.
    assert (E0 : b0 <> []) by (intros ->; apply N0; now left).
    assert (E1 : b1 <> []) by (intros ->; apply N1; now left).
    destruct (IH bs1 (S k) L D0 D1) as (f1 & HI).
    { intros I. apply N0. now right. }
    { intros I. apply N1. now right. }
    { intros i x y Hx Hy. rewrite Nat.add_succ_comm. exact (G (S i) x y Hx Hy). }
    assert (TWO : exists f0, (forall fuel, f0 <= fuel -> kkrt_core blake env fuel first k b0 b1 = Throw) \/
       exists r, (forall fuel, f0 <= fuel -> kkrt_core blake env fuel first k b0 b1 = Ok (flip first r [])) /\
         (if first then common_with kkrt_cnt b0 b1 r else common_with kkrt_cnt b1 b0 r)).
    { unfold kkrt_core, kkrt_side in *. destruct first.
      - destruct (kkrt_two_exact blake env k b0 b1 G0 X0 X1 E0 E1) as (f0 & [T | (r & O & CW)]); exists f0.
        + left. intros fuel HF. now rewrite (T fuel HF).
        + right. exists r. split; [ | exact CW]. intros fuel HF. now rewrite (O fuel HF).
      - destruct (kkrt_two_exact blake env k b1 b0 G0 X1 X0 E1 E0) as (f0 & [T | (r & O & CW)]); exists f0.
        + left. intros fuel HF. now rewrite (T fuel HF).
        + right. exists r. split; [ | exact CW]. intros fuel HF. now rewrite (O fuel HF). }
    destruct TWO as (f0 & [T | (r & O & CW)]).
    { exists f0. left. intros fuel HF. cbn [op_loop]. unfold op_bucket. now rewrite (T fuel HF). }
    exists (Nat.max f0 f1).
    set (core1 := kkrt_core blake env f0 first).
    destruct (bucket_exact core1 kkrt_cnt first bcast k b0 b1 r X0 X1 (O f0 (Nat.le_refl _)) CW) as (o & Eo & Ho).
    assert (Eo' : forall fuel, f0 <= fuel -> op_bucket (kkrt_core blake env fuel first) bcast (first || bcast) (negb first || bcast) k b0 b1 = Ok o).
    { intros fuel HF. rewrite <- Eo. unfold op_bucket, core1. now rewrite (O fuel HF), (O f0 (Nat.le_refl _)). }
    destruct HI as [HT | (outs & HO & Hl & Hn)].
    + left. intros fuel HF. cbn [op_loop]. rewrite (Eo' fuel) by lia. cbn [bind]. rewrite HT by lia. reflexivity.
    + right. exists (o :: outs). split.
      { intros fuel HF. cbn [op_loop]. rewrite (Eo' fuel) by lia. cbn [bind]. rewrite HO by lia. reflexivity. }
      split; [cbn; congruence | ].
      intros [ | i] x y Hx Hy; cbn [nth_error] in *.
      * injection Hx as <-. injection Hy as <-. eauto.
      * exact (Hn i x y Hx Hy).
Qed.

Lemma kkrt_empty_stops : forall blake env fuel first bcast bs0 bs1 outs,
  kkrt_op_run blake env fuel first bcast bs0 bs1 = Ok outs -> ~ In [] bs0 /\ ~ In [] bs1.
Proof.
  intros blake env fuel first bcast bs0 bs1 outs. unfold kkrt_op_run, op_run. cbn [op_start].
  replace (Nat.ltb (length bs0) 0 || Nat.ltb (length bs1) 0) with false by (symmetry; apply orb_false_iff; split; apply Nat.ltb_ge; lia).
  cbn [skipn]. generalize 0 as k. revert bs1 outs.
  induction bs0 as [ | b0 bs0 IH]; intros [ | b1 bs1] outs k H; cbn [op_loop] in H; try discriminate H; [now split | ].
  assert (NE : forall o, kkrt_core blake env fuel first k b0 b1 = Ok o -> b0 <> [] /\ b1 <> []).
  { unfold kkrt_core, kkrt_two. intros o Ho. destruct first, b0, b1; cbn in Ho; try discriminate Ho; split; discriminate. }
  unfold op_bucket in H at 1. destruct (kkrt_core blake env fuel first k b0 b1) as [o | | | ] eqn:C; try discriminate H.
  destruct (NE o eq_refl) as [Z0 Z1]. cbn [bind] in H.
  destruct (if bcast then op_broadcast b0 b1 o else Ok o) as [o' | | | ]; try discriminate H. cbn [bind] in H.
  destruct (op_loop (kkrt_core blake env fuel first) bcast (first || bcast) (negb first || bcast) (S k) bs0 bs1) as [os | | | ] eqn:E; try discriminate H.
  destruct (IH bs1 os (S k) E) as [I0 I1]. split; intros [A | A]; auto; congruence.
Qed.

(* ---------------- RR22 ---------------- *)
Lemma rr_pre_nth : forall l i k, nth_error (rr_pre i l) k =
  option_map (fun x => mk_bitem (N.of_nat (i + k)) (u32 (snd x + max32 - 1)) (fst x)) (nth_error l k).
Proof.
  induction l as [ | [b n] r IH]; intros i [ | k]; cbn [rr_pre nth_error option_map]; auto.
  - now rewrite Nat.add_0_r.
  - rewrite IH. now rewrite Nat.add_succ_comm.
Qed.

Lemma u32_back : forall n, (n < max32)%N -> u32 (u32 (n + max32 - 1) + 1) = n.
Proof.
  intros n H. unfold u32, max32 in *. destruct (N.eq_dec n 0) as [-> | NZ]; [reflexivity | ].
  replace (n + 4294967296 - 1)%N with ((n - 1) + 1 * 4294967296)%N by lia.
  rewrite N.mod_add by discriminate. rewrite (N.mod_small (n - 1)) by lia.
  replace (n - 1 + 1)%N with n by lia. now apply N.mod_small.
Qed.

Lemma rr_post_ok : forall items res, (forall j d, In (j, d) res -> j < length items) ->
  exists m, rr_post items res = Ok m /\
    m = map (fun p => (match nth_error items (fst p) with Some it => b_index it | None => 0%N end, u32 (snd p + 1))) res.
Proof.
  intros items res; induction res as [ | [j d] r IH]; intros H; cbn [rr_post]; [eauto | ].
  destruct IH as (m & E & ->). { intros. apply (H j0 d0). now right. }
  destruct (nth_error items j) as [it | ] eqn:N.
  2:{ apply nth_error_None in N. pose proof (H j d (or_introl eq_refl)). lia. }
  rewrite E. cbn [bind map fst snd]. rewrite N. eauto.
Qed.

Lemma rr_pre_length : forall l i, length (rr_pre i l) = length l.
Proof. induction l as [ | [b n] r IH]; intros; cbn; auto. Qed.

Lemma rr22_exact : forall own peer res,
  Forall (fun x => (snd x < max32)%N) peer ->
  exact_on (rr_pre 0 own) (rr_pre 0 peer) res ->
  exists m, rr_post (rr_pre 0 own) res = Ok m /\
    common_with (fun n => n) own peer (map (fun p => (N.to_nat (fst p), snd p)) m).
Proof.
  intros own peer res B [ND IFF].
  destruct (rr_post_ok (rr_pre 0 own) res) as (m & E & ->).
  { intros j d I. apply IFF in I. destruct I as (x & y & Hn & _). apply nth_error_Some. congruence. }
  eexists; split; [exact E | ].
  rewrite map_map. cbn [fst snd].
  assert (ID : forall j d, In (j, d) res -> N.to_nat (match nth_error (rr_pre 0 own) j with Some it => b_index it | None => 0%N end) = j).
  { intros j d I. apply IFF in I. destruct I as (x & y & Hn & _). rewrite Hn. rewrite rr_pre_nth in Hn.
    destruct (nth_error own j); [ | discriminate]. cbn in Hn. injection Hn as <-. cbn [b_index]. now rewrite Nat2N.id. }
  set (f := fun x : nat * N => (N.to_nat match nth_error (rr_pre 0 own) (fst x) with Some it => b_index it | None => 0%N end, u32 (snd x + 1))).
  assert (MF : map fst (map f res) = map fst res).
  { rewrite map_map. apply map_ext_in. intros [j d] I. unfold f. cbn [fst snd]. exact (ID j d I). }
  split; [now rewrite MF | ].
  intros i c. split.
  - intros I. apply in_map_iff in I. destruct I as ([j d] & Ef & I). unfold f in Ef. cbn [fst snd] in Ef.
    rewrite (ID j d I) in Ef. injection Ef as <- <-.
    apply IFF in I. destruct I as (x & y & Hn & Iy & Hd & Hu). rewrite rr_pre_nth in Hn.
    destruct (nth_error own j) as [[ox on] | ] eqn:Eo; [ | discriminate]. cbn in Hn. injection Hn as <-. cbn [b_data] in Hd.
    apply In_nth_error in Iy. destruct Iy as [q Hq]. rewrite rr_pre_nth in Hq.
    destruct (nth_error peer q) as [[px pn] | ] eqn:Ep; [ | discriminate]. cbn in Hq. injection Hq as <-. cbn [b_data b_dup] in *.
    subst px d. exists ox, on, pn. apply nth_error_In in Ep. split; [reflexivity | ]. split; [assumption | ].
    apply u32_back. rewrite Forall_forall in B. exact (B _ Ep).
  - intros (x & d & n & Hn & Ip & ->). apply in_map_iff.
    assert (Bn : (n < max32)%N) by (rewrite Forall_forall in B; exact (B _ Ip)).
    apply In_nth_error in Ip. destruct Ip as [q Hq].
    assert (IR : In (i, u32 (n + max32 - 1)) res).
    { apply IFF. eexists; eexists. split; [rewrite rr_pre_nth, Hn; reflexivity | ].
      split; [eapply nth_error_In; rewrite rr_pre_nth, Hq; reflexivity | ]. split; reflexivity. }
    exists (i, u32 (n + max32 - 1)). split; [ | assumption]. unfold f. cbn [fst snd].
    rewrite (ID _ _ IR), (u32_back n Bn). reflexivity.
Qed.
