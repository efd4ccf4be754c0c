(** Many retrievals. *)
From Coq Require Import List NArith Bool Arith Lia Permutation.
From Verif Require Import Base BaseProofs StoreModel KkrtProofs PpsModel PpsSpec PpsProofs PpsProofs2 PpsProofs3.
Import ListNotations.

(** What is asked of the first [p] keys drawn. *)
Definition good_keys (prg : N -> N * N) (h : nat) (keys : nat -> N) (p : nat) : Prop :=
  (forall c, c < p -> (keys c < max64 * max64)%N /\ no_zero_node prg h (keys c)) /\
  (forall c d, c < d -> d < p -> fst (prg (keys c)) <> fst (prg (keys d)) /\ snd (prg (keys c)) <> snd (prg (keys d))).
Definition good_coin (c : N * N * bool) : Prop := (fst (fst c) < max64)%N /\ (snd (fst c) < max64)%N.

Section S.
Variable prg : N -> N * N.
Variable n : N.
Variable s : nat.
Hypothesis Hprg : forall x, (fst (prg x) < max64 * max64)%N /\ (snd (prg x) < max64 * max64)%N.
Hypothesis Hn : (0 < n < half)%N.
Hypothesis Hs : 2 <= s.
Hypothesis Hsm : (N.of_nat s < max64)%N.
Variable bits : list bool.
Hypothesis Hbits : N.to_nat n <= length bits.
Variable walk : list (N * nat) -> list (N * nat).
Hypothesis Hwalk : forall m, Permutation (walk m) m.
Variable keys : nat -> N.
Variable lambda : nat.
Notation vals := (vals prg n s).
Notation ssum := (ssum n bits).
Notation at_ := (at_ bits).
Notation cop := (pp_copath prg (pp_depth s)).

Lemma Hs0 : 0 < s. Proof using Hs. exact (Nat.lt_le_trans 0 2 s Nat.lt_0_2 Hs). Qed.
Lemma depth_pos : 0 < pp_depth s.
Proof using Hs. unfold pp_depth. apply Nat.log2_up_pos. exact Hs. Qed.

Definition slot (p : nat) (c : N * N) (set : list N) (hb : bool) : Prop :=
  (exists q, q < p /\ fst c = keys q) /\ (snd c < n)%N /\ NoDup (vals (fst c)) /\ set = vals (fst c) /\ hb = ssum (snd c) (vals (fst c)).
Definition good (ck : list (N * N)) (v : list (list N)) (h : list bool) (p : nat) : Prop :=
  length v = length ck /\ length h = length ck /\
  forall j c, nth_error ck j = Some c -> exists set hb, nth_error v j = Some set /\ nth_error h j = Some hb /\ slot p c set hb.

Lemma search2_spec : forall p i, (i < n)%N -> good_keys prg (pp_depth s) keys p ->
  forall ck v h j0, good ck v h p ->
  match pp_search2 n i j0 ck v with
  | Ok (Some (j, c)) => j0 <= j /\ nth_error ck (j - j0) = Some c /\ shifts_to n (vals (fst c)) (snd c) i
  | Ok None => forall c, In c ck -> ~ shifts_to n (vals (fst c)) (snd c) i
  | _ => False
  end.
Proof.
  intros p i Hi GK. induction ck as [|c ck IH]; intros v h j0 G; cbn [pp_search2]; [intros c []|].
  destruct G as (Lv & Lh & G). destruct v as [|set v]; [discriminate|]. destruct h as [|hb h]; [discriminate|].
  destruct (G 0 c eq_refl) as (set' & hb' & E1 & E2 & (q & Hq & Eq) & Hd & ND & -> & ->). cbn in E1, E2. injection E1 as ->. injection E2 as ->.
  destruct (pp_sub_spec i (snd c) n Hn Hi Hd) as [S1 S2].
  assert (VL : Forall (fun x => (x < n)%N) (vals (fst c))).
  { apply (vals_lt prg n s Hprg Hn Hs0). rewrite Eq. apply (proj1 GK q Hq). }
  rewrite Forall_forall in VL.
  destruct (pp_mem (pp_sub i (snd c) n) (vals (fst c))) eqn:M.
  - split; [lia|]. rewrite Nat.sub_diag. split; [reflexivity|]. apply existsb_exists in M. destruct M as (x & J & E). apply N.eqb_eq in E.
    exists x. split; [exact J|]. apply S2; [exact (VL x J)|exact E].
  - assert (G' : good ck v h p).
    { cbn in Lv, Lh. split; [lia|]. split; [lia|]. intros j c' E. exact (G (S j) c' E). }
    specialize (IH v h (S j0) G'). destruct (pp_search2 n i (S j0) ck v) as [[[j c']|]| | |]; try contradiction.
    + destruct IH as (A & B & C). split; [lia|]. replace (j - j0) with (S (j - S j0)) by lia. split; assumption.
    + intros c' [<-|J]; [|exact (IH c' J)]. intros (x & Jx & Ex). apply S2 in Ex; [|exact (VL x Jx)].
      assert (T : pp_mem (pp_sub i (snd c) n) (vals (fst c)) = true) by (apply existsb_exists; exists x; split; [exact Jx|apply N.eqb_eq; exact Ex]).
      rewrite T in M. discriminate.
Qed.

(** What a round does. *)
Definition hit (b : bool) (ck : list (N * N)) (i : N) : Prop :=
  b = false /\ exists c, In c ck /\ shifts_to n (vals (fst c)) (snd c) i.

Lemma round_ok : forall st i r1 r2 b k m p,
  good (c_ck st) (c_v st) (c_h st) (c_pos st) -> good_keys prg (pp_depth s) keys p -> (i < n)%N ->
  (r1 < max64)%N -> (r2 < max64)%N -> pp_gen prg n s keys lambda (c_pos st) = Ok (k, m, p) ->
  (hit b (c_ck st) i /\ exists j kr dr dl pl pr st' vl vr,
     nth_error (c_ck st) j = Some (kr, dr) /\
     pp_round prg n s walk keys lambda bits st i (r1, r2, b)
     = Ok (Some (at_ i), st', (mk_ppk (cop (N.of_nat pl) k) (N.of_nat pl) dl, mk_ppk (cop (N.of_nat pr) kr) (N.of_nat pr) dr)) /\
     nth_error (vals k) pl = Some vl /\ ((vl + dl) mod n = i)%N /\ (dl < n)%N /\
     nth_error (vals kr) pr = Some vr /\ ((vr + dr) mod n = i)%N /\
     c_ck st' = upd j (fun _ => (k, dl)) (c_ck st) /\ c_pos st' = p /\ good (c_ck st') (c_v st') (c_h st') p)
  \/
  (~ hit b (c_ck st) i /\ exists st' w, pp_round prg n s walk keys lambda bits st i (r1, r2, b) = Ok (None, st', w) /\
     c_ck st' = c_ck st /\ c_pos st' = p /\ good (c_ck st') (c_v st') (c_h st') p).
Proof.
  intros st i r1 r2 b k m p G GK Hi Hr1 Hr2 EG.
  destruct (gen_spec prg n s keys _ _ _ _ _ EG) as (q & Hq & Sq & _ & Ek & Em & L). subst m.
  destruct (proj1 GK q ltac:(lia)) as [Hk HZ]. rewrite <- Ek in Hk, HZ.
  destruct (map_full prg n s Hprg Hn Hs0 k L) as [_ ND].
  pose proof (vals_lt prg n s Hprg Hn Hs0 k Hk) as VL. rewrite Forall_forall in VL.
  unfold pp_round, pp_query2. rewrite EG. cbn [bind].
  destruct (pick_ok prg n s Hprg Hn Hs0 bits Hbits walk Hwalk keys lambda k r1 L Hr1 Hsm) as (v1 & p1 & EP1 & EN1). rewrite EP1. cbn [bind].
  assert (Hv1 : (v1 < n)%N) by exact (VL v1 (nth_error_In _ _ EN1)).
  destruct (pp_sub_spec i v1 n Hn Hi Hv1) as [S1 S2]. set (dl := pp_sub i v1 n) in *.
  assert (Q : ((v1 + dl) mod n = i)%N) by (rewrite N.add_comm; exact (proj1 (S2 dl S1) eq_refl)).
  destruct (pp_sub_spec i dl n Hn Hi S1) as [_ T2].
  assert (Back : pp_sub i dl n = v1) by (apply T2; assumption).
  assert (Gp : forall ck v h, good ck v h (c_pos st) -> good ck v h p).
  { intros ck v h (A & B & C). split; [exact A|]. split; [exact B|]. intros j c E. destruct (C j c E) as (set & hb & X1 & X2 & (q' & Hq' & E') & X3).
    exists set, hb. split; [exact X1|]. split; [exact X2|]. split; [exists q'; split; [lia|exact E']|exact X3]. }
  assert (SAME : forall pos v (x : N), nth_error (vals k) pos = Some v -> v = x ->
     (do pl <- pp_punc prg s (pp_map prg n s k) x k (mk_ppk [] 0 dl); Ok (mk_ppq (c_ck st) (c_v st) None pl pl p))
     = Ok (mk_ppq (c_ck st) (c_v st) None (mk_ppk (cop (N.of_nat pos) k) (N.of_nat pos) dl) (mk_ppk (cop (N.of_nat pos) k) (N.of_nat pos) dl) p)).
  { intros pos v x E EX. rewrite (punc_ok prg n s Hprg Hn Hs0 k v pos x dl 0%N L E EX). reflexivity. }
  assert (ANS : forall pos v, nth_error (vals k) pos = Some v ->
     exists a, pp_answer2 prg n s bits (mk_ppk (cop (N.of_nat pos) k) (N.of_nat pos) dl) (mk_ppk (cop (N.of_nat pos) k) (N.of_nat pos) dl) = Ok (a, a)).
  { intros pos v E. unfold pp_answer2. rewrite (answer_ok prg n s Hprg Hn Hs0 bits Hbits k pos v dl Hk S1 HZ ND E). cbn [bind pk_pos pk_ks].
    rewrite N.eqb_refl. destruct (copath_head prg (pp_depth s) (N.of_nat pos) k depth_pos) as (r & ER). rewrite ER. rewrite N.eqb_refl.
    cbn [bind]. eexists. reflexivity. }
  assert (NOHIT : ~ hit b (c_ck st) i -> forall pos v (x : N), nth_error (vals k) pos = Some v -> v = x ->
     exists st' w, (do q <- (do pl <- pp_punc prg s (pp_map prg n s k) x k (mk_ppk [] 0 dl); Ok (mk_ppq (c_ck st) (c_v st) None pl pl p));
       do (al, ar) <- pp_answer2 prg n s bits (q_l q) (q_r q);
       do (r, h) <- pp_recon2 (q_j q) (c_h st) al ar;
       Ok (r, mk_ppc (q_ck q) (q_v q) h (q_pos q), (q_l q, q_r q))) = Ok (None, st', w) /\
     c_ck st' = c_ck st /\ c_pos st' = p /\ good (c_ck st') (c_v st') (c_h st') p).
  { intros _ pos v x E EX. rewrite (SAME pos v x E EX). cbn [bind q_l q_r q_j q_ck q_v q_pos].
    destruct (ANS pos v E) as (a & EA). rewrite EA. cbn [bind pp_recon2]. eexists. eexists. split; [reflexivity|].
    cbn [c_ck c_v c_h c_pos]. split; [reflexivity|]. split; [reflexivity|]. apply Gp. exact G. }
  destruct b.
  - right. assert (NH : ~ hit true (c_ck st) i) by (intros [X _]; discriminate). split; [exact NH|].
    destruct (pick_ok prg n s Hprg Hn Hs0 bits Hbits walk Hwalk keys lambda k r2 L Hr2 Hsm) as (v2 & p2 & EP2 & EN2). rewrite EP2. cbn [bind].
    assert (Hv2 : (v2 < n)%N) by exact (VL v2 (nth_error_In _ _ EN2)).
    apply (NOHIT NH p2 v2 _ EN2).
    rewrite pp_add_mod by assumption. symmetry.
    assert (HM : ((v2 + dl) mod n < n)%N) by (apply N.mod_lt; lia).
    destruct (pp_sub_spec ((v2 + dl) mod n)%N dl n Hn HM S1) as [_ U2]. apply U2; [exact Hv2|reflexivity].
  - assert (GKc : good_keys prg (pp_depth s) keys (c_pos st)).
    { destruct GK as [A B]. split; [intros c H; apply A; lia|]. intros c d H1 H2. apply B; lia. }
    pose proof (search2_spec (c_pos st) i Hi GKc (c_ck st) (c_v st) (c_h st) 0 G) as SS.
    destruct (pp_search2 n i 0 (c_ck st) (c_v st)) as [[[j [kr dr]]|]| | |]; try contradiction; cbn [bind].
    2:{ right. assert (NH : ~ hit false (c_ck st) i) by (intros (_ & c & Jc & X); exact (SS c Jc X)). split; [exact NH|].
        exact (NOHIT NH p1 v1 _ EN1 (eq_sym Back)). }
    left. destruct SS as (_ & Ej & vr & Jr & Er). rewrite Nat.sub_0_r in Ej. cbn [fst snd] in Jr, Er.
    split; [split; [reflexivity|]; exists (kr, dr); split; [exact (nth_error_In _ _ Ej)|exists vr; split; assumption]|].
    destruct G as (Lv & Lh & G). destruct (G j _ Ej) as (set & hb & Ev & Eh & (q' & Hq' & Ekr) & Hdr & NDr & Eset & Ehb). cbn [fst snd] in Ekr, Hdr, NDr, Eset, Ehb.
    destruct (In_nth_error _ _ Jr) as [pr Epr].
    rewrite (punc_ok prg n s Hprg Hn Hs0 k v1 p1 (pp_sub i dl n) dl 0%N L EN1 (eq_sym Back)). cbn [bind].
    destruct (proj1 GK q' ltac:(lia)) as [Hkr HZr]. rewrite <- Ekr in Hkr, HZr.
    assert (Lr : length (pp_map prg n s kr) = s) by (apply (map_full_conv prg n s Hprg Hn Hs0); exact NDr).
    assert (Hvr : (vr < n)%N).
    { pose proof (vals_lt prg n s Hprg Hn Hs0 kr Hkr) as VLr. rewrite Forall_forall in VLr. exact (VLr vr Jr). }
    assert (Backr : pp_sub i dr n = vr) by (destruct (pp_sub_spec i dr n Hn Hi Hdr) as [_ U2]; apply U2; assumption).
    unfold pk_new. rewrite (punc_ok prg n s Hprg Hn Hs0 kr vr pr (pp_sub i dr n) 0%N 0%N Lr Epr (eq_sym Backr)). cbn [bind pk_ks pk_pos q_l q_r q_j q_ck q_v q_pos].
    assert (EA : pp_answer2 prg n s bits (mk_ppk (cop (N.of_nat p1) k) (N.of_nat p1) dl) (mk_ppk (cop (N.of_nat pr) kr) (N.of_nat pr) dr)
       = Ok (xorb (at_ i) (ssum dl (vals k)), xorb (at_ i) (ssum dr (vals kr)))).
    { unfold pp_answer2. rewrite (answer_ok prg n s Hprg Hn Hs0 bits Hbits k p1 v1 dl Hk S1 HZ ND EN1). rewrite Q. cbn [bind pk_pos pk_ks].
      assert (AR : pp_answer prg n s bits (mk_ppk (cop (N.of_nat pr) kr) (N.of_nat pr) dr) = Ok (xorb (at_ i) (ssum dr (vals kr)))).
      { rewrite (answer_ok prg n s Hprg Hn Hs0 bits Hbits kr pr vr dr Hkr Hdr HZr NDr Epr). rewrite Er. reflexivity. }
      destruct (N.eqb_spec (N.of_nat p1) (N.of_nat pr)) as [EQ|NE].
      - rewrite <- EQ in AR |- *. destruct (copath_head prg (pp_depth s) (N.of_nat p1) k depth_pos) as (ra & ERa).
        destruct (copath_head prg (pp_depth s) (N.of_nat p1) kr depth_pos) as (rb & ERb).
        destruct (proj2 GK q' q ltac:(lia) ltac:(lia)) as [D1 D2]. rewrite <- Ek, <- Ekr in D1, D2.
        assert (NEQ : (match cop (N.of_nat p1) k, cop (N.of_nat p1) kr with x :: _, y :: _ => Ok (x =? y)%N | _, _ => UB end) = Ok false).
        { rewrite ERa, ERb. f_equal. apply N.eqb_neq. destruct (N.testbit (N.of_nat p1) (N.of_nat (pp_depth s - 1))); intro X; [apply D1|apply D2]; symmetry; exact X. }
        rewrite NEQ. cbn [bind]. rewrite AR. reflexivity.
      - cbn [bind]. rewrite AR. reflexivity. }
    rewrite EA. cbn [bind]. unfold pp_recon2. rewrite Eh. cbn [bind]. rewrite Ehb.
    assert (X1 : xorb (xorb (at_ i) (ssum dr (vals kr))) (ssum dr (vals kr)) = at_ i) by (rewrite xorb_assoc, xorb_nilpotent, xorb_false_r; reflexivity).
    rewrite X1.
    assert (X2 : xorb (xorb (at_ i) (ssum dl (vals k))) (at_ i) = ssum dl (vals k)).
    { rewrite (xorb_comm (at_ i)), xorb_assoc, xorb_nilpotent, xorb_false_r. reflexivity. }
    rewrite X2. exists j, kr, dr, dl, p1, pr. eexists. exists v1, vr.
    split; [exact Ej|]. split; [reflexivity|]. cbn [c_ck c_v c_h c_pos].
    split; [exact EN1|]. split; [exact Q|]. split; [exact S1|]. split; [exact Epr|]. split; [exact Er|]. split; [reflexivity|]. split; [reflexivity|].
    split; [rewrite !upd_length; exact Lv|]. split; [rewrite !upd_length; exact Lh|].
    intros j' c E. rewrite nth_upd in E |- *. rewrite nth_upd. destruct (Nat.eqb_spec j j') as [<-|NEj].
    + rewrite Ej in E. cbn [option_map] in E. injection E as <-. rewrite Ev, Eh. cbn [option_map]. eexists. eexists.
      split; [reflexivity|]. split; [reflexivity|]. split; [exists q; split; [lia|exact Ek]|]. cbn [fst snd].
      split; [exact S1|]. split; [exact ND|]. split; [apply eval_vals; exact ND|reflexivity].
    + destruct (G j' c E) as (set' & hb' & Y1 & Y2 & (q2 & Hq2 & Eq2) & Y3). exists set', hb'. split; [exact Y1|]. split; [exact Y2|].
      split; [exists q2; split; [lia|exact Eq2]|exact Y3].
Qed.

(** ** Setup *)
Lemma setups_spec : forall fuel need pos ck v p, pp_setups prg n s keys fuel need pos = Ok (ck, v, p) ->
  pos <= p /\ length v = length ck /\
  forall j c, nth_error ck j = Some c -> nth_error v j = Some (vals (fst c)) /\ NoDup (vals (fst c)) /\ snd c = 0%N /\ exists q, q < p /\ fst c = keys q.
Proof.
  induction fuel; intros need pos ck v p E; [discriminate|]. cbn [pp_setups] in E. destruct need.
  - injection E as <- <- <-. split; [lia|]. split; [reflexivity|]. intros [|j] c X; discriminate.
  - destruct (Nat.eqb_spec (length (pp_eval prg n s (keys pos))) s) as [L|L].
    + destruct (pp_setups prg n s keys fuel need (S pos)) as [[[ck' v'] p']| | |] eqn:E2; try discriminate. cbn [bind] in E. injection E as <- <- <-.
      destruct (IHfuel _ _ _ _ _ E2) as (A & B & C). split; [lia|]. split; [cbn; lia|].
      pose proof (eval_full prg n s Hprg Hn Hs0 _ L) as ND.
      intros [|j] c X; [|exact (C j c X)]. cbn in X. injection X as <-. cbn [fst snd nth_error]. rewrite (eval_vals prg n s _ ND).
      split; [reflexivity|]. split; [exact ND|]. split; [reflexivity|]. exists pos. split; [lia|reflexivity].
    + destruct (IHfuel _ _ _ _ _ E) as (A & B & C). split; [lia|]. split; [exact B|exact C].
Qed.

Lemma setup_good : forall fuel need ck v p, pp_setups prg n s keys fuel need 0 = Ok (ck, v, p) -> good_keys prg (pp_depth s) keys p ->
  exists h, pp_hints prg n s bits ck = Ok h /\ good ck v h p.
Proof.
  intros fuel need ck v p E GK. destruct (setups_spec _ _ _ _ _ _ E) as (_ & Lv & C).
  exists (map (fun c => ssum (snd c) (vals (fst c))) ck). split.
  - unfold pp_hints. apply pp_mapM_map. intros c J. destruct (In_nth_error _ _ J) as [j Ej]. destruct (C j c Ej) as (_ & ND & Z & q & Hq & Eq).
    rewrite (eval_vals prg n s _ ND). apply (xor_ok prg n s Hprg Hn Hs0 bits Hbits); [lia|].
    apply (vals_lt prg n s Hprg Hn Hs0). rewrite Eq. apply (proj1 GK q Hq).
  - split; [exact Lv|]. split; [apply map_length|]. intros j c Ej. destruct (C j c Ej) as (Ev & ND & Z & q & Hq & Eq).
    eexists. eexists. split; [exact Ev|]. split; [rewrite nth_error_map, Ej; reflexivity|].
    split; [exists q; split; assumption|]. split; [lia|]. split; [exact ND|]. split; reflexivity.
Qed.

Lemma round_pos : forall st i c x st1 w, pp_round prg n s walk keys lambda bits st i c = Ok (x, st1, w) ->
  exists k m, pp_gen prg n s keys lambda (c_pos st) = Ok (k, m, c_pos st1).
Proof.
  intros st i c x st1 w E1. unfold pp_round in E1. destruct c as [[r1 r2] b]. destruct (pp_query2 prg n s walk keys lambda i (c_ck st) (c_v st) (c_pos st) r1 r2 b) as [q| | |] eqn:EQ; try discriminate.
  cbn [bind] in E1. destruct (pp_answer2 prg n s bits (q_l q) (q_r q)) as [[al ar]| | |]; try discriminate. cbn [bind] in E1.
  destruct (pp_recon2 (q_j q) (c_h st) al ar) as [[r h]| | |]; try discriminate. cbn [bind] in E1. injection E1 as <- <- <-. cbn [c_pos].
  unfold pp_query2 in EQ. destruct (pp_gen prg n s keys lambda (c_pos st)) as [[[k m] p]| | |] eqn:EG; try discriminate. exists k, m.
  cbn [bind] in EQ. destruct (pp_pick s walk m r1) as [v1| | |]; try discriminate. cbn [bind] in EQ.
  match type of EQ with bind ?X _ = _ => destruct X as [[ip found]| | |] end; try discriminate. cbn [bind] in EQ.
  match type of EQ with bind ?X _ = _ => destruct X as [pl| | |] end; try discriminate. cbn [bind] in EQ.
  destruct found as [[j [kr dr]]|].
  - match type of EQ with bind ?X _ = _ => destruct X as [pr| | |] end; try discriminate. cbn [bind] in EQ. injection EQ as <-. reflexivity.
  - injection EQ as <-. reflexivity.
Qed.

Lemma rounds_pos : forall qs st xs st' ws, pp_rounds prg n s walk keys lambda bits st qs = Ok (xs, st', ws) -> c_pos st <= c_pos st'.
Proof.
  induction qs as [|[i c] qs IH]; intros st xs st' ws E; cbn [pp_rounds] in E; [injection E as _ <- _; lia|].
  destruct (pp_round prg n s walk keys lambda bits st i c) as [[[x st1] w]| | |] eqn:E1; try discriminate. cbn [bind] in E.
  destruct (pp_rounds prg n s walk keys lambda bits st1 qs) as [[[xs' st2] ws']| | |] eqn:E2; try discriminate. cbn [bind] in E. injection E as <- <- <-.
  apply IH in E2. destruct (round_pos _ _ _ _ _ _ E1) as (k & m & EG). destruct (gen_spec prg n s keys _ _ _ _ _ EG) as (c' & Hc & Sc & _). lia.
Qed.

Lemma good_keys_le : forall p q, q <= p -> good_keys prg (pp_depth s) keys p -> good_keys prg (pp_depth s) keys q.
Proof. intros p q H [A B]. split; [intros c Hc; apply A; lia|]. intros c d H1 H2. apply B; lia. Qed.

Lemma rounds_ok : forall qs st xs st' ws, good (c_ck st) (c_v st) (c_h st) (c_pos st) -> Forall (fun q => (fst q < n)%N /\ good_coin (snd q)) qs ->
  pp_rounds prg n s walk keys lambda bits st qs = Ok (xs, st', ws) -> good_keys prg (pp_depth s) keys (c_pos st') ->
  good (c_ck st') (c_v st') (c_h st') (c_pos st') /\ length xs = length qs /\ length ws = length qs /\
  Forall2 (fun q x => x = None \/ x = Some (at_ (fst q))) qs xs.
Proof.
  induction qs as [|[i c] qs IH]; intros st xs st' ws G F E GK; cbn [pp_rounds] in E.
  - injection E as <- <- <-. split; [exact G|]. split; [reflexivity|]. split; [reflexivity|constructor].
  - inversion F as [|? ? [Fi Fc] Fq]; subst. cbn [fst snd] in Fi, Fc.
    destruct (pp_round prg n s walk keys lambda bits st i c) as [[[x st1] w]| | |] eqn:E1; try discriminate. cbn [bind] in E.
    destruct (pp_rounds prg n s walk keys lambda bits st1 qs) as [[[xs' st2] ws']| | |] eqn:E2; try discriminate. cbn [bind] in E. injection E as <- <- <-.
    destruct (round_pos _ _ _ _ _ _ E1) as (k & m & EG). pose proof (rounds_pos _ _ _ _ _ E2) as PP. destruct c as [[r1 r2] b].
    assert (GK1 : good_keys prg (pp_depth s) keys (c_pos st1)) by (apply (good_keys_le (c_pos st2)); assumption).
    destruct (round_ok st i r1 r2 b k m (c_pos st1) G GK1 Fi (proj1 Fc) (proj2 Fc) EG)
      as [(HT & j & kr & dr & dl & pl & pr & st'' & vl & vr & A1 & A2 & A3 & A4 & A5 & A6 & A7 & A8 & A9 & A10)|(HT & st'' & w' & A2 & A8 & A9 & A10)].
    + rewrite A2 in E1. injection E1 as <- <- <-. destruct (IH _ _ _ _ A10 Fq E2 GK) as (B1 & B2 & B3 & B4).
      split; [exact B1|]. split; [cbn; lia|]. split; [cbn; lia|]. constructor; [right; reflexivity|exact B4].
    + rewrite A2 in E1. injection E1 as <- <- <-. destruct (IH _ _ _ _ A10 Fq E2 GK) as (B1 & B2 & B3 & B4).
      split; [exact B1|]. split; [cbn; lia|]. split; [cbn; lia|]. constructor; [left; reflexivity|exact B4].
Qed.

Lemma rounds_app : forall qs st xs st1 ws qs', pp_rounds prg n s walk keys lambda bits st qs = Ok (xs, st1, ws) ->
  pp_rounds prg n s walk keys lambda bits st (qs ++ qs') =
  (do (ys, st2, us) <- pp_rounds prg n s walk keys lambda bits st1 qs'; Ok (xs ++ ys, st2, ws ++ us)).
Proof.
  induction qs as [|[i c] qs IH]; intros st xs st1 ws qs' E; cbn [pp_rounds app] in *.
  - injection E as <- <- <-. destruct (pp_rounds prg n s walk keys lambda bits st qs') as [[[? ?] ?]| | |]; reflexivity.
  - destruct (pp_round prg n s walk keys lambda bits st i c) as [[[x st2] w]| | |]; try discriminate. cbn [bind] in *.
    destruct (pp_rounds prg n s walk keys lambda bits st2 qs) as [[[xs' st3] ws']| | |] eqn:E2; try discriminate. cbn [bind] in E. injection E as <- <- <-.
    rewrite (IH _ _ _ _ _ E2). destruct (pp_rounds prg n s walk keys lambda bits st3 qs') as [[[? ?] ?]| | |]; reflexivity.
Qed.
End S.
