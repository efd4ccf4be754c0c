(** Many retrievals from the start; linking queries. *)
From Coq Require Import List NArith Bool Arith Lia Permutation.
From Verif Require Import Base BaseProofs StoreModel KkrtProofs PpsModel PpsSpec PpsProofs PpsProofs2 PpsProofs3 PpsProofs4.
Import ListNotations.

Lemma shifts_eval : forall prg n s k d i, shifts_to n (pp_eval prg n s k) d i <-> shifts_to n (vals prg n s k) d i.
Proof.
  intros. unfold shifts_to, pp_eval, vals. split; intros (v & J & E); exists v; (split; [|exact E]); [apply nodup_In in J|apply nodup_In]; exact J.
Qed.

(** What is in the second list but not in the first, after shifting. *)
Definition shifted (prg : N -> N * N) (n : N) (s : nat) (pk : ppk) : list N :=
  match pp_evalp prg n s pk with Ok l => map (fun v => ((v + pk_delta pk) mod n)%N) l | _ => [] end.
Definition infer (prg : N -> N * N) (n : N) (s : nat) (l r : ppk) : list N :=
  filter (fun x => negb (pp_mem x (shifted prg n s l))) (shifted prg n s r).

Lemma mem_In : forall x l, pp_mem x l = true <-> In x l.
Proof.
  intros. unfold pp_mem. rewrite existsb_exists. split; [intros (y & J & E); apply N.eqb_eq in E; subst; exact J|].
  intro J. exists x. split; [exact J|apply N.eqb_refl].
Qed.
Lemma filter_none : forall (A : Type) (f : A -> bool) l, (forall x, In x l -> f x = false) -> filter f l = [].
Proof. induction l; intros H; [reflexivity|]. cbn. rewrite (H a) by (left; reflexivity). apply IHl. intros; apply H; right; assumption. Qed.
Lemma two_holes : forall (l a1 b1 a2 b2 : list N) x y, NoDup l -> l = a1 ++ x :: b1 -> l = a2 ++ y :: b2 -> x <> y ->
  filter (fun z => negb (pp_mem z (a1 ++ b1))) (a2 ++ b2) = [x].
Proof.
  intros l a1 b1 a2 b2 x y ND E1 E2 NE. set (P := fun z => negb (pp_mem z (a1 ++ b1))).
  assert (ND1 : ~ In x (a1 ++ b1)) by (rewrite E1 in ND; apply NoDup_remove_2 in ND; exact ND).
  assert (Px : P x = true) by (unfold P; destruct (pp_mem x (a1 ++ b1)) eqn:M; [apply mem_In in M; contradiction|reflexivity]).
  assert (FA : forall z, In z (a1 ++ b1) -> P z = false) by (intros z J; unfold P; apply mem_In in J; rewrite J; reflexivity).
  assert (F1 : filter P l = [x]).
  { rewrite E1, filter_app. cbn [filter]. rewrite Px, (filter_none _ P a1), (filter_none _ P b1); [reflexivity| |];
      intros z J; apply FA; apply in_or_app; [right|left]; exact J. }
  assert (Py : P y = false).
  { assert (J : In y l) by (rewrite E2; apply in_elt). rewrite E1 in J. apply FA. apply in_app_or in J. apply in_or_app.
    destruct J as [J|[J|J]]; [left; exact J|contradiction|right; exact J]. }
  rewrite E2, filter_app in F1. cbn [filter] in F1. rewrite Py in F1. rewrite filter_app. exact F1.
Qed.

Lemma at_error : forall n (bits : list bool) i, N.to_nat n <= length bits -> (i < n)%N -> Some (at_ bits i) = nth_error bits (N.to_nat i).
Proof. intros. unfold at_. rewrite (nth_error_nth' bits false) by lia. reflexivity. Qed.

Section S.
Variable prg : N -> N * N.
Variable n : N.
Variable s : nat.
Hypothesis Hprg : forall x, (fst (prg x) < max64 * max64)%N /\ (snd (prg x) < max64 * max64)%N.
Hypothesis Hn : (0 < n < half)%N.
Hypothesis Hs : 2 <= s.
Hypothesis Hsm : (N.of_nat s < max64)%N.
Variable bits : list bool.
Hypothesis Hbits : N.to_nat n <= length bits.
Variable walk : list (N * nat) -> list (N * nat).
Hypothesis Hwalk : forall m, Permutation (walk m) m.
Variable keys : nat -> N.
Variable lambda : nat.
Variable lnc : N.
Notation vals := (vals prg n s).
Notation at_ := (at_ bits).

Lemma multi_good : forall qs xs st ws, Forall (fun q => (fst q < n)%N /\ good_coin (snd q)) qs ->
  pp_multi prg n s walk keys lambda lnc bits qs = Ok (xs, st, ws) -> good_keys prg (pp_depth s) keys (c_pos st) ->
  good prg n s bits keys (c_ck st) (c_v st) (c_h st) (c_pos st) /\ Forall2 (fun q x => x = None \/ x = nth_error bits (N.to_nat (fst q))) qs xs.
Proof.
  intros qs xs st ws F E GK. unfold pp_multi in E. destruct (pp_ctor n s) as [u| | |]; try discriminate. cbn [bind] in E.
  destruct (pp_setups prg n s keys (N.to_nat (10 * pp_MM n s lnc)) (N.to_nat (pp_MM n s lnc)) 0) as [[[ck v] p]| | |] eqn:ES; try discriminate. cbn [bind] in E.
  destruct (pp_hints prg n s bits ck) as [h0| | |] eqn:EH0; try discriminate. cbn [bind] in E.
  pose proof (rounds_pos prg n s Hprg Hn Hs Hsm bits Hbits walk Hwalk keys lambda _ _ _ _ _ E) as PP. cbn [c_pos] in PP.
  destruct (setup_good prg n s Hprg Hn Hs Hsm bits Hbits keys _ _ _ _ _ ES) as (h & EH & G).
  { destruct GK as [A B]. split; [intros c H; apply A; lia|]. intros c d H1 H2. apply B; lia. }
  rewrite EH0 in EH. injection EH as ->.
  destruct (rounds_ok prg n s Hprg Hn Hs Hsm bits Hbits walk Hwalk keys lambda qs (mk_ppc ck v h p) xs st ws G F E GK) as (A & _ & _ & B).
  split; [exact A|]. clear - B F Hn Hbits. induction B; [constructor|]. inversion F; subst. constructor; [|apply IHB; assumption].
  destruct H as [->| ->]; [left; reflexivity|right]. apply (at_error n); [exact Hbits|apply H2].
Qed.

Lemma multi_step : forall qs xs st ws i coin k m p, Forall (fun q => (fst q < n)%N /\ good_coin (snd q)) qs -> (i < n)%N -> good_coin coin ->
  pp_multi prg n s walk keys lambda lnc bits qs = Ok (xs, st, ws) -> pp_gen prg n s keys lambda (c_pos st) = Ok (k, m, p) ->
  good_keys prg (pp_depth s) keys p ->
  exists x st' w, pp_multi prg n s walk keys lambda lnc bits (qs ++ [(i, coin)]) = Ok (xs ++ [x], st', ws ++ [w]) /\
    (snd coin = false -> (exists c, In c (c_ck st) /\ shifts_to n (pp_eval prg n s (fst c)) (snd c) i) -> x = nth_error bits (N.to_nat i)) /\
    (snd coin = true \/ (forall c, In c (c_ck st) -> ~ shifts_to n (pp_eval prg n s (fst c)) (snd c) i) -> x = None).
Proof.
  intros qs xs st ws i coin k m p F Hi Fc E EG GK. destruct coin as [[r1 r2] b].
  destruct (gen_spec prg n s keys _ _ _ _ _ EG) as (c & Hc & Sc & _).
  assert (GK0 : good_keys prg (pp_depth s) keys (c_pos st)).
  { destruct GK as [A B]. split; [intros c' H; apply A; lia|]. intros c' d H1 H2. apply B; lia. }
  destruct (multi_good qs xs st ws F E GK0) as (G & _).
  assert (R : exists x st' w, pp_round prg n s walk keys lambda bits st i (r1, r2, b) = Ok (x, st', w) /\
     (b = false -> (exists c, In c (c_ck st) /\ shifts_to n (vals (fst c)) (snd c) i) -> x = Some (at_ i)) /\
     (b = true \/ (forall c, In c (c_ck st) -> ~ shifts_to n (vals (fst c)) (snd c) i) -> x = None)).
  { destruct (round_ok prg n s Hprg Hn Hs Hsm bits Hbits walk Hwalk keys lambda st i r1 r2 b k m p G GK Hi (proj1 Fc) (proj2 Fc) EG)
      as [(HT & j & kr & dr & dl & pl & pr & st'' & vl & vr & A1 & A2 & _)|(HT & st'' & w' & A2 & _)].
    - eexists. eexists. eexists. split; [exact A2|]. split; [reflexivity|]. destruct HT as (-> & c' & J & X).
      intros [Y|Y]; [discriminate|]. exfalso. exact (Y c' J X).
    - eexists. eexists. eexists. split; [exact A2|]. split; [|reflexivity]. intros B X. exfalso. apply HT. split; assumption. }
  destruct R as (x & st' & w & ER & R1 & R2). exists x, st', w. split.
  - unfold pp_multi in *. destruct (pp_ctor n s) as [u| | |]; try discriminate. cbn [bind] in *.
    destruct (pp_setups prg n s keys (N.to_nat (10 * pp_MM n s lnc)) (N.to_nat (pp_MM n s lnc)) 0) as [[[ck v] p']| | |]; try discriminate. cbn [bind] in *.
    destruct (pp_hints prg n s bits ck) as [h| | |]; try discriminate. cbn [bind] in *.
    rewrite (rounds_app prg n s bits walk keys lambda _ _ _ _ _ _ E). cbn [pp_rounds]. rewrite ER. reflexivity.
  - cbn [snd]. split.
    + intros B (c' & J & X). rewrite <- (at_error n) by assumption. apply (R1 B). exists c'. split; [exact J|]. apply shifts_eval. exact X.
    + intros [B|X]; apply R2; [left; exact B|right]. intros c' J Y. apply (X c' J). apply shifts_eval. exact Y.
Qed.

(** ** Linking *)
Lemma upd_changed : forall (A : Type) (l : list A) j j' f, nth_error l j' <> nth_error (upd j f l) j' -> j' = j.
Proof. intros A l j j' f H. rewrite nth_upd in H. destruct (Nat.eqb_spec j j'); [symmetry; assumption|contradiction]. Qed.

Lemma linked : forall qs xs st ws i1 c1 a1 st1 w1 mid ys st2 us i2 c2 a2 st3 w2 j,
  Forall (fun q => (fst q < n)%N /\ good_coin (snd q)) qs -> Forall (fun q => (fst q < n)%N /\ good_coin (snd q)) mid ->
  (i1 < n)%N -> (i2 < n)%N -> good_coin c1 -> good_coin c2 ->
  pp_multi prg n s walk keys lambda lnc bits qs = Ok (xs, st, ws) ->
  pp_round prg n s walk keys lambda bits st i1 c1 = Ok (a1, st1, w1) ->
  pp_rounds prg n s walk keys lambda bits st1 mid = Ok (ys, st2, us) ->
  pp_round prg n s walk keys lambda bits st2 i2 c2 = Ok (a2, st3, w2) ->
  good_keys prg (pp_depth s) keys (c_pos st3) -> i1 <> i2 ->
  nth_error (c_ck st) j <> nth_error (c_ck st1) j -> nth_error (c_ck st1) j = nth_error (c_ck st2) j ->
  nth_error (c_ck st2) j <> nth_error (c_ck st3) j ->
  infer prg n s (fst w1) (snd w2) = [i1].
Proof.
  intros qs xs st ws i1 c1 a1 st1 w1 mid ys st2 us i2 c2 a2 st3 w2 j F Fm H1 H2 F1 F2 E E1 EM E2 GK NE D1 D2 D3.
  destruct (round_pos prg n s bits walk keys lambda _ _ _ _ _ _ E1) as (k & m & EG1).
  destruct (round_pos prg n s bits walk keys lambda _ _ _ _ _ _ E2) as (k2 & m2 & EG2).
  pose proof (rounds_pos prg n s Hprg Hn Hs Hsm bits Hbits walk Hwalk keys lambda _ _ _ _ _ EM) as P12.
  destruct (gen_spec prg n s keys _ _ _ _ _ EG1) as (q1 & Hq1 & Sq1 & _ & Ek & Em & L).
  destruct (gen_spec prg n s keys _ _ _ _ _ EG2) as (q2 & Hq2 & Sq2 & _).
  assert (LE : forall q, q <= c_pos st3 -> good_keys prg (pp_depth s) keys q).
  { intros q H. destruct GK as [A B]. split; [intros c' X; apply A; lia|]. intros c' d X1 X2. apply B; lia. }
  destruct (multi_good qs xs st ws F E (LE (c_pos st) ltac:(lia))) as (G & _).
  destruct c1 as [[r1 r2] b1]. destruct c2 as [[r3 r4] b2].
  destruct (round_ok prg n s Hprg Hn Hs Hsm bits Hbits walk Hwalk keys lambda st i1 r1 r2 b1 k m (c_pos st1) G (LE (c_pos st1) ltac:(lia)) H1 (proj1 F1) (proj2 F1) EG1)
      as [(_ & j1 & kr & dr & dl & pl & pr & st'' & vl & vr & A1 & A2 & A3 & A4 & A5 & _ & _ & A8 & A9 & A10)|(_ & st'' & w' & A2 & A8 & _)].
  2:{ rewrite A2 in E1. injection E1 as <- <- <-. rewrite A8 in D1. contradiction. }
  rewrite A2 in E1. injection E1 as <- <- <-. cbn [fst].
  destruct (rounds_ok prg n s Hprg Hn Hs Hsm bits Hbits walk Hwalk keys lambda mid st'' ys st2 us A10 Fm EM (LE (c_pos st2) ltac:(lia))) as (G2 & _).
  destruct (round_ok prg n s Hprg Hn Hs Hsm bits Hbits walk Hwalk keys lambda st2 i2 r3 r4 b2 k2 m2 _ G2 GK H2 (proj1 F2) (proj2 F2) EG2)
      as [(_ & j2 & kr2 & dr2 & dl2 & pl2 & pr2 & st4 & vl2 & vr2 & B1 & B2 & _ & _ & _ & B6 & B7 & B8 & _)|(_ & st4 & w' & B2 & B8 & _)].
  2:{ rewrite B2 in E2. injection E2 as <- <- <-. rewrite B8 in D3. contradiction. }
  rewrite B2 in E2. injection E2 as <- <- <-. cbn [snd].
  rewrite A8 in D1. apply upd_changed in D1. rewrite B8 in D3. apply upd_changed in D3. subst j1 j2.
  rewrite B1, A8, nth_upd, Nat.eqb_refl, A1 in D2. cbn [option_map] in D2. injection D2 as <- <-.
  destruct (map_full prg n s Hprg Hn (Hs0 s Hs) k ltac:(rewrite <- Em; exact L)) as [_ ND].
  destruct (proj1 GK q1 ltac:(lia)) as [Hk HZ]. rewrite <- Ek in Hk, HZ.
  pose proof (vals_lt prg n s Hprg Hn (Hs0 s Hs) k Hk) as VL.
  destruct (evalp_ok prg n s Hprg Hn (Hs0 s Hs) k pl vl dl HZ ND A3) as (x1 & y1 & V1 & _ & EV1).
  destruct (evalp_ok prg n s Hprg Hn (Hs0 s Hs) k pr2 vr2 dl HZ ND B6) as (x2 & y2 & V2 & _ & EV2).
  unfold infer, shifted. rewrite EV1, EV2. cbn [pk_delta].
  set (f := fun v => ((v + dl) mod n)%N). rewrite !map_app.
  apply (two_holes (map f (vals k)) (map f x1) (map f y1) (map f x2) (map f y2) i1 i2).
  - assert (INJ : forall u v, In u (vals k) -> In v (vals k) -> f u = f v -> u = v).
    { intros u v Ju Jv Ef. rewrite Forall_forall in VL. assert (LT : (f u < n)%N) by (apply N.mod_lt; lia). destruct (pp_sub_spec (f u) dl n Hn LT A5) as [_ S2].
      pose proof (proj2 (S2 u (VL u Ju)) eq_refl) as Q1. pose proof (proj2 (S2 v (VL v Jv)) (eq_sym Ef)) as Q2. congruence. }
    clear - ND INJ. induction ND as [|x l N1 N2 IH]; cbn [map]; constructor.
    + intro J. apply in_map_iff in J. destruct J as (y & Ey & Jy). apply N1. rewrite (INJ x y); [exact Jy|left; reflexivity|right; exact Jy|symmetry; exact Ey].
    + apply IH. intros u v Ju Jv. apply INJ; right; assumption.
  - rewrite V1, map_app. cbn [map]. unfold f at 2. rewrite A4. reflexivity.
  - rewrite V2, map_app. cbn [map]. unfold f at 2. rewrite B7. reflexivity.
  - exact NE.
Qed.
End S.
