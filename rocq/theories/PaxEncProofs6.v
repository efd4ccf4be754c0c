(** Lemmas about the Paxos encoder: the dense part, over GF(2^128) and over bits. *)
From Coq Require Import List Arith NArith Bool Lia Permutation.
From Verif Require Import Base BaseProofs StoreModel GfModel GfSpec GfProofs GfProofs2 OkvsModel OkvsSpec OkvsProofs OkvsProofs2 OkvsProofs4
  PaxEncModel PaxEncProofs PaxEncProofs2 PaxEncProofs3 PaxEncProofs4 PaxEncProofs5.
Import ListNotations.
Local Open Scope nat_scope.

Definition dn (q : okvs_param) (p : list N) (h : N) : N := dsum (gf_mul true) p (N.to_nat (ok_sparse q)) (coefs (gf_mul true) q h).

Lemma dsum_ext_p : forall mul p p' cs col, (forall i, col <= i -> at0 p i = at0 p' i) -> dsum mul p col cs = dsum mul p' col cs.
Proof.
  intros mul p p' cs. induction cs as [|c cs IH]; intros col H; [reflexivity|]. cbn [dsum].
  change (nth col p 0%N) with (at0 p col). change (nth col p' 0%N) with (at0 p' col). rewrite H by lia. f_equal. apply IH. intros; apply H; lia.
Qed.
Lemma dsum_zero_p : forall p cs col, (forall i, col <= i -> at0 p i = 0%N) -> Forall (fun c => (c < 2 ^ 128)%N) cs ->
  dsum (gf_mul true) p col cs = 0%N.
Proof.
  intros p cs. induction cs as [|c cs IH]; intros col H F; [reflexivity|]. inversion F; subst. cbn [dsum].
  change (nth col p 0%N) with (at0 p col). rewrite H by lia. rewrite IH by (auto; intros; apply H; lia).
  rewrite mul_0_l by assumption. reflexivity.
Qed.
Lemma dn_ext : forall q p p' h, (forall i, N.to_nat (ok_sparse q) <= i -> at0 p i = at0 p' i) -> dn q p h = dn q p' h.
Proof. intros. apply dsum_ext_p. assumption. Qed.
Lemma key_val_dn : forall q p h, key_val (gf_mul true) q p h =
  N.lxor (xsum (at0 p) (map N.to_nat (row_of q h))) (dn q p h).
Proof.
  intros. unfold key_val. rewrite table_value_dsum. f_equal. rewrite xsum_map. generalize (row_of q h). intros l.
  induction l as [|c l IH]; [reflexivity|]. cbn [map]. unfold xor_all in *. cbn [fold_right]. rewrite IH. reflexivity.
Qed.

(** The columns of the keys. *)
Definition rows_of (q : okvs_param) (hs : list N) : list (list nat) := map (map N.to_nat) (map (row_of q) hs).
Lemma rows_of_nth : forall q hs r, r < length hs -> rowi (rows_of q hs) r = map N.to_nat (row_of q (at0 hs r)).
Proof.
  intros q hs r H. unfold rowi, rows_of, at0. rewrite map_map.
  rewrite (nth_indep _ [] (map N.to_nat (row_of q 0%N))) by (rewrite map_length; assumption).
  rewrite (map_nth (fun h => map N.to_nat (row_of q h))). reflexivity.
Qed.
Lemma rows_of_len : forall q hs, length (rows_of q hs) = length hs.
Proof. intros. unfold rows_of. rewrite !map_length. reflexivity. Qed.
Lemma rows_of_ok : forall w q hs, param_ok w q -> Forall (fun h => (h < 2 ^ 128)%N) hs ->
  rows_ok (N.to_nat (ok_sparse q)) (rows_of q hs) /\ forall r, r < length (rows_of q hs) -> rowi (rows_of q hs) r <> [].
Proof.
  intros w q hs Hq F. rewrite Forall_forall in F.
  assert (G : forall r, r < length (rows_of q hs) -> legal_row (ok_weight q) (ok_sparse q) (row_of q (at0 hs r))).
  { intros r Hr. rewrite rows_of_len in Hr. apply (build_row_ok true w q); [assumption|]. apply F. apply nth_In. assumption. }
  split; intros r Hr; pose proof (G r Hr) as (L & N & B); rewrite rows_of_len in Hr; rewrite rows_of_nth by assumption.
  - split; [apply FinFun.Injective_map_NoDup; [intros a b E; apply N2Nat.inj; assumption|assumption]|].
    rewrite Forall_forall in *. intros c I. apply in_map_iff in I. destruct I as (x & <- & I). apply B in I. lia.
  - intros E. apply map_eq_nil in E. rewrite E in L. cbn in L. destruct Hq as (H & _). lia.
Qed.

(** GF(2^128). *)
Lemma gf_powers_is : forall avx d k x, gf_powers avx d x k = powers (gf_mul avx) d x k.
Proof. intros avx d k. induction k as [|k IH]; intros x; [reflexivity|]. cbn [gf_powers powers]. rewrite IH. reflexivity. Qed.
Lemma powers_lt : forall avx d k x, (d < 2 ^ 128)%N -> (x < 2 ^ 128)%N -> Forall (fun c => (c < 2 ^ 128)%N) (powers (gf_mul avx) d x k).
Proof.
  intros avx d k. induction k as [|k IH]; intros x Hd Hx; constructor; [assumption|]. apply IH; [assumption|]. apply gmul_below; assumption.
Qed.
Lemma gf_dense_facts : forall avx s p d k y z, (d < 2 ^ 128)%N -> (forall i, (at0 p i < 2 ^ 128)%N) -> 1 <= k ->
  gf_dense_sum avx s p d k y = Ok z -> z = N.lxor y (dsum (gf_mul true) p s (powers (gf_mul true) d d k)).
Proof.
  intros avx s p d k y z Hd Hp Hk H. unfold gf_dense_sum in H. rewrite gf_powers_is, Nat.max_r in H by assumption.
  rewrite (powers_ext (gf_mul avx) (gf_mul true)) in H by (try assumption; apply gf_is_mul).
  assert (G : forall cs b y z, Forall (fun c => (c < 2 ^ 128)%N) cs ->
    ofold (fun jx y => do v <- vget p (s + fst jx); Ok (mult_add avx 128 y v (snd jx))) (number b cs) y = Ok z ->
    z = N.lxor y (dsum (gf_mul true) p (s + b) cs)).
  { intros cs. induction cs as [|c cs IH]; intros b y0 z0 F H0; cbn [number ofold] in H0.
    - injection H0 as <-. cbn. rewrite N.lxor_0_r. reflexivity.
    - inversion F; subst. apply bind_ok in H0. destruct H0 as (y1 & E & H0). apply bind_ok in E. destruct E as (v & E & E').
      cbn [fst snd] in *. injection E' as <-. apply (vget_ok _ 0%N) in E. destruct E as [_ <-].
      rewrite (IH _ _ _ H4 H0). cbn [dsum]. change (nth (s + b) p 0%N) with (at0 p (s + b)).
      rewrite mult_add_128 by auto. rewrite (mul_any avx) by auto. rewrite N.lxor_assoc. do 3 f_equal. lia. }
  rewrite <- (Nat.add_0_r s) at 1. apply G; [apply powers_lt; assumption|assumption].
Qed.
Lemma step_gf : forall avx q rows dense values dd rc p p', (forall i, (at0 p i < 2 ^ 128)%N) -> (forall i, (at0 dense i < 2 ^ 128)%N) ->
  ok_dt q = DGF128 -> 1 <= ok_dense q -> length rows = length dense -> (dd = false -> forall i, N.to_nat (ok_sparse q) <= i -> at0 p i = 0%N) ->
  gf_backfill1 avx q rows dense values dd rc p = Ok p' ->
  fst rc < length values /\ snd rc < length p /\
  p' = upd (snd rc) (fun _ => N.lxor (N.lxor (at0 values (fst rc)) (xsum (at0 p) (rowi rows (fst rc)))) (dn q p (at0 dense (fst rc)))) p.
Proof.
  intros avx q rows dense values dd [r c] p p' Hp Hd Hdt Hk HL Hz H. unfold gf_backfill1 in H. cbn [fst snd] in *.
  apply bind_ok in H. destruct H as (y & E & H). apply (vget_ok _ 0%N) in E. destruct E as [L1 <-].
  apply bind_ok in H. destruct H as (row & E & H). apply (vget_ok _ []) in E. destruct E as [L2 <-].
  apply bind_ok in H. destruct H as (y & E & H). apply ofold_xor in E. destruct E as [-> _].
  apply bind_ok in H. destruct H as (y & E & H). apply vset_ok in H. destruct H as [L3 ->].
  split; [assumption|]. split; [assumption|]. f_equal. fold (rowi rows r) in E. unfold dn, coefs. rewrite Hdt. destruct dd.
  - apply bind_ok in E. destruct E as (d & E1 & E). apply (vget_ok _ 0%N) in E1. destruct E1 as [_ <-].
    apply gf_dense_facts in E; try assumption; [|apply Hd]. rewrite E. reflexivity.
  - injection E as <-. rewrite dsum_zero_p; [rewrite N.lxor_0_r; reflexivity|auto|]. apply powers_lt; apply Hd.
Qed.
Lemma matrix_inv_two : forall avx n m, 2 <= n -> matrix_inv avx n m = UB.
Proof.
  intros avx n m H. unfold matrix_inv. destruct n as [|[|k]]; try lia. cbn [seq ofold].
  rewrite vset_in by (rewrite repeat_length; lia). cbn [bind].
  assert (E : vset (upd (0 * S (S k) + 0) (fun _ => 1%N) (repeat (N.of_nat (S (S k))) (S (S k)))) (1 * S (S k) + 1) 1%N = UB).
  { unfold vset. rewrite upd_len, repeat_length. destruct (Nat.ltb_spec (1 * S (S k) + 1) (S (S k))); [lia|reflexivity]. }
  rewrite E. reflexivity.
Qed.
Lemma matrix_inv_one : forall avx e, (e < 2 ^ 128)%N ->
  (e = 0%N /\ matrix_inv avx 1 [e] = Ok None) \/
  (exists x, matrix_inv avx 1 [e] = Ok (Some [x]) /\ (x < 2 ^ 128)%N /\ gf_mul true e x = 1%N).
Proof.
  intros avx e He. destruct (N.eq_dec e 0) as [->|NZ].
  - left. split; [reflexivity|]. reflexivity.
  - right. destruct (gf_inv_correct avx e He NZ) as (x & E & Rx & F). exists x.
    assert (O : (1 < 2 ^ 128)%N) by reflexivity.
    assert (EX : matrix_inv avx 1 [e] = Ok (Some [gf_mul avx x 1])).
    { unfold matrix_inv. cbn [seq ofold repeat]. change (vset [N.of_nat 1] (0 * 1 + 0) 1%N) with (Ok [1%N]). cbn [bind mx_rows].
      change (vget (fst ([e], [1%N])) (0 * 1 + 0)) with (Ok e). cbn [bind]. rewrite (proj2 (N.eqb_neq e 0) NZ). cbn [bind].
      change (vget (fst ([e], [1%N])) (0 * 1 + 0)) with (Ok e). cbn [bind]. rewrite (proj2 (N.eqb_neq e 0) NZ). rewrite E. reflexivity. }
    split; [|split; [assumption|]].
    + rewrite EX. rewrite (mul_any avx) by assumption. rewrite mul_1_r by assumption. reflexivity.
    + apply (field_product_unique e x); [apply gf_mul_correct; assumption|assumption].
Qed.
Lemma dn_first : forall q p h, ok_dt q = DGF128 -> 1 <= ok_dense q -> (h < 2 ^ 128)%N -> (forall i, (at0 p i < 2 ^ 128)%N) ->
  (forall i, N.to_nat (ok_sparse q) < i -> at0 p i = 0%N) -> dn q p h = gf_mul true (at0 p (N.to_nat (ok_sparse q))) h.
Proof.
  intros q p h Hdt Hk Hh Hp Hz. unfold dn, coefs. rewrite Hdt. destruct (ok_dense q) as [|k]; [lia|]. cbn [powers dsum].
  rewrite dsum_zero_p; [apply N.lxor_0_r|intros; apply Hz; lia|]. apply powers_lt; [assumption|]. apply gmul_below; assumption.
Qed.
Lemma mul_xsum : forall (A : Type) a (f : A -> N) l, (a < 2 ^ 128)%N -> (forall x, In x l -> (f x < 2 ^ 128)%N) ->
  gf_mul true a (xsum f l) = xsum (fun x => gf_mul true a (f x)) l.
Proof.
  intros A a f l Ha. induction l as [|x l IH]; intros H.
  - change (xsum f []) with 0%N. change (xsum (fun x => gf_mul true a (f x)) []) with 0%N. rewrite mul_comm by (try assumption; apply red0). apply mul_0_l. assumption.
  - assert (H' : forall x, In x l -> (f x < 2 ^ 128)%N) by (intros; apply H; right; assumption).
    rewrite !xsum_cons. rewrite mul_lxor_r; [rewrite IH by assumption; reflexivity|assumption|apply H; left; reflexivity|]. apply xsum_lt. assumption.
Qed.
Lemma gf_row_one : forall avx dense gap fc row, gf_row avx dense 1 gap fc = Ok row -> row = [xsum (at0 dense) (fst gap :: fc)].
Proof.
  intros avx dense gap fc row H. unfold gf_row in H. apply bind_ok in H. destruct H as (e & E & H). apply (vget_ok _ 0%N) in E. destruct E as [_ <-].
  cbn [gf_powers] in H. rewrite xsum_cons. change (nth (fst gap) dense 0%N) with (at0 dense (fst gap)) in H. revert H. generalize (at0 dense (fst gap)).
  induction fc as [|j fc IH]; intros e H; cbn [ofold] in H.
  - injection H as <-. cbn. rewrite N.lxor_0_r. reflexivity.
  - apply bind_ok in H. destruct H as (r & E & H). apply bind_ok in E. destruct E as (d & E & E'). apply (vget_ok _ 0%N) in E. destruct E as [_ <-].
    injection E' as <-. apply IH in H. rewrite H. rewrite xsum_cons. rewrite <- N.lxor_assoc. reflexivity.
Qed.

Section Solve.
Variables (w vw : N) (avx : bool) (q : okvs_param) (hs values : list N).
Hypothesis Hq : param_ok w q.
Hypothesis Hsh : shape_ok vw q.
Hypothesis Hhs : Forall (fun h => (h < 2 ^ 128)%N) hs.
Hypothesis Hv : all_below vw values.
Local Notation s := (N.to_nat (ok_sparse q)).
Local Notation rows := (rows_of q hs).

Lemma hs_lt : forall i, (at0 hs i < 2 ^ 128)%N.
Proof using Hhs. intros i. apply (below_nth 128 hs i Hhs). Qed.
Lemma v_lt : forall i, (at0 values i < 2 ^ vw)%N.
Proof using Hv. intros i. apply (below_nth vw values i Hv). Qed.

Definition solved (P : list N) : Prop :=
  length P = s + ok_dense q /\ (forall i, (at0 P i < 2 ^ vw)%N) /\
  forall r, r < length hs -> r < length values /\ key_val (gf_mul true) q P (at0 hs r) = at0 values r.

Lemma gf_facts : forall t p P, inv s rows hs t -> (forall r, r < length rows -> In r (map fst (t_main t)) \/ In r (map fst (t_gap t))) ->
  ok_dt q = DGF128 -> length p = s + ok_dense q -> (forall i, at0 p i = 0%N) ->
  backfill_gf avx q rows hs values (t_main t) (t_gap t) p = Ok P -> solved P.
Proof using Hq Hsh Hhs Hv.
  intros t p P I HC Hdt Lp Zp H. unfold shape_ok in Hsh. rewrite Hdt in Hsh. destruct Hsh as [Evw Hk].
  destruct (rows_of_ok w q hs Hq Hhs) as [HR HN].
  unfold backfill_gf in H. apply enf_ok in H. destruct H as [Hg H]. apply bind_ok in H. destruct H as (p1 & E & H).
  set (dd := negb (length (t_gap t) =? 0)) in *.
  (* what p1 is, and the gap rows *)
  assert (G : length p1 = s + ok_dense q /\ (forall i, i < s -> at0 p1 i = 0%N) /\ (forall i, (at0 p1 i < 2 ^ 128)%N) /\
     (dd = false -> forall i, s <= i -> at0 p1 i = 0%N) /\
     forall g, In g (t_gap t) -> fst g < length values /\ exists fc, fc_inv1 rows (s + ok_dense q) (t_main t) g = Ok fc /\
       xsum (at0 values) (fst g :: fc) = xsum (fun r => dn q p1 (at0 hs r)) (fst g :: fc)).
  { unfold dd. destruct (t_gap t) as [|g gs] eqn:EG.
    - cbn [length Nat.eqb] in E. injection E as <-. split; [assumption|]. split; [auto|]. split; [intros; rewrite Zp; reflexivity|].
      split; [auto|intros g []].
    - cbn [length Nat.eqb] in E. apply bind_ok in E. destruct E as (fcs & E1 & E). apply bind_ok in E. destruct E as (ee & E2 & E).
      apply bind_ok in E. destruct E as (xx & E3 & E). apply bind_ok in E. destruct E as (iv & E4 & E).
      destruct gs as [|g' gs]; [|rewrite matrix_inv_two in E4 by (cbn; lia); discriminate].
      unfold fc_inv in E1. cbn [omapM] in E1. apply bind_ok in E1. destruct E1 as (fc & F1 & E1). cbn [bind] in E1. injection E1 as <-.
      cbn [combine omapM fst snd length] in E2, E3. apply bind_ok in E2. destruct E2 as (row & F2 & E2). cbn [bind] in E2. injection E2 as <-.
      apply bind_ok in E3. destruct E3 as (x & F3 & E3). cbn [bind] in E3. injection E3 as <-.
      apply gf_row_one in F2. subst row. apply comb_facts in F3. destruct F3 as [-> Lg].
      cbn [concat app length] in E4. set (e := xsum (at0 hs) (fst g :: fc)) in *. set (x := xsum (at0 values) (fst g :: fc)) in *.
      assert (He : (e < 2 ^ 128)%N) by (apply xsum_lt; intros; apply hs_lt).
      assert (Hx : (x < 2 ^ 128)%N) by (apply xsum_lt; intros; rewrite <- Evw; apply v_lt).
      destruct (matrix_inv_one avx e He) as [[_ EM]|(iv0 & EM & Ri & FM)]; rewrite EM in E4; injection E4 as <-; [discriminate|].
      unfold gf_solve in E. cbn [length seq ofold] in E. apply bind_ok in E. destruct E as (p2 & E & E5). injection E5 as <-.
      apply bind_ok in E. destruct E as (y & F4 & E). apply (vget_ok _ 0%N) in F4. destruct F4 as [Ls F4].
      change (nth (s + 0) p 0%N) with (at0 p (s + 0)) in F4. rewrite Zp in F4. subst y.
      apply bind_ok in E. destruct E as (y & F5 & E). cbn [bind] in F5.
      change (vget [x] 0) with (Ok x) in F5. change (vget [iv0] (0 * 1 + 0)) with (Ok iv0) in F5. cbn [bind] in F5. assert (F6 : mult_add avx 128 0 x iv0 = y) by congruence. subst y.
      apply vset_ok in E. destruct E as [_ ->]. rewrite Nat.add_0_r in *. rewrite mult_add_128 by assumption. rewrite N.lxor_0_l.
      rewrite (mul_any avx) by assumption.
      set (y := gf_mul true x iv0). assert (Hy : (y < 2 ^ 128)%N) by (apply mul_red; assumption).
      assert (At : forall i, at0 (upd s (fun _ => y) p) i = if i =? s then y else 0%N).
      { intros i. rewrite at0_upd by assumption. rewrite Zp. reflexivity. }
      assert (Hb : forall i, (at0 (upd s (fun _ => y) p) i < 2 ^ 128)%N) by (intros i; rewrite At; destruct (i =? s); [assumption|reflexivity]).
      split; [rewrite upd_len; assumption|]. split; [intros i Hi; rewrite At; destruct (Nat.eqb_spec i s); [lia|reflexivity]|].
      split; [assumption|]. split; [discriminate|]. intros g0 [<-|[]]. split; [assumption|]. exists fc. split; [assumption|].
      fold x. rewrite (xsum_ext _ (fun r => dn q (upd s (fun _ => y) p) (at0 hs r)) (fun r => gf_mul true y (at0 hs r))).
      2: { intros r _. rewrite dn_first; try assumption; [rewrite At, Nat.eqb_refl; reflexivity|apply hs_lt|].
           intros i Hi. rewrite At. destruct (Nat.eqb_spec i s); [lia|reflexivity]. }
      rewrite <- mul_xsum by (try assumption; intros; apply hs_lt). fold e. unfold y.
      rewrite mul_assoc by assumption. rewrite (mul_comm iv0 e) by assumption. rewrite FM. rewrite mul_1_r by assumption. reflexivity. }
  destruct G as (L1 & Z1 & B1 & D1 & G).
  assert (Hrc : length rows = length hs) by apply rows_of_len.
  assert (BK := back_facts s (s + ok_dense q) 128 rows values (fun r => dn q p1 (at0 hs r)) (fun i => at0 p1 i)
     (fun rc p => if forallb (fun x => (x <? 2 ^ 128)%N) p then gf_backfill1 avx q rows hs values dd rc p else UB) HR ltac:(lia)).
  assert (ST : forall rc p0 p', length p0 = s + ok_dense q -> (forall i, s <= i -> at0 p0 i = at0 p1 i) ->
     (if forallb (fun x => (x <? 2 ^ 128)%N) p0 then gf_backfill1 avx q rows hs values dd rc p0 else UB) = Ok p' ->
     fst rc < length values /\ p' = upd (snd rc) (fun _ => N.lxor (N.lxor (at0 values (fst rc)) (xsum (at0 p0) (rowi rows (fst rc)))) (dn q p1 (at0 hs (fst rc)))) p0).
  { intros rc p0 p' L0 D0 E0. destruct (forallb _ p0) eqn:FB; [|discriminate].
    assert (B0 : forall i, (at0 p0 i < 2 ^ 128)%N).
    { intros i. apply (below_nth 128). unfold all_below. rewrite Forall_forall. intros x Hx. rewrite forallb_forall in FB. apply N.ltb_lt. auto. }
    destruct (step_gf avx q rows hs values dd rc p0 p' B0 hs_lt Hdt Hk Hrc) as (A & _ & ->); [|assumption|].
    - intros X i Hi. rewrite D0 by assumption. auto.
    - split; [assumption|]. rewrite (dn_ext q p0 p1) by assumption. reflexivity. }
  specialize (BK ST).
  (* the guard never fails *)
  assert (GU : forall mn p0 p', (forall i, (at0 p0 i < 2 ^ 128)%N) -> length p0 = s + ok_dense q -> (forall i, s <= i -> at0 p0 i = at0 p1 i) ->
     Forall (fun rc => snd rc < s) mn ->
     ofold (gf_backfill1 avx q rows hs values dd) mn p0 = Ok p' ->
     ofold (fun rc p => if forallb (fun x => (x <? 2 ^ 128)%N) p then gf_backfill1 avx q rows hs values dd rc p else UB) mn p0 = Ok p').
  { intros mn. induction mn as [|rc mn IH]; intros p0 p' B0 L0 D0 F E0; [assumption|]. cbn [ofold] in *. pose proof (Forall_inv F) as F1. pose proof (Forall_inv_tail F) as F2. cbn beta in F1.
    assert (FB : forallb (fun x => (x <? 2 ^ 128)%N) p0 = true).
    { apply forallb_forall. intros x Hx. apply N.ltb_lt. apply (In_nth _ _ 0%N) in Hx. destruct Hx as (i & _ & <-). apply B0. }
    rewrite FB. apply bind_ok in E0. destruct E0 as (p2 & E1 & E0). rewrite E1. cbn [bind].
    destruct (step_gf avx q rows hs values dd rc p0 p2 B0 hs_lt Hdt Hk Hrc) as (A & A' & ->); [|assumption|].
    - intros X i Hi. rewrite D0 by assumption. auto.
    - apply IH; [|rewrite upd_len; assumption| |assumption|assumption].
      + intros i. rewrite at0_upd by assumption. destruct (i =? snd rc); [|apply B0].
        apply lxor_lt; [apply lxor_lt; [rewrite <- Evw; apply v_lt|apply xsum_lt; intros; apply B0]|].
        unfold dn, coefs. rewrite Hdt. generalize (powers_lt true (at0 hs (fst rc)) (ok_dense q) (at0 hs (fst rc)) (hs_lt _) (hs_lt _)).
        generalize (powers (gf_mul true) (at0 hs (fst rc)) (at0 hs (fst rc)) (ok_dense q)) s. intros cs. induction cs as [|c cs IHc]; intros k Fc; [reflexivity|].
        pose proof (Forall_inv Fc) as G1. pose proof (Forall_inv_tail Fc) as G2. cbn [dsum]. apply lxor_lt; [apply mul_red; [apply B0|assumption]|auto].
      + intros i Hi. rewrite at0_upd by assumption. destruct (Nat.eqb_spec i (snd rc)); [lia|auto]. }
  assert (FM : Forall (fun rc => snd rc < s) (t_main t)).
  { pose proof (i_lt _ _ _ _ I) as FL. rewrite Forall_forall in *. intros rc X. apply FL. apply in_map. assumption. }
  apply GU in H; try assumption; [|auto].
  destruct (BK (t_main t) p1 P (i_tri _ _ _ _ I) (i_nd _ _ _ _ I) (i_lt _ _ _ _ I) L1) as (A1 & A2 & A3 & A4); auto.
  { intros c X. apply Z1. pose proof (i_lt _ _ _ _ I) as FL. rewrite Forall_forall in FL. auto. }
  assert (DP : forall h, dn q P h = dn q p1 h).
  { intros h. apply dn_ext. intros i Hi. apply A2. intros X. pose proof (i_lt _ _ _ _ I) as FL. rewrite Forall_forall in FL. apply FL in X. lia. }
  split; [assumption|]. rewrite Evw. split.
  - apply A4; [assumption|intros; rewrite <- Evw; apply v_lt|].
    intros r _. unfold dn, coefs. rewrite Hdt. generalize (powers_lt true (at0 hs r) (ok_dense q) (at0 hs r) (hs_lt _) (hs_lt _)).
    generalize (powers (gf_mul true) (at0 hs r) (at0 hs r) (ok_dense q)) s. intros cs. induction cs as [|c cs IHc]; intros k Fc; [reflexivity|].
    pose proof (Forall_inv Fc) as G1. pose proof (Forall_inv_tail Fc) as G2. cbn [dsum]. apply lxor_lt; [apply mul_red; [apply B1|assumption]|auto].
  - intros r Hr. rewrite key_val_dn, DP. rewrite <- rows_of_nth by assumption.
    apply (all_rows s (s + ok_dense q) rows hs t values (fun r => dn q p1 (at0 hs r)) P); auto; [lia| |rewrite Hrc; assumption].
    intros c Hc X. rewrite A2 by assumption. auto.
Qed.
End Solve.
