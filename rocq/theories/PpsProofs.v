(** The punctured tree gives the other leaves. *)
From Coq Require Import List NArith Bool Arith Lia.
From Verif Require Import Base BaseProofs StoreModel KkrtProofs PpsModel PpsSpec.
Import ListNotations.

Lemma upd_length : forall (A : Type) i f (l : list A), length (upd i f l) = length l.
Proof. induction i; destruct l; cbn; auto. Qed.
Lemma upd_app : forall (A : Type) f (a : list A) x b, upd (length a) f (a ++ x :: b) = a ++ f x :: b.
Proof. induction a; cbn; intros; [reflexivity|]. rewrite IHa. reflexivity. Qed.

Section T.
Variable prg : N -> N * N.

Lemma expand_length : forall l, length (pp_expand prg l) = 2 * length l.
Proof. induction l; cbn; [reflexivity|]. unfold pp_expand in IHl. cbn in IHl. lia. Qed.
Lemma level_length : forall d k, length (pp_level prg d k) = 2 ^ d.
Proof. induction d; intros; [reflexivity|]. cbn [pp_level]. rewrite expand_length, IHd. reflexivity. Qed.
Lemma expand_nth : forall l j, j < length l ->
  nth (2 * j) (pp_expand prg l) 0%N = fst (prg (nth j l 0%N)) /\
  nth (2 * j + 1) (pp_expand prg l) 0%N = snd (prg (nth j l 0%N)).
Proof.
  induction l; intros j H; [inversion H|]. destruct j; [split; reflexivity|].
  cbn [length] in H. destruct (IHl j) as [A B]; [lia|].
  replace (2 * S j) with (S (S (2 * j))) by lia. replace (S (S (2 * j)) + 1) with (S (S (2 * j + 1))) by lia.
  split; [exact A|exact B].
Qed.
Lemma level_nodes : forall d k j, j < 2 ^ d -> exists p, length p = d /\ nth j (pp_level prg d k) 0%N = tree_node prg p k.
Proof.
  assert (S1 : forall p b k, tree_node prg (p ++ [b]) k = (if b : bool then snd (prg (tree_node prg p k)) else fst (prg (tree_node prg p k)))).
  { induction p; intros; [reflexivity|]. cbn [app tree_node]. apply IHp. }
  induction d; intros k j H.
  - exists []. destruct j; [split; reflexivity|cbn in H; lia].
  - rewrite Nat.pow_succ_r' in H. cbn [pp_level].
    assert (Hh : j / 2 < 2 ^ d) by (apply Nat.div_lt_upper_bound; lia).
    destruct (IHd k (j / 2) Hh) as (p & Hp & E).
    destruct (expand_nth (pp_level prg d k) (j / 2)) as [A B]; [rewrite level_length; exact Hh|].
    pose proof (Nat.div_mod j 2) as DM. pose proof (Nat.mod_upper_bound j 2) as MB.
    destruct (j mod 2) as [|[|]] eqn:M; [| |lia].
    + exists (p ++ [false]). rewrite app_length, S1, Hp. split; [cbn; lia|]. rewrite <- E.
      replace j with (2 * (j / 2)) at 1 by lia. exact A.
    + exists (p ++ [true]). rewrite app_length, S1, Hp. split; [cbn; lia|]. rewrite <- E.
      replace j with (2 * (j / 2) + 1) at 1 by lia. exact B.
Qed.

Lemma expand0_upd : forall l p, Forall (fun x => x <> 0%N) l -> p < length l ->
  pp_expand0 prg (upd p (fun _ => 0%N) l) = upd (2 * p) (fun _ => 0%N) (upd (2 * p + 1) (fun _ => 0%N) (pp_expand prg l)).
Proof.
  assert (E : forall l, Forall (fun x => x <> 0%N) l -> pp_expand0 prg l = pp_expand prg l).
  { induction 1; [reflexivity|]. cbn. apply N.eqb_neq in H. rewrite H. cbn.
    unfold pp_expand0, pp_expand in IHForall. cbn in IHForall. rewrite IHForall. reflexivity. }
  induction l; intros p F H; [inversion H|]. inversion F; subst.
  destruct p.
  - cbn. apply E in H3. unfold pp_expand0, pp_expand in H3. cbn in H3. rewrite H3. reflexivity.
  - cbn [length] in H. replace (2 * S p) with (S (S (2 * p))) by lia. replace (S (S (2 * p)) + 1) with (S (S (2 * p + 1))) by lia.
    cbn [upd]. unfold pp_expand0, pp_expand. cbn [flat_map app upd]. apply N.eqb_neq in H2. rewrite H2. cbn [app upd].
    f_equal. f_equal. apply (IHl p H3). lia.
Qed.

Lemma list_ext : forall (A : Type) (l m : list A), (forall i, nth_error l i = nth_error m i) -> l = m.
Proof.
  induction l; intros [|y m] H; [reflexivity|specialize (H 0); discriminate|specialize (H 0); discriminate|].
  pose proof (H 0) as H0. injection H0 as ->. f_equal. apply IHl. intro i. exact (H (S i)).
Qed.

Lemma lxor_even : forall q, N.lxor (2 * q) 1 = (2 * q + 1)%N.
Proof. destruct q; reflexivity. Qed.
Lemma lxor_odd : forall q, N.lxor (2 * q + 1) 1 = (2 * q)%N.
Proof. destruct q; reflexivity. Qed.

Lemma shiftr_nat : forall pos e, N.shiftr (N.of_nat pos) (N.of_nat e) = N.of_nat (pos / 2 ^ e).
Proof.
  intros. rewrite N.shiftr_div_pow2. change 2%N with (N.of_nat 2). rewrite <- Nat2N.inj_pow, <- Nat2N.inj_div. reflexivity.
Qed.
Lemma testbit_nat : forall pos e, N.testbit (N.of_nat pos) (N.of_nat e) = Nat.odd (pos / 2 ^ e).
Proof.
  intros. rewrite <- (N.add_0_l (N.of_nat e)), <- N.shiftr_spec', shiftr_nat.
  rewrite N.bit0_odd. generalize (pos / 2 ^ e). intro x. rewrite <- Nat.bit0_odd.
  destruct (Nat.Even_or_Odd x) as [[y ->]|[y ->]].
  - rewrite Nat.testbit_even_0. rewrite Nat2N.inj_mul. apply N.odd_mul.
  - rewrite Nat.testbit_odd_0. rewrite Nat2N.inj_add, Nat2N.inj_mul, N.add_comm. apply N.odd_add_mul_2.
Qed.

Lemma fill_ok : forall e d pos k,
  pos < 2 ^ (d + e) -> (forall j x, j < d + e -> nth_error (pp_level prg j k) x <> Some 0%N) ->
  pp_fill prg e (N.of_nat pos) (pp_copath prg e (N.of_nat pos) (nth (pos / 2 ^ e) (pp_level prg d k) 0%N))
    (upd (pos / 2 ^ e) (fun _ => 0%N) (pp_level prg d k)) = Ok (upd pos (fun _ => 0%N) (pp_level prg (d + e) k)).
Proof.
  induction e; intros d pos k HP HZ.
  - cbn [pp_fill]. change (2 ^ 0) with 1. rewrite Nat.div_1_r, Nat.add_0_r. reflexivity.
  - set (p := pos / 2 ^ S e). set (p' := pos / 2 ^ e).
    assert (EP : p' / 2 = p).
    { unfold p, p'. rewrite Nat.div_div by (try apply Nat.pow_nonzero; lia). rewrite Nat.pow_succ_r', Nat.mul_comm. reflexivity. }
    assert (HPd : p < 2 ^ d).
    { unfold p. apply Nat.div_lt_upper_bound; [apply Nat.pow_nonzero; lia|]. rewrite <- Nat.pow_add_r, Nat.add_comm. exact HP. }
    assert (Len : length (pp_level prg d k) = 2 ^ d) by apply level_length.
    destruct (expand_nth (pp_level prg d k) p) as [EL ER]; [rewrite Len; exact HPd|].
    specialize (IHe (S d) pos k). rewrite (Nat.add_succ_r d e) in *. specialize (IHe HP HZ). fold p' in IHe.
    assert (NZ : Forall (fun x => x <> 0%N) (pp_level prg d k)).
    { rewrite Forall_forall. intros x J E. subst x. apply In_nth_error in J. destruct J as [i J]. apply (HZ d i); [lia|exact J]. }
    pose proof (Nat.div_mod p' 2 ltac:(lia)) as DM. pose proof (Nat.mod_upper_bound p' 2 ltac:(lia)) as MB. rewrite EP in DM.
    cbn [pp_copath]. rewrite testbit_nat. fold p'.
    assert (GO : forall (a : nat) (v : N), a < 2 ^ S d -> v = nth a (pp_level prg (S d) k) 0%N ->
              (p' = 2 * p /\ a = 2 * p + 1 \/ p' = 2 * p + 1 /\ a = 2 * p) ->
              upd a (fun _ => v) (pp_expand0 prg (upd p (fun _ => 0%N) (pp_level prg d k))) = upd p' (fun _ => 0%N) (pp_level prg (S d) k)).
    { intros a v Ha Hv C. rewrite expand0_upd by (try rewrite Len; assumption). change (pp_level prg (S d) k) with (pp_expand prg (pp_level prg d k)) in *.
      assert (LE : length (pp_expand prg (pp_level prg d k)) = 2 ^ S d) by (rewrite expand_length, Len; reflexivity).
      assert (H2p : 2 * p + 1 < 2 ^ S d) by (rewrite Nat.pow_succ_r'; lia).
      assert (Ea : nth_error (pp_expand prg (pp_level prg d k)) a = Some v) by (subst v; apply nth_error_nth'; rewrite LE; exact Ha).
      apply list_ext. intro i. rewrite !nth_upd.
      assert (OM : forall (o : option N) (x y : N), option_map (fun _ => x) (option_map (fun _ => y) o) = option_map (fun _ => x) o) by (intros [?|]; reflexivity).
      destruct C as [[-> ->]|[-> ->]];
        repeat match goal with |- context [Nat.eqb ?x ?y] => destruct (Nat.eqb_spec x y) end; try subst i; try lia; try reflexivity;
        rewrite ?OM, ?Ea; reflexivity. }
    assert (LE0 : length (pp_expand0 prg (upd p (fun _ => 0%N) (pp_level prg d k))) = 2 ^ S d).
    { rewrite expand0_upd by (try rewrite Len; assumption). rewrite !upd_length, expand_length, Len. reflexivity. }
    assert (H2p : 2 * p + 1 < 2 ^ S d) by (rewrite Nat.pow_succ_r'; lia).
    destruct (prg (nth p (pp_level prg d k) 0%N)) as [l r]. cbn [fst snd] in EL, ER.
    destruct (p' mod 2) as [|[|]] eqn:M; [| |lia].
    + assert (O : Nat.odd p' = false) by (rewrite <- Nat.negb_even; apply negb_false_iff, Nat.even_spec; exists p; lia).
      rewrite O. cbn [pp_fill]. rewrite shiftr_nat. fold p'.
      replace (N.lxor (N.of_nat p') 1) with (N.of_nat (2 * p + 1)).
      2:{ replace p' with (2 * p) by lia. rewrite Nat2N.inj_mul, lxor_even. lia. }
      rewrite LE0. destruct (N.ltb_spec (N.of_nat (2 * p + 1)) (N.of_nat (2 ^ S d))) as [_|X]; [|lia].
      rewrite Nat2N.id, (GO (2 * p + 1) r H2p); [|symmetry; exact ER|left; lia].
      etransitivity; [|exact IHe]. f_equal. f_equal. replace p' with (2 * p) by lia. symmetry. exact EL.
    + assert (O : Nat.odd p' = true) by (apply Nat.odd_spec; exists p; lia).
      rewrite O. cbn [pp_fill]. rewrite shiftr_nat. fold p'.
      replace (N.lxor (N.of_nat p') 1) with (N.of_nat (2 * p)).
      2:{ replace p' with (2 * p + 1) by lia. rewrite Nat2N.inj_add, Nat2N.inj_mul. change (N.of_nat 1) with 1%N. rewrite lxor_odd. lia. }
      rewrite LE0. destruct (N.ltb_spec (N.of_nat (2 * p)) (N.of_nat (2 ^ S d))) as [_|X]; [|lia].
      rewrite Nat2N.id, (GO (2 * p) l ltac:(lia)); [|symmetry; exact EL|right; lia].
      etransitivity; [|exact IHe]. f_equal. f_equal. replace p' with (2 * p + 1) by lia. symmetry. exact ER.
Qed.

Lemma fill_root : forall h pos k, pos < 2 ^ h -> no_zero_node prg h k ->
  pp_fill prg h (N.of_nat pos) (pp_copath prg h (N.of_nat pos) k) [0%N] = Ok (upd pos (fun _ => 0%N) (pp_level prg h k)).
Proof.
  intros h pos k HP HZ. pose proof (fill_ok h 0 pos k HP) as F. cbn [pp_level Nat.add] in F.
  rewrite (Nat.div_small pos (2 ^ h)) in F by exact HP. apply F.
  intros j x Hj E. assert (Hx : x < 2 ^ j) by (rewrite <- (level_length j k); apply nth_error_Some; rewrite E; discriminate).
  destruct (level_nodes j k x Hx) as (p & Hp & E2). apply (HZ p); [lia|]. rewrite <- E2. apply nth_error_nth with (d := 0%N) in E. exact E.
Qed.

(** The head of the list of siblings. *)
Lemma copath_head : forall h pos k, 0 < h -> exists r,
  pp_copath prg h pos k = (if N.testbit pos (N.of_nat (h - 1)) then fst (prg k) else snd (prg k)) :: r.
Proof.
  intros [|h] pos k H; [lia|]. cbn [pp_copath]. replace (S h - 1) with h by lia. destruct (prg k) as [l r].
  destruct (N.testbit pos (N.of_nat h)); eexists; reflexivity.
Qed.
End T.
