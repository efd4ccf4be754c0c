From Coq Require Import List NArith Lia Bool Permutation Sorted Arith.
From Verif Require Import Base BaseProofs JoinModel JoinSpec.
Import ListNotations.

(* ------------------------------------------------------------------ *)
(** * KeyInfo *)
Section KeyInfoProofs.
Variable Key : Type.
Variable keqb : Key -> Key -> bool.
Variable empty_key : Key.
Hypothesis keqb_spec : forall a b, keqb a b = true <-> a = b.

Notation kentry := (kentry Key).

Definition expand (es : list kentry) : list Key :=
  flat_map (fun e => repeat (ke_key e) (N.to_nat (ke_dup e) + 1)) es.

Fixpoint tiles (s : N) (es : list kentry) : Prop :=
  match es with
  | [] => True
  | e :: r => ke_start e = s /\ tiles (s + ke_dup e + 1) r
  end.

Fixpoint total (es : list kentry) : N :=
  match es with [] => 0%N | e :: r => (ke_dup e + 1 + total r)%N end.

Fixpoint adj (es : list kentry) : Prop :=
  match es with
  | [] => True
  | e :: r => match r with [] => True | e' :: _ => ke_key e <> ke_key e' end /\ adj r
  end.

Lemma tiles_app : forall a b s, tiles s (a ++ b) <-> tiles s a /\ tiles (s + total a) b.
Proof.
  induction a as [|e a IH]; intros b s; simpl.
  - rewrite N.add_0_r. tauto.
  - rewrite IH. replace (s + (ke_dup e + 1 + total a))%N with (s + ke_dup e + 1 + total a)%N by lia.
    tauto.
Qed.

Lemma total_app : forall a b, total (a ++ b) = (total a + total b)%N.
Proof. induction a; simpl; intros; auto. rewrite IHa. lia. Qed.

Lemma adj_snoc : forall a e e',
  adj (a ++ [e]) -> ke_key e <> ke_key e' -> adj ((a ++ [e]) ++ [e']).
Proof.
  induction a as [|x a IH]; intros e e' H Hne; simpl in *.
  - auto.
  - destruct H as [H1 H2]. split; [|apply IH; auto].
    destruct (a ++ [e]) eqn:E; [destruct a; discriminate|]. simpl. exact H1.
Qed.

Lemma adj_last_key : forall a e e',
  adj (a ++ [e]) -> ke_key e = ke_key e' -> adj (a ++ [e']).
Proof.
  induction a as [|x a IH]; intros e e' H Heq; simpl in *; [auto|].
  destruct H as [H1 H2]. split; [|eapply IH; eauto].
  destruct a as [|y a]; simpl in *; [congruence|auto].
Qed.

Lemma expand_app : forall a b, expand (a ++ b) = expand a ++ expand b.
Proof. intros. unfold expand. apply flat_map_app. Qed.

Lemma expand_length : forall es, N.of_nat (length (expand es)) = total es.
Proof.
  induction es as [|e es IH]; [reflexivity|].
  simpl. rewrite app_length, repeat_length. lia.
Qed.

(** Loop invariant for a non-empty prefix [l] of the keys. *)
Definition kinv (st : kst Key) (l : list Key) : Prop :=
  let es := ks_out st ++ [mk_kentry (ks_cur st) (ks_start st) (ks_dup st)] in
  ks_index st = N.of_nat (length l) /\ expand es = l /\ tiles 0 es /\ adj es.

Lemma repeat_snoc : forall (A : Type) (x : A) n, repeat x (n + 1) = repeat x n ++ [x].
Proof. intros A x n. rewrite repeat_app. reflexivity. Qed.

Lemma kstep_inv : forall st l x,
  l <> [] -> kinv st l -> (N.of_nat (length l) + 1 < max32)%N ->
  kinv (kstep keqb st x) (l ++ [x]).
Proof.
  intros st l x Hl (Hi & He & Ht & Ha) Hb.
  assert (Hnz : (ks_index st =? 0)%N = false).
  { apply N.eqb_neq. rewrite Hi. destruct l; [congruence|simpl; lia]. }
  pose proof (expand_length (ks_out st ++ [mk_kentry (ks_cur st) (ks_start st) (ks_dup st)])) as Hlen.
  rewrite He, total_app in Hlen. simpl in Hlen.
  assert (Hidx : u32 (ks_index st + 1) = N.of_nat (length (l ++ [x]))).
  { rewrite u32_small by lia. rewrite app_length. simpl. lia. }
  unfold kstep. rewrite Hnz.
  destruct (keqb (ks_cur st) x) eqn:E; simpl negb; cbn iota.
  - apply keqb_spec in E. subst x. unfold kinv. cbn [ks_index ks_out ks_cur ks_start ks_dup].
    rewrite u32_small with (x := (ks_dup st + 1)%N) by lia.
    split; [exact Hidx|]. split; [|split].
    + rewrite expand_app in *. rewrite <- He. rewrite <- app_assoc. f_equal.
      unfold expand. simpl. rewrite !app_nil_r.
      replace (N.to_nat (ks_dup st + 1) + 1) with ((N.to_nat (ks_dup st) + 1) + 1) by lia.
      rewrite repeat_snoc. reflexivity.
    + rewrite tiles_app in *. simpl in *. tauto.
    + eapply adj_last_key; [exact Ha|reflexivity].
  - assert (ks_cur st <> x) by (intros Hx; apply keqb_spec in Hx; congruence).
    unfold kinv. cbn [ks_index ks_out ks_cur ks_start ks_dup].
    split; [exact Hidx|]. split; [|split].
    + rewrite expand_app. rewrite He. reflexivity.
    + rewrite tiles_app. split; [exact Ht|]. simpl. split; [|exact I].
      rewrite total_app. simpl. lia.
    + apply adj_snoc; auto.
Qed.

Lemma kfold_inv : forall b st l,
  l <> [] -> kinv st l -> (N.of_nat (length l) + N.of_nat (length b) < max32)%N ->
  kinv (fold_left (kstep keqb) b st) (l ++ b).
Proof.
  induction b as [|x b IH]; intros st l Hl Hinv Hb; simpl.
  - rewrite app_nil_r. exact Hinv.
  - replace (l ++ x :: b) with ((l ++ [x]) ++ b) by (rewrite <- app_assoc; reflexivity).
    apply IH.
    + destruct l; discriminate.
    + apply kstep_inv; auto. simpl in Hb. lia.
    + rewrite app_length. simpl in *. lia.
Qed.

Lemma kloop_cons : forall st b r, b <> [] ->
  kloop keqb st (b :: r) = kloop keqb (fold_left (kstep keqb) b st) r.
Proof. intros st [|x b] r H; [congruence|reflexivity]. Qed.

Lemma kloop_inv : forall bs st l,
  l <> [] -> kinv st l -> Forall (fun b => b <> []) bs ->
  (N.of_nat (length l) + N.of_nat (length (concat bs)) < max32)%N ->
  kinv (kloop keqb st bs) (l ++ concat bs).
Proof.
  induction bs as [|b bs IH]; intros st l Hl Hinv Hne Hb.
  - simpl. rewrite app_nil_r. exact Hinv.
  - inversion Hne; subst. rewrite kloop_cons by auto.
    simpl concat in *. rewrite app_length in Hb. rewrite app_assoc. apply IH; auto.
    + destruct l; [congruence|discriminate].
    + apply kfold_inv; auto. lia.
    + rewrite app_length. lia.
Qed.

Lemma kfirst_inv : forall x, kinv (kstep keqb (kinit empty_key) x) [x].
Proof.
  intros x. unfold kinv, kstep, kinit. simpl. repeat split; auto.
Qed.

Lemma key_info_rle : forall bs es m,
  Forall (fun b => b <> []) bs -> concat bs <> [] ->
  (N.of_nat (length (concat bs)) < max32)%N ->
  key_info_make keqb empty_key bs = (es, m) ->
  expand es = concat bs /\ tiles 0 es /\ adj es.
Proof.
  intros bs es m Hne Hnn Hb H. unfold key_info_make in H.
  destruct bs as [|b bs]; [simpl in Hnn; congruence|].
  inversion Hne; subst.
  destruct b as [|x b]; [congruence|].
  assert (Hinv : kinv (kloop keqb (kinit empty_key) ((x :: b) :: bs)) (concat ((x :: b) :: bs))).
  { rewrite kloop_cons by discriminate.
    simpl fold_left. simpl concat in *.
    change (x :: b ++ concat bs) with ([x] ++ (b ++ concat bs)).
    rewrite app_assoc.
    cbn [app length] in Hb. rewrite app_length in Hb.
    apply kloop_inv; [discriminate| |assumption|].
    - apply kfold_inv; [discriminate|apply kfirst_inv|]. cbn [length]. lia.
    - rewrite app_length. cbn [length]. lia. }
  destruct Hinv as (_ & K1 & K2 & K3). injection H as <- <-. auto.
Qed.

(** Meta counters. *)
Lemma kcount_fold : forall es m,
  (km_unique m + N.of_nat (length es) < max32)%N -> (km_origin m + total es < max32)%N ->
  (km_dup m + N.of_nat (length es) < max32)%N ->
  fold_left kcount es m =
  mk_kmeta (km_dup m + N.of_nat (length (filter (fun e : kentry => negb (ke_dup e =? 0)%N) es)))
           (km_unique m + N.of_nat (length es)) (km_origin m + total es).
Proof.
  induction es as [|e es IH]; intros m Hu Ho Hd; simpl.
  - rewrite !N.add_0_r. destruct m; reflexivity.
  - simpl in *. rewrite IH; unfold kcount; cbn [km_dup km_unique km_origin].
    + rewrite (u32_small (km_unique m + 1)) by lia.
      rewrite (u32_small (km_origin m + 1 + ke_dup e)) by lia.
      destruct (ke_dup e =? 0)%N eqn:E; simpl negb; cbn iota; f_equal; try lia.
      rewrite u32_small by lia. simpl length. lia.
    + rewrite u32_small by lia. lia.
    + rewrite u32_small by lia. lia.
    + destruct (ke_dup e =? 0)%N; [lia|]. rewrite u32_small by lia. lia.
Qed.

Lemma expand_length_ge : forall es, length es <= length (expand es).
Proof.
  induction es as [|e es IH]; [simpl; lia|].
  simpl. rewrite app_length, repeat_length. lia.
Qed.

End KeyInfoProofs.
Arguments expand {Key} _.
Arguments tiles {Key} _ _.
Arguments total {Key} _.
Arguments adj {Key} _.
