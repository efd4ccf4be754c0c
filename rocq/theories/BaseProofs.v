(** Lemmas about Base. *)
From Coq Require Import List NArith ZArith Lia Bool Permutation Sorted.
From Verif Require Import Base.
Import ListNotations.

Lemma u32_small : forall x, (x < max32)%N -> u32 x = x.
Proof. intros x H. unfold u32. apply N.mod_small. exact H. Qed.

Lemma u64_small : forall x, (x < max64)%N -> u64 x = x.
Proof. intros x H. unfold u64. apply N.mod_small. exact H. Qed.

Lemma u32_lt : forall x, (u32 x < max32)%N.
Proof. intros x. unfold u32. apply N.mod_lt. discriminate. Qed.

Lemma u64_lt : forall x, (u64 x < max64)%N.
Proof. intros x. unfold u64. apply N.mod_lt. discriminate. Qed.

Lemma split_at_spec : forall (A : Type) n (l : list A),
  split_at n l = (firstn n l, skipn n l).
Proof.
  intros A n. induction n as [|n IH]; intros [|x l]; simpl; try reflexivity.
  rewrite IH. reflexivity.
Qed.

Lemma chunks_aux_concat : forall (A : Type) fuel n (l : list A),
  0 < n -> length l <= fuel -> concat (chunks_aux fuel n l) = l.
Proof.
  intros A fuel. induction fuel as [|f IH]; intros n l Hn Hl.
  - destruct l; [reflexivity | simpl in Hl; lia].
  - destruct l as [|x l]; [reflexivity|].
    cbn [chunks_aux concat]. rewrite IH; auto.
    + apply firstn_skipn.
    + rewrite skipn_length. cbn [length] in *. lia.
Qed.

Lemma chunks_concat : forall (A : Type) n (l : list A),
  0 < n -> concat (chunks n l) = l.
Proof. intros. apply chunks_aux_concat; auto. Qed.

Lemma chunks_aux_nonempty : forall (A : Type) fuel n (l : list A) c,
  0 < n -> In c (chunks_aux fuel n l) -> c <> [] /\ length c <= n.
Proof.
  intros A fuel. induction fuel as [|f IH]; intros n l c Hn Hin; simpl in Hin; [tauto|].
  destruct l as [|x l]; [destruct Hin|].
  destruct Hin as [<-|Hin].
  - destruct n; [lia|]. split; [simpl; discriminate| rewrite firstn_length; lia].
  - eapply IH; eauto.
Qed.

Lemma chunks_nonempty : forall (A : Type) n (l : list A) c,
  0 < n -> In c (chunks n l) -> c <> [] /\ length c <= n.
Proof. intros. eapply chunks_aux_nonempty; eauto. Qed.

Lemma number_length : forall (A : Type) (l : list A) i, length (number i l) = length l.
Proof. induction l; simpl; intros; auto. Qed.

Lemma number_snd : forall (A : Type) (l : list A) i, map snd (number i l) = l.
Proof. induction l; simpl; intros; f_equal; auto. Qed.

Lemma number_fst : forall (A : Type) (l : list A) i, map fst (number i l) = seq i (length l).
Proof. induction l; simpl; intros; f_equal; auto. Qed.

Lemma number_app : forall (A : Type) (l1 l2 : list A) i,
  number i (l1 ++ l2) = number i l1 ++ number (i + length l1) l2.
Proof.
  induction l1; simpl; intros; [rewrite Nat.add_0_r; reflexivity|].
  f_equal. rewrite IHl1. do 2 f_equal. lia.
Qed.

Lemma number_in : forall (A : Type) (l : list A) i j x,
  In (j, x) (number i l) <-> i <= j /\ nth_error l (j - i) = Some x.
Proof.
  induction l as [|a l IH]; simpl; intros i j x.
  - split; [tauto|]. intros [_ H]. destruct (j - i); discriminate.
  - rewrite IH. split.
    + intros [H|[H1 H2]].
      * inversion H; subst. rewrite Nat.sub_diag. simpl. auto.
      * split; [lia|]. replace (j - i) with (S (j - S i)) by lia. exact H2.
    + intros [H1 H2]. destruct (Nat.eq_dec i j) as [->|Hne].
      * rewrite Nat.sub_diag in H2. inversion H2. auto.
      * right. split; [lia|]. replace (j - i) with (S (j - S i)) in H2 by lia. exact H2.
Qed.

Lemma map_number_nth : forall (A B : Type) (f : nat -> A -> B) (l : list A) i j,
  nth_error (map (fun p => f (fst p) (snd p)) (number i l)) j =
  option_map (f (i + j)) (nth_error l j).
Proof.
  induction l as [|a l IH]; simpl; intros i j; [destruct j; reflexivity|].
  destruct j; simpl; [rewrite Nat.add_0_r; reflexivity|].
  rewrite IH. f_equal. f_equal. lia.
Qed.

(** Two sorted lists with the same elements are equal. *)
Lemma sorted_perm_unique : forall (A : Type) (R : A -> A -> Prop) (l1 l2 : list A),
  (forall x y, R x y -> R y x -> x = y) ->
  StronglySorted R l1 -> StronglySorted R l2 -> Permutation l1 l2 -> l1 = l2.
Proof.
  intros A R l1. induction l1 as [|x l1 IH]; intros l2 Hanti S1 S2 P.
  - apply Permutation_nil in P. subst. reflexivity.
  - destruct l2 as [|y l2]; [apply Permutation_sym, Permutation_nil_cons in P; destruct P|].
    inversion S1 as [|? ? S1' F1]; subst. inversion S2 as [|? ? S2' F2]; subst.
    assert (x = y) as ->.
    { assert (Hx : In x (y :: l2)) by (eapply Permutation_in; [exact P| left; auto]).
      assert (Hy : In y (x :: l1)) by (eapply Permutation_in; [apply Permutation_sym; exact P| left; auto]).
      destruct Hx as [->|Hx]; [reflexivity|]. destruct Hy as [->|Hy]; [reflexivity|].
      rewrite Forall_forall in F1, F2. apply Hanti; auto. }
    f_equal. apply IH; auto. eapply Permutation_cons_inv; eauto.
Qed.

Lemma bind_ok_inv : forall (A B : Type) (m : outcome A) (f : A -> outcome B) b,
  bind m f = Ok b -> exists a, m = Ok a /\ f a = Ok b.
Proof. intros A B [a| | |] f b H; simpl in H; try discriminate. eauto. Qed.

Lemma enforce_ok_inv : forall (A : Type) b (k : outcome A) a,
  enforce b k = Ok a -> b = true /\ k = Ok a.
Proof. intros A [|] k a H; simpl in H; try discriminate; auto. Qed.
