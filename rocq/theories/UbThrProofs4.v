(** Lemmas for C80: two runs over one cache. *)
From Coq Require Import List NArith Bool Arith Lia Permutation.
From Verif Require Import Base BaseProofs Text TextProofs StoreModel StoreSpec StoreProofs2 EcdhModel BucketProofs
  ShufModel ShufSpec ShufProofs UbCacheModel UbCacheSpec UbCacheProofs UbCacheProps UbPsiModel UbPsiSpec UbPsiProofs UbPsiProofs2.
From Verif Require Import ThrSpec UbThrModel UbThrSpec UbThrProofs UbThrProofs2.
Import ListNotations.

(** What a client can do with the replies of two runs: is a value it was given in the first but
    not in the second in the server's cache? *)
Definition known_value (d : list (list (bytes * N))) (v : bytes) : bool := existsb (beqb v) (map fst (concat d)).
Definition infer (fin1 fin2 : bytes -> bytes) (cl pl : nat) (a b : list pmsg) (d : cdisk) : outcome bool :=
  do sa <- recv_into pl fin1 a;
  do sb <- recv_into pl fin2 b;
  do (_, peer) <- open_and_read cl 1 d;
  Ok (existsb (fun v => negb (existsb (beqb v) (map fst sb)) && known_value peer v) (map fst sa)).

Lemma existsb_beqb : forall v l, existsb (beqb v) l = true <-> In v l.
Proof.
  intros v l. rewrite existsb_exists. split; [intros (y & I & E); apply beqb_spec in E; subst; exact I|].
  intros I. exists v. split; [exact I|]. apply beqb_spec. reflexivity.
Qed.

Section Two.
Variable Item : Type.
Variables (simple_eval blind1 blind2 : Item -> bytes) (evaluate fin1 fin2 : bytes -> bytes) (cl pl : nat).
Hypothesis cl_pos : 0 < cl.
Hypothesis cl_max : cl < max_cipher.
Hypothesis pl_pos : 0 < pl.
Hypothesis eval_len : forall x, length (simple_eval x) = cl.
Hypothesis blind1_len : forall x, length (blind1 x) = pl.
Hypothesis blind2_len : forall x, length (blind2 x) = pl.
Hypothesis evaluate1_len : forall x, length (evaluate (blind1 x)) = pl.
Hypothesis evaluate2_len : forall x, length (evaluate (blind2 x)) = pl.
Hypothesis oprf1 : forall x, fin1 (evaluate (blind1 x)) = simple_eval x.
Hypothesis oprf2 : forall x, fin2 (evaluate (blind2 x)) = simple_eval x.

Lemma two_runs : forall src (client1 client2 : list (list (Item * N))) y dy priv moved bsg bst bs1 bs2 shuf1 shuf2 sg1 sg2 c d,
  let srv := concat (map (rb_items Item) src) in
  let cli := concat client1 in
  Forall (fun b => rb_items Item b <> [] /\ Permutation (rb_left Item b) (seq 0 (length (rb_items Item b)))) src ->
  (N.of_nat (length srv) < max32)%N -> Forall (fun e => (snd e < max32)%N) srv -> (N.of_nat (length cli) < max32)%N ->
  NoDup (map fst cli) -> Permutation cli ((y, dy) :: concat client2) ->
  (forall x z, In x (map fst srv ++ map fst cli) -> In z (map fst srv ++ map fst cli) -> simple_eval x = simple_eval z -> x = z) ->
  0 < bsg -> 0 < bst -> 0 < bs1 -> 0 < bs2 -> good_shuf shuf1 -> good_shuf shuf2 ->
  offline_server Item simple_eval cl priv bsg moved src = Ok c -> offline_transfer cl bst c = Ok d ->
  exists info1 info2 ev1 ev2 b,
    ubt_serve evaluate pl bs1 shuf1 (map (blind_msg Item blind1 sg1) client1) = Ok (info1, ev1) /\
    ubt_serve evaluate pl bs2 shuf2 (map (blind_msg Item blind2 sg2) client2) = Ok (info2, ev2) /\
    infer fin1 fin2 cl pl ev1 ev2 d = Ok b /\ (b = true <-> In y (map fst srv)).
Proof using All.
  intros src client1 client2 y dy priv moved bsg bst bs1 bs2 shuf1 shuf2 sg1 sg2 c d srv cli H1 H2 H3 H4 H5 HP HI G1 G2 G3 G4 S1 S2 EC ED.
  destruct (offline_spec Item simple_eval cl cl_pos cl_max eval_len src H1 H2 H3 priv moved bsg bst G1 G2) as (es & c' & d' & PS & E1 & E2 & _ & E4).
  rewrite EC in E1. inversion E1; subst c'. rewrite ED in E2. inversion E2; subst d'.
  assert (L2 : (N.of_nat (length (concat client2)) < max32)%N) by (apply Permutation_length in HP; cbn in HP; lia).
  destruct (served_shuf Item simple_eval blind1 evaluate fin1 pl pl_pos blind1_len evaluate1_len oprf1 bs1 shuf1 sg1 client1 G3 S1 H4) as (i1 & F1 & F2 & F3 & _).
  destruct (served_shuf Item simple_eval blind2 evaluate fin2 pl pl_pos blind2_len evaluate2_len oprf2 bs2 shuf2 sg2 client2 G4 S2 L2) as (i2 & K1 & K2 & K3 & _).
  fold cli in F1, F2, F3. set (cli1 := pick cli (shuf1 (length cli))) in *. set (cli2 := pick (concat client2) (shuf2 (length (concat client2)))) in *.
  destruct (E4 1 ltac:(lia)) as (B & P1 & P2 & _).
  exists i1, i2. eexists _, _, _. split; [exact F1|]. split; [exact K1|]. split.
  { unfold infer. rewrite F2, K2. cbn [bind]. rewrite P1. cbn [bind]. reflexivity. }
  unfold known_value. rewrite P2, !map_map. cbn [fst]. rewrite existsb_exists.
  assert (IS : forall v, In v (map (fun x : sentry Item => cr_data (rec_of Item simple_eval x)) es) <-> exists x, In x (map fst srv) /\ simple_eval x = v).
  { intros v. rewrite in_map_iff. cbn [rec_of cr_data]. split.
    - intros (e & <- & I). exists (fst (fst (fst e))). split; [|reflexivity]. apply in_map. eapply nth_error_In. apply (es_srv Item src es PS). exact I.
    - intros (x & I & <-). apply in_map_iff in I. destruct I as ([x' n] & Q & I). cbn in Q. subst x'. apply In_nth_error in I. destruct I as (o & I).
      destruct (es_all Item src es PS o _ I) as (k & e & A & _ & _ & D). exists e. cbn. rewrite D. split; [reflexivity|eapply nth_error_In; exact A]. }
  split.
  - intros (v & Iv & T). apply andb_true_iff in T. destruct T as (T1 & T2). apply existsb_beqb in T2. apply negb_true_iff in T1.
    apply in_map_iff in Iv. destruct Iv as (e & Q & Ie). apply (Permutation_in _ F3) in Ie. apply IS in T2. destruct T2 as (x & Ix & Ex).
    assert (X : x = fst e).
    { apply HI; [apply in_or_app; left; exact Ix|apply in_or_app; right; apply in_map; exact Ie|congruence]. }
    subst x. apply (Permutation_in _ HP) in Ie. destruct Ie as [<-|Ie]; [exact Ix|]. exfalso.
    assert (Z : existsb (beqb v) (map (fun x : Item * N => simple_eval (fst x)) cli2) = true); [|congruence].
    apply existsb_beqb. apply in_map_iff. exists e. split; [exact Q|]. apply (Permutation_in _ (Permutation_sym K3)). exact Ie.
  - intros Iy. exists (simple_eval y).
    assert (IY : In (y, dy) cli) by (apply (Permutation_in _ (Permutation_sym HP)); left; reflexivity).
    split; [apply in_map_iff; exists (y, dy); split; [reflexivity|apply (Permutation_in _ (Permutation_sym F3)); exact IY]|].
    apply andb_true_iff. split; [|apply existsb_beqb; apply IS; exists y; auto].
    apply negb_true_iff. destruct (existsb _ _) eqn:T; [|reflexivity]. exfalso. apply existsb_beqb in T. apply in_map_iff in T. destruct T as (e & Q & Ie).
    apply (Permutation_in _ K3) in Ie.
    assert (Je : In e cli) by (apply (Permutation_in _ (Permutation_sym HP)); right; exact Ie).
    assert (X : fst e = y).
    { apply HI; [apply in_or_app; right; apply in_map; exact Je|apply in_or_app; left; exact Iy|exact Q]. }
    assert (N := Permutation_NoDup (Permutation_map fst HP) H5). cbn [map fst] in N. inversion N as [|? ? N1 _]; subst. apply N1. apply in_map. exact Ie.
Qed.
End Two.
