(** C72, C73: differentially private two-party PSI. *)
From Coq Require Import List NArith Bool Arith Lia Reals Lra Sorting.Permutation Sorting.Sorted.
From Verif Require Import Base BaseProofs Text TextProofs StoreModel EcdhModel Ecdh3pcModel DpPsiModel DpPsiSpec DpPsiProofs DpPsiProb.
Import ListNotations.

(** The receiver's result as a function of the coins: of the rows the receiver sampled, those
    the other party holds and whose coin of probability p2 came up and those it does not hold
    and whose coin of probability q came up, by increasing position in the receiver's input;
    nothing at all if the other party holds every sampled row. *)
Theorem C72_dp_psi_result :
  forall (Point : Type) (hash_point : bytes -> Point) (mask : nat -> Point -> Point)
         (ser : Point -> bytes) (deser : bytes -> Point) (L dual_mask_size bsz idx_batch : nat)
         (srt : list bytes -> list bytes) (A B : list bytes) (shuffled : list nat) (c1 c2 cq : nat -> bool),
  let dual x := last_bytes dual_mask_size (ser (mask 0 (mask 1 (hash_point x)))) in
  let sampled := kept c1 shuffled in
  let common := filter (fun j => held A (nth j B [])) sampled in
  let other := filter (fun j => negb (held A (nth j B []))) sampled in
  (forall x, deser (ser x) = x) -> (forall x, length (ser x) = L) -> dual_mask_size <= L ->
  0 < bsz -> 0 < idx_batch -> (forall x, mask 0 (mask 1 x) = mask 1 (mask 0 x)) ->
  (forall l, Permutation (srt l) l) ->
  Permutation shuffled (seq 0 (length B)) ->
  (forall x y, In x A -> In y B -> dual x = dual y -> x = y) ->
  exists out,
    dp_run Point hash_point mask ser deser dual_mask_size bsz idx_batch srt A B shuffled c1 c2 cq = Ok out /\
    dp_bob_sub out = length B - length sampled /\
    dp_items out = map (fun j => nth j B []) (dp_bob_idx out) /\
    da_return (dp_alice_res out) = length (dp_bob_idx out) /\
    match other with
    | [] => dp_bob_idx out = []
    | _ => StronglySorted lt (dp_bob_idx out) /\
           Permutation (dp_bob_idx out) (kept c2 common ++ kept cq other) /\
           da_sub (dp_alice_res out) = length common - length (kept c2 common) /\
           da_up (dp_alice_res out) = length (kept cq other)
    end.
Proof.
  intros Point hash_point mask ser deser L dms bsz ib srt A B shuffled c1 c2 cq dual sampled common other
    DS LS HD HB HI CM SP PS INJ.
  apply (run_spec Point hash_point mask ser deser L dms bsz ib srt DS LS HD HB HI CM SP); assumption.
Qed.
Print Assumptions C72_dp_psi_result.

(** The indices the receiver gets reassemble from their batches, however many there are. *)
Theorem C72_index_batches : forall batch l, 0 < batch -> dp_recv (length l) (dp_send batch l) = Ok l.
Proof. exact recv_send_all. Qed.
Print Assumptions C72_index_batches.

(** With no noise (every row sampled and kept, none added) the result is the intersection in the
    receiver's order, as long as one row of the receiver's is not common. *)
Lemma kept_all : forall {A : Type} (l : list A), kept (fun _ => true) l = l.
Proof. intros A l. rewrite <- samples_kept. generalize 0. induction l as [|x r IH]; intros k; [reflexivity|]. cbn [dp_samples]. rewrite IH. reflexivity. Qed.
Lemma kept_none : forall {A : Type} (l : list A), kept (fun _ => false) l = [].
Proof. intros A l. rewrite <- samples_kept. generalize 0. induction l as [|x r IH]; intros k; [reflexivity|]. cbn [dp_samples]. apply IH. Qed.
Lemma filter_perm : forall {A : Type} (f : A -> bool) l l', Permutation l l' -> Permutation (filter f l) (filter f l').
Proof.
  intros A f l l' P. induction P as [|x l l' P IH|x y l|l l' l'' P1 IH1 P2 IH2]; cbn [filter].
  - constructor.
  - destruct (f x); [constructor|]; exact IH.
  - destruct (f x), (f y); try reflexivity. apply perm_swap.
  - rewrite IH1. exact IH2.
Qed.
Lemma filter_sorted : forall (f : nat -> bool) n i, StronglySorted le (filter f (seq i n)).
Proof.
  intros f n. induction n as [|n IH]; intros i; [constructor|]. cbn [seq filter]. destruct (f i); [|apply IH].
  constructor; [apply IH|]. rewrite Forall_forall. intros j Hj. apply filter_In in Hj. destruct Hj as [Hj _].
  apply in_seq in Hj. lia.
Qed.
Lemma sorted_le : forall l, StronglySorted lt l -> StronglySorted le l.
Proof.
  intros l H. induction H as [|x l H IH F]; constructor; [exact IH|]. rewrite Forall_forall in *. intros y Hy.
  apply Nat.lt_le_incl, F, Hy.
Qed.

Theorem C72_no_noise :
  forall (Point : Type) (hash_point : bytes -> Point) (mask : nat -> Point -> Point)
         (ser : Point -> bytes) (deser : bytes -> Point) (L dual_mask_size bsz idx_batch : nat)
         (srt : list bytes -> list bytes) (A B : list bytes) (shuffled : list nat),
  let dual x := last_bytes dual_mask_size (ser (mask 0 (mask 1 (hash_point x)))) in
  (forall x, deser (ser x) = x) -> (forall x, length (ser x) = L) -> dual_mask_size <= L ->
  0 < bsz -> 0 < idx_batch -> (forall x, mask 0 (mask 1 x) = mask 1 (mask 0 x)) ->
  (forall l, Permutation (srt l) l) ->
  Permutation shuffled (seq 0 (length B)) ->
  (forall x y, In x A -> In y B -> dual x = dual y -> x = y) ->
  (exists y, In y B /\ ~ In y A) ->
  exists out,
    dp_run Point hash_point mask ser deser dual_mask_size bsz idx_batch srt A B shuffled
      (fun _ => true) (fun _ => true) (fun _ => false) = Ok out /\
    dp_bob_idx out = filter (fun j => held A (nth j B [])) (seq 0 (length B)).
Proof.
  intros Point hash_point mask ser deser L dms bsz ib srt A B shuffled dual DS LS HD HB HI CM SP PS INJ (y & Hy & Ny).
  destruct (C72_dp_psi_result Point hash_point mask ser deser L dms bsz ib srt A B shuffled
              (fun _ => true) (fun _ => true) (fun _ => false) DS LS HD HB HI CM SP PS INJ) as (out & E & _ & _ & _ & H).
  exists out. split; [exact E|]. rewrite kept_all in H.
  destruct (filter (fun j => negb (held A (nth j B []))) shuffled) as [|n r] eqn:F.
  - exfalso. destruct (In_nth B y [] Hy) as (j & Hj & Ej).
    assert (I : In j (filter (fun j => negb (held A (nth j B []))) shuffled)).
    { apply filter_In. split; [apply (Permutation_in _ (Permutation_sym PS)), in_seq; lia|]. rewrite Ej.
      destruct (held A y) eqn:Z; [apply held_In in Z; contradiction|reflexivity]. }
    rewrite F in I. contradiction.
  - destruct H as (HS & HP & _). apply sorted_unique; [apply sorted_le, HS | apply filter_sorted |].
    rewrite HP, kept_all, kept_none, app_nil_r. apply filter_perm, PS.
Qed.
Print Assumptions C72_no_noise.

(** A small instance: points are pairs, masks add a key. *)
Definition ex_hash (x : bytes) : N * N := (nth 0 x 0%N, N.of_nat (length x)).
Definition ex_mask (r : nat) (p : N * N) : N * N := (fst p + 3 * N.of_nat r + 1, snd p)%N.
Definition ex_ser (p : N * N) : bytes := [snd p; fst p].
Definition ex_deser (b : bytes) : N * N := (nth 1 b 0%N, nth 0 b 0%N).
Definition ex_run (A B : list bytes) (sh : list nat) (c1 c2 cq : nat -> bool) : outcome dp_out :=
  dp_run (N * N) ex_hash ex_mask ex_ser ex_deser 2 2 2 (fun l => rev l) A B sh c1 c2 cq.
Definition ex_A : list bytes := [[5]; [9]; [7]]%N.
Definition ex_B : list bytes := [[9]; [8]; [5]; [6]; [7]]%N.
Lemma ex_ser_ok : (forall x, ex_deser (ex_ser x) = x) /\ (forall x, length (ex_ser x) = 2) /\
  (forall x, ex_mask 0 (ex_mask 1 x) = ex_mask 1 (ex_mask 0 x)).
Proof.
  repeat split; try (intros [a b]; reflexivity). intros [a b]. unfold ex_mask. cbn [fst snd]. f_equal. lia.
Qed.
Lemma ex_inj : forall x y, In x ex_A -> In y ex_B ->
  last_bytes 2 (ex_ser (ex_mask 0 (ex_mask 1 (ex_hash x)))) = last_bytes 2 (ex_ser (ex_mask 0 (ex_mask 1 (ex_hash y)))) -> x = y.
Proof.
  intros x y Hx Hy E. cbn in Hx, Hy.
  destruct Hx as [<-|[<-|[<-|[]]]]; destruct Hy as [<-|[<-|[<-|[<-|[<-|[]]]]]]; try reflexivity; discriminate E.
Qed.
(** Rows 2, 4, 1, 0 are sampled in this order; 2, 4 and 0 are common and 2 is dropped; 1 is added. *)
Example C72_example : exists out,
  ex_run ex_A ex_B [2; 3; 4; 1; 0] (fun k => negb (Nat.eqb k 1)) (fun k => negb (Nat.eqb k 0)) (fun _ => true) = Ok out /\
  dp_bob_idx out = [0; 1; 4] /\ dp_items out = [[9]; [8]; [7]]%N /\ dp_bob_sub out = 1 /\
  da_return (dp_alice_res out) = 3 /\ da_sub (dp_alice_res out) = 1 /\ da_up (dp_alice_res out) = 1.
Proof. eexists. repeat split. Qed.
Example C72_example_hypotheses :
  Permutation [2; 3; 4; 1; 0] (seq 0 (length ex_B)) /\ (forall l : list bytes, Permutation (rev l) l) /\
  exists y, In y ex_B /\ ~ In y ex_A.
Proof.
  split; [|split].
  - apply NoDup_Permutation.
    + repeat constructor; cbn; lia.
    + apply seq_NoDup.
    + intros x. rewrite in_seq. cbn. lia.
  - intros l. apply Permutation_sym, Permutation_rev.
  - exists [8]%N. split; [right; left; reflexivity|]. intros [Z|[Z|[Z|[]]]]; discriminate Z.
Qed.

(** Without the proviso the result is not the intersection: when every row of the receiver's is
    common, nothing is reported. *)
Theorem C72_all_common_refuted :
  exists (Point : Type) (hash_point : bytes -> Point) (mask : nat -> Point -> Point)
         (ser : Point -> bytes) (deser : bytes -> Point) (L dual_mask_size bsz idx_batch : nat)
         (srt : list bytes -> list bytes) (A B : list bytes) (shuffled : list nat),
  let dual x := last_bytes dual_mask_size (ser (mask 0 (mask 1 (hash_point x)))) in
  (forall x, deser (ser x) = x) /\ (forall x, length (ser x) = L) /\ dual_mask_size <= L /\
  0 < bsz /\ 0 < idx_batch /\ (forall x, mask 0 (mask 1 x) = mask 1 (mask 0 x)) /\
  (forall l, Permutation (srt l) l) /\ Permutation shuffled (seq 0 (length B)) /\
  (forall x y, In x A -> In y B -> dual x = dual y -> x = y) /\
  exists out,
    dp_run Point hash_point mask ser deser dual_mask_size bsz idx_batch srt A B shuffled
      (fun _ => true) (fun _ => true) (fun _ => false) = Ok out /\
    dp_bob_idx out = [] /\ filter (fun j => held A (nth j B [])) (seq 0 (length B)) = [0; 1].
Proof.
  exists (N * N)%type, ex_hash, ex_mask, ex_ser, ex_deser, 2, 2, 2, 2, (fun l => l), ex_A, [[9]; [7]]%N, [0; 1].
  destruct ex_ser_ok as (H1 & H2 & H3). cbv zeta.
  split; [exact H1|]. split; [exact H2|]. split; [lia|]. split; [lia|]. split; [lia|]. split; [exact H3|].
  split; [intros l; apply Permutation_refl|]. split; [apply Permutation_refl|]. split.
  - intros x y Hx Hy. apply ex_inj; [exact Hx|]. destruct Hy as [<-|[<-|[]]]; cbn; tauto.
  - eexists. repeat split.
Qed.
Print Assumptions C72_all_common_refuted.

(** * Privacy.  The probability, over alice's coins, of an event about the indices bob receives. *)
Definition answer_prob (p q : R) (exchange : (nat -> bool) -> (nat -> bool) -> outcome dp_alice_out)
  (A B : list bytes) (event : list nat -> bool) : R :=
  probability (length (filter (held A) B)) p (length (filter (fun y => negb (held A y)) B)) q
    (fun c2 cq => match exchange c2 cq with Ok a => event (da_sent a) | _ => false end).

Lemma where_len : forall (f : bytes -> bool) l, length (map fst (filter (fun p => f (snd p)) (number 0 l))) = length (filter f l).
Proof.
  intros f l. rewrite map_length. generalize 0. induction l as [|x r IH]; intros i; [reflexivity|]. cbn [number filter snd].
  destruct (f x); cbn [length]; rewrite IH; reflexivity.
Qed.

Section Privacy.
Variable Point : Type.
Variable hash_point : bytes -> Point.
Variable mask : nat -> Point -> Point.
Variable ser : Point -> bytes.
Variable deser : bytes -> Point.
Variables L dual_mask_size bsz : nat.
Variable srt : list bytes -> list bytes.
Hypothesis DS : forall x, deser (ser x) = x.
Hypothesis LS : forall x, length (ser x) = L.
Hypothesis HD : dual_mask_size <= L.
Hypothesis HB : 0 < bsz.
Hypothesis CM : forall x, mask 0 (mask 1 x) = mask 1 (mask 0 x).
Hypothesis SP : forall l, Permutation (srt l) l.
Let dual x := last_bytes dual_mask_size (ser (mask 0 (mask 1 (hash_point x)))).
Let exchange := dp_exchange Point hash_point mask ser deser dual_mask_size bsz srt.

Lemma answer_sent : forall p q A B event, (forall x y, In x A -> In y B -> dual x = dual y -> x = y) ->
  answer_prob p q (exchange A B) A B event = sent_prob p q A B event.
Proof using DS LS HD HB CM SP.
  intros p q A B event INJ. unfold answer_prob, sent_prob, where_in, where_out.
  rewrite <- !where_len. apply probability_ext. intros c2 cq. unfold exchange.
  rewrite (exchange_spec Point hash_point mask ser deser L) by assumption. reflexivity.
Qed.

(** Every row bob sampled is reported on its own, with the two probabilities, unless all are
    common. *)
Theorem C73_answer_law : forall p q A B b,
  (forall x y, In x A -> In y B -> dual x = dual y -> x = y) ->
  (exists y, In y B /\ ~ In y A) -> length b = length B ->
  answer_prob p q (exchange A B) A B
    (fun m => if list_eq_dec Nat.eq_dec m (picked 0 b) then true else false) =
  report_weight p q (map (held A) B) b.
Proof using DS LS HD HB CM SP.
  intros p q A B b INJ (y & Hy & Ny) Lb. rewrite answer_sent by exact INJ.
  rewrite sent_prob_sum by (apply (where_out_ne A B y); assumption).
  rewrite <- (one_answer p q (map (held A) B) 0 b) by (rewrite map_length; exact Lb). rewrite map_length.
  apply sumR_ext. intros x. destruct (list_eq_dec Nat.eq_dec (picked 0 x) (picked 0 b)); reflexivity.
Qed.

(** Two sets of alice's that differ in one item: what bob receives is at most e^eps times as
    likely, for every occurrence of the item among bob's sampled rows.  Partial: needs a sampled
    row that is not common on both sides. *)
Theorem C73_private_partial : forall eps z A A' B event, (0 <= eps)%R ->
  (forall x, x <> z -> (In x A <-> In x A')) ->
  (forall x y, In x A -> In y B -> dual x = dual y -> x = y) ->
  (forall x y, In x A' -> In y B -> dual x = dual y -> x = y) ->
  (exists y, In y B /\ ~ In y A) -> (exists y, In y B /\ ~ In y A') ->
  (answer_prob (keep_prob eps) (fake_prob eps) (exchange A B) A B event <=
   exp eps ^ occurrences z B * answer_prob (keep_prob eps) (fake_prob eps) (exchange A' B) A' B event)%R.
Proof using DS LS HD HB CM SP.
  intros eps z A A' B event He H I1 I2 (y & Hy & Ny) (y' & Hy' & Ny').
  destruct (keep_fake eps He) as (F & K & E & E1). rewrite !answer_sent by assumption. rewrite K.
  apply sent_ratio; auto.
  - apply (where_out_ne A B y); assumption.
  - apply (where_out_ne A' B y'); assumption.
Qed.

(** In particular by at most e^eps when bob's rows are distinct. *)
Theorem C73_private_distinct_partial : forall eps z A A' B event, (0 <= eps)%R -> NoDup B ->
  (forall x, x <> z -> (In x A <-> In x A')) ->
  (forall x y, In x A -> In y B -> dual x = dual y -> x = y) ->
  (forall x y, In x A' -> In y B -> dual x = dual y -> x = y) ->
  (exists y, In y B /\ ~ In y A) -> (exists y, In y B /\ ~ In y A') ->
  (answer_prob (keep_prob eps) (fake_prob eps) (exchange A B) A B event <=
   exp eps * answer_prob (keep_prob eps) (fake_prob eps) (exchange A' B) A' B event)%R.
Proof using DS LS HD HB CM SP.
  intros eps z A A' B event He ND H I1 I2 N N'.
  eapply Rle_trans; [apply (C73_private_partial eps z A A' B event He H I1 I2 N N')|].
  apply Rmult_le_compat_r.
  - rewrite answer_sent by exact I2. destruct N' as (y & Hy & Ny).
    rewrite sent_prob_sum by (apply (where_out_ne A' B y); assumption).
    destruct (keep_fake eps He) as (F & K & _). rewrite K.
    apply Rle_trans with (sumR (fun _ : list bool => 0 * 0)%R (coin_lists (length B))); [rewrite (sumR_scal (fun _ : list bool => 0%R)); lra|].
    apply sumR_le. intros b _. rewrite Rmult_0_l. apply Rmult_le_pos; [apply weight_nonneg; lra|].
    destruct (event (picked 0 b)); lra.
  - assert (O : occurrences z B <= 1).
    { unfold occurrences. clear -ND. induction ND as [|x l Hx ND IH]; [cbn; lia|]. cbn [filter].
      destruct (beqb z x) eqn:E; [|exact IH]. apply beqb_spec in E. subst x. cbn [length].
      assert (Z : filter (beqb z) l = []).
      { destruct (filter (beqb z) l) as [|w r] eqn:Ef; [reflexivity|]. exfalso. apply Hx.
        assert (I : In w (filter (beqb z) l)) by (rewrite Ef; left; reflexivity). apply filter_In in I.
        destruct I as [I E]. apply beqb_spec in E. subst w. exact I. }
      rewrite Z. cbn. lia. }
    pose proof (exp_ineq1_le eps) as E1.
    destruct (occurrences z B) as [|[|n]]; [cbn; lra | cbn; lra | lia].
Qed.

(** When alice holds every sampled row, nothing is reported, whatever the coins. *)
Theorem C73_all_common : forall p q A B event,
  (forall x y, In x A -> In y B -> dual x = dual y -> x = y) -> (forall y, In y B -> In y A) ->
  answer_prob p q (exchange A B) A B event = if event [] then 1%R else 0%R.
Proof using DS LS HD HB CM SP. intros p q A B event INJ H. rewrite answer_sent by exact INJ. apply sent_full, H. Qed.
End Privacy.
Print Assumptions C73_answer_law.
Print Assumptions C73_private_partial.
Print Assumptions C73_private_distinct_partial.
Print Assumptions C73_all_common.

Definition ex_exchange (A B : list bytes) := dp_exchange (N * N) ex_hash ex_mask ex_ser ex_deser 2 2 (fun l => rev l) A B.
(** The sets of the example differ in the item 7: reporting rows 0 and 4 only. *)
Example C73_example : forall p q,
  answer_prob p q (ex_exchange ex_A ex_B) ex_A ex_B
    (fun m => if list_eq_dec Nat.eq_dec m [0; 4] then true else false) = (p * ((1 - q) * ((1 - p) * ((1 - q) * (p * 1)))))%R.
Proof.
  intros p q. destruct ex_ser_ok as (H1 & H2 & H3).
  apply (C73_answer_law (N * N) ex_hash ex_mask ex_ser ex_deser 2 2 2 (fun l => rev l)) with (b := [true; false; false; false; true]); auto.
  - intros l. apply Permutation_sym, Permutation_rev.
  - exact ex_inj.
  - exact (proj2 (proj2 C72_example_hypotheses)).
Qed.
Example C73_example_hypotheses : let A' := [[5]; [9]]%N in
  NoDup ex_B /\ (forall x, x <> [7]%N -> (In x ex_A <-> In x A')) /\ (exists y, In y ex_B /\ ~ In y A').
Proof.
  cbv zeta. split; [|split].
  - unfold ex_B. repeat constructor; cbn; intuition discriminate.
  - intros x Hx. cbn. intuition congruence.
  - exists [8]%N. split; [right; left; reflexivity|]. cbn. intuition discriminate.
Qed.

(** Without the proviso there is no bound: removing one item of alice's can make an answer
    possible that was impossible, for every privacy budget. *)
Theorem C73_private_refuted :
  exists (Point : Type) (hash_point : bytes -> Point) (mask : nat -> Point -> Point)
         (ser : Point -> bytes) (deser : bytes -> Point) (L dual_mask_size bsz : nat)
         (srt : list bytes -> list bytes) (A A' B : list bytes) (z : bytes) (event : list nat -> bool),
  let dual x := last_bytes dual_mask_size (ser (mask 0 (mask 1 (hash_point x)))) in
  let exchange := dp_exchange Point hash_point mask ser deser dual_mask_size bsz srt in
  (forall x, deser (ser x) = x) /\ (forall x, length (ser x) = L) /\ dual_mask_size <= L /\ 0 < bsz /\
  (forall x, mask 0 (mask 1 x) = mask 1 (mask 0 x)) /\ (forall l, Permutation (srt l) l) /\
  NoDup B /\ (forall x, x <> z -> (In x A <-> In x A')) /\
  (forall x y, In x A -> In y B -> dual x = dual y -> x = y) /\
  (forall x y, In x A' -> In y B -> dual x = dual y -> x = y) /\
  forall eps K, (0 <= eps)%R ->
  (answer_prob (keep_prob eps) (fake_prob eps) (exchange A' B) A' B event >
   K * answer_prob (keep_prob eps) (fake_prob eps) (exchange A B) A B event)%R.
Proof.
  exists (N * N)%type, ex_hash, ex_mask, ex_ser, ex_deser, 2, 2, 2, (fun l => l), ex_A, [[5]; [9]]%N, [[9]; [7]]%N, [7]%N,
    (fun m => match m with [] => false | _ => true end).
  destruct ex_ser_ok as (H1 & H2 & H3). cbv zeta.
  split; [exact H1|]. split; [exact H2|]. split; [lia|]. split; [lia|]. split; [exact H3|].
  split; [intros l; apply Permutation_refl|].
  split; [repeat constructor; cbn; intuition discriminate|].
  split; [intros x Hx; cbn; intuition congruence|].
  assert (J : forall x y, In x ex_A -> In y [[9]; [7]]%N ->
     last_bytes 2 (ex_ser (ex_mask 0 (ex_mask 1 (ex_hash x)))) = last_bytes 2 (ex_ser (ex_mask 0 (ex_mask 1 (ex_hash y)))) -> x = y).
  { intros x y Hx Hy. apply ex_inj; [exact Hx|]. destruct Hy as [<-|[<-|[]]]; cbn; tauto. }
  split; [exact J|]. split; [intros x y Hx; apply J; destruct Hx as [<-|[<-|[]]]; cbn; tauto|].
  intros eps K He. destruct (keep_fake eps He) as (F & Q & _).
  rewrite (C73_all_common (N * N) ex_hash ex_mask ex_ser ex_deser 2 2 2 (fun l => l) H1 H2 (le_n 2) (Nat.lt_0_succ 1) H3 (fun l => Permutation_refl l) _ _ ex_A [[9]; [7]]%N); [|exact J|].
  2:{ intros y [<-|[<-|[]]]; cbn; tauto. }
  rewrite Rmult_0_r. rewrite Q. unfold answer_prob, probability. cbn. set (q := fake_prob eps) in *. nra.
Qed.
Print Assumptions C73_private_refuted.

(** Bob believes what alice announces: a batch longer than the announced size is written past
    the end of the vector, and an index beyond the sampled rows is read out of range. *)
Theorem C72_bob_checks_refuted :
  (exists size ms, dp_recv size ms = UB) /\ (exists second size ms, dp_bob_result second size ms = UB /\ dp_recv size ms <> UB).
Proof.
  split.
  - exists 1, [(true, [0; 1])]. reflexivity.
  - exists [4; 2], 1, [(true, [2])]. split; [reflexivity|discriminate].
Qed.
Print Assumptions C72_bob_checks_refuted.
