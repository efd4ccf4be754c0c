From Coq Require Import List NArith Bool Arith Lia Reals Lra Sorting.Permutation Sorting.Sorted.
From Verif Require Import Base BaseProofs Text TextProofs StoreModel EcdhModel EcdhProofs Ecdh3pcModel Ecdh3pcProofs DpPsiModel DpPsiSpec.
Import ListNotations.

Lemma filter_number_shift : forall {A : Type} (f : nat -> bool) (l : list A) k,
  map snd (filter (fun p => f (fst p)) (number (S k) l)) =
  map snd (filter (fun p => f (S (fst p))) (number k l)).
Proof.
  intros A f l. induction l as [|x r IH]; intros k; [reflexivity|]. cbn [number filter fst].
  destruct (f (S k)); cbn [map snd]; rewrite (IH (S k)); reflexivity.
Qed.

Lemma samples_gen : forall {A : Type} (l : list A) coin k,
  dp_samples coin k l = map snd (filter (fun p => coin (fst p)) (number k l)).
Proof.
  intros A l. induction l as [|x r IH]; intros coin k; [reflexivity|]. cbn [dp_samples number filter fst].
  rewrite IH. destruct (coin k); reflexivity.
Qed.
Lemma samples_kept : forall {A : Type} (l : list A) coin, dp_samples coin 0 l = kept coin l.
Proof. intros. apply samples_gen. Qed.
Lemma samples_shift : forall {A : Type} (l : list A) coin k,
  dp_samples coin (S k) l = dp_samples (fun j => coin (S j)) k l.
Proof.
  intros A l. induction l as [|x r IH]; intros coin k; [reflexivity|]. cbn [dp_samples]. rewrite IH. reflexivity.
Qed.
Lemma samples_map : forall {A B : Type} (f : A -> B) (l : list A) coin k,
  dp_samples coin k (map f l) = map f (dp_samples coin k l).
Proof.
  intros A B f l. induction l as [|x r IH]; intros coin k; [reflexivity|]. cbn [map dp_samples].
  rewrite IH. destruct (coin k); reflexivity.
Qed.
Lemma samples_incl : forall {A : Type} (l : list A) coin k x, In x (dp_samples coin k l) -> In x l.
Proof.
  intros A l. induction l as [|y r IH]; intros coin k x H; [contradiction|]. cbn [dp_samples] in H.
  destruct (coin k); [destruct H as [->|H]; [left; reflexivity|]|]; right; apply (IH _ _ _ H).
Qed.
Lemma samples_nodup : forall {A : Type} (l : list A) coin k, NoDup l -> NoDup (dp_samples coin k l).
Proof.
  intros A l. induction l as [|y r IH]; intros coin k H; [constructor|]. cbn [dp_samples]. inversion H; subst.
  destruct (coin k); [constructor|]; auto. intros Z. apply samples_incl in Z. contradiction.
Qed.
Lemma samples_length : forall {A : Type} (l : list A) coin k, length (dp_samples coin k l) <= length l.
Proof.
  intros A l. induction l as [|y r IH]; intros coin k; [apply Nat.le_refl|]. cbn [dp_samples].
  specialize (IH coin (S k)). destruct (coin k); cbn [length]; lia.
Qed.

(** Sorting. *)
Lemma dp_insert_perm : forall x l, Permutation (dp_insert x l) (x :: l).
Proof.
  intros x l. induction l as [|y r IH]; [reflexivity|]. cbn [dp_insert]. destruct (Nat.leb x y); [reflexivity|].
  rewrite IH. apply perm_swap.
Qed.
Lemma dp_sort_perm : forall l, Permutation (dp_sort l) l.
Proof. induction l as [|x r IH]; [reflexivity|]. cbn [dp_sort]. rewrite dp_insert_perm, IH. reflexivity. Qed.
Lemma dp_insert_sorted : forall x l, StronglySorted le l -> StronglySorted le (dp_insert x l).
Proof.
  intros x l. induction l as [|y r IH]; intros H; [repeat constructor|]. cbn [dp_insert].
  inversion H as [|? ? H1 H2]; subst.
  destruct (Nat.leb x y) eqn:E; [apply Nat.leb_le in E | apply Nat.leb_gt in E].
  - constructor; [exact H|]. constructor; [exact E|]. rewrite Forall_forall in *. intros z Iz. specialize (H2 z Iz). lia.
  - constructor; [auto|]. rewrite Forall_forall in *. intros z Iz.
    apply (Permutation_in _ (dp_insert_perm x r)) in Iz. destruct Iz as [<-|Iz]; [lia|auto].
Qed.
Lemma dp_sort_sorted : forall l, StronglySorted le (dp_sort l).
Proof. induction l as [|x r IH]; [constructor|]. cbn [dp_sort]. apply dp_insert_sorted, IH. Qed.
Lemma sorted_lt : forall l, StronglySorted le l -> NoDup l -> StronglySorted lt l.
Proof.
  induction l as [|x r IH]; intros H N; [constructor|]. inversion H as [|? ? H1 H2]; subst. inversion N as [|? ? N1 N2]; subst.
  constructor; [auto|]. rewrite Forall_forall in *. intros z Iz. specialize (H2 z Iz).
  destruct (Nat.eq_dec x z) as [->|]; [contradiction|lia].
Qed.
Lemma sorted_unique : forall l l', StronglySorted le l -> StronglySorted le l' -> Permutation l l' -> l = l'.
Proof.
  induction l as [|x r IH]; intros [|y r'] H H' P.
  - reflexivity.
  - apply Permutation_nil in P. discriminate P.
  - apply Permutation_sym, Permutation_nil in P. discriminate P.
  - assert (E : x = y).
    { inversion H as [|? ? _ H2]; subst. inversion H' as [|? ? _ H2']; subst. rewrite Forall_forall in *.
      assert (Ix : In x (y :: r')) by (apply (Permutation_in _ P); left; reflexivity).
      assert (Iy : In y (x :: r)) by (apply (Permutation_in _ (Permutation_sym P)); left; reflexivity).
      destruct Ix as [->|Ix]; [reflexivity|]. destruct Iy as [->|Iy]; [reflexivity|].
      specialize (H2 _ Iy). specialize (H2' _ Ix). lia. }
    subst y. f_equal. inversion H; subst. inversion H'; subst. apply IH; auto.
    apply Permutation_cons_inv with x. exact P.
Qed.

(** The split. *)
Lemma split_spec : forall self l i,
  dp_split self i l =
  (map fst (filter (fun p => held self (snd p)) (number i l)),
   map fst (filter (fun p => negb (held self (snd p))) (number i l))).
Proof.
  intros self l. induction l as [|c r IH]; intros i; [reflexivity|]. cbn [dp_split number filter snd].
  rewrite IH. change (existsb (beqb c) self) with (held self c). destruct (held self c); reflexivity.
Qed.

(** The index batches. *)
Lemma firstn_skipn_app : forall {A : Type} (l : list A) i b,
  firstn i l ++ firstn b (skipn i l) = firstn (i + b) l.
Proof.
  intros A l. induction l as [|x r IH]; intros i b.
  - rewrite skipn_nil, !firstn_nil. reflexivity.
  - destruct i as [|i]; [reflexivity|]. cbn [firstn skipn app Nat.add]. rewrite IH. reflexivity.
Qed.
Lemma recv_send_idx : forall b l fuel i, 0 < b -> i < length l -> length l - i <= fuel ->
  dp_recv_loop (length l) (firstn i l) (dp_send_loop fuel b i l) = Ok l.
Proof.
  intros b l fuel. induction fuel as [|f IH]; intros i Hb Hi Hf; [lia|].
  cbn [dp_send_loop]. rewrite (proj2 (Nat.ltb_lt i (length l)) Hi).
  destruct (Nat.ltb (i + b) (length l)) eqn:E.
  - apply Nat.ltb_lt in E. cbn [dp_recv_loop]. rewrite firstn_skipn_app.
    assert (E1 : Nat.ltb (length l) (length (firstn (i + b) l)) = false).
    { apply Nat.ltb_ge. rewrite firstn_length. lia. }
    rewrite E1. apply IH; lia.
  - cbn [dp_recv_loop]. rewrite firstn_skipn_app. replace (i + (length l - i)) with (length l) by lia.
    rewrite firstn_all, Nat.ltb_irrefl, Nat.sub_diag. cbn [repeat]. rewrite app_nil_r. reflexivity.
Qed.
Lemma recv_send_all : forall b l, 0 < b -> dp_recv (length l) (dp_send b l) = Ok l.
Proof.
  intros b l Hb. unfold dp_recv, dp_send. destruct l as [|x r]; [reflexivity|].
  change (Nat.eqb (length (x :: r)) 0) with false. cbn iota.
  apply (recv_send_idx b (x :: r) (length (x :: r)) 0); cbn [length]; lia.
Qed.
Lemma lookup_ok : forall second idx, Forall (fun i => i < length second) idx ->
  dp_lookup second idx = Ok (map (fun i => nth i second 0) idx).
Proof.
  intros second idx H. induction H as [|i r Hi _ IH]; [reflexivity|]. cbn [dp_lookup map].
  rewrite (nth_error_nth' second 0 Hi), IH. reflexivity.
Qed.

(** The positions of a sampled list, mapped through it. *)
Lemma number_nth : forall {A : Type} (d : A) (l pre : list A) f,
  map (fun i => nth i (pre ++ l) d) (map fst (filter (fun p => f (snd p)) (number (length pre) l))) = filter f l.
Proof.
  intros A d l. induction l as [|x r IH]; intros pre f; [reflexivity|]. cbn [number filter snd].
  specialize (IH (pre ++ [x]) f). rewrite app_length, Nat.add_1_r, <- app_assoc in IH. cbn [app] in IH.
  destruct (f x); cbn [map fst]; rewrite IH; [|reflexivity].
  rewrite app_nth2, Nat.sub_diag by apply Nat.le_refl. reflexivity.
Qed.
Lemma number_map : forall {A B : Type} (g : A -> B) (f : B -> bool) l i,
  map fst (filter (fun p => f (snd p)) (number i (map g l))) = map fst (filter (fun p => f (g (snd p))) (number i l)).
Proof.
  intros A B g f l. induction l as [|x r IH]; intros i; [reflexivity|]. cbn [map number filter snd].
  destruct (f (g x)); cbn [map fst]; rewrite IH; reflexivity.
Qed.
Lemma number_bound : forall {A : Type} (l : list A) f i j,
  In j (map fst (filter f (number i l))) -> i <= j < i + length l.
Proof.
  intros A l f. induction l as [|x r IH]; intros i j H; [contradiction|]. cbn [number filter] in H.
  destruct (f (i, x)); cbn [map fst] in H; [destruct H as [<-|H]; [cbn [length]; lia|]|];
    apply IH in H; cbn [length]; lia.
Qed.
Lemma number_nodup : forall {A : Type} (l : list A) f i, NoDup (map fst (filter f (number i l))).
Proof.
  intros A l f. induction l as [|x r IH]; intros i; [constructor|]. cbn [number filter].
  destruct (f (i, x)); cbn [map fst]; [constructor|]; auto. intros Z. apply number_bound in Z. lia.
Qed.

Definition where_in (set l : list bytes) : list nat := map fst (filter (fun p => held set (snd p)) (number 0 l)).
Definition where_out (set l : list bytes) : list nat := map fst (filter (fun p => negb (held set (snd p))) (number 0 l)).

Section X.
Variable Point : Type.
Variable hash_point : bytes -> Point.
Variable mask : nat -> Point -> Point.
Variable ser : Point -> bytes.
Variable deser : bytes -> Point.
Variables L dms bsz idx_batch : nat.
Variable srt : list bytes -> list bytes.
Hypothesis DS : forall x, deser (ser x) = x.
Hypothesis LS : forall x, length (ser x) = L.
Hypothesis HD : dms <= L.
Hypothesis HB : 0 < bsz.
Hypothesis HI : 0 < idx_batch.
Hypothesis CM : forall x, mask 0 (mask 1 x) = mask 1 (mask 0 x).
Hypothesis SP : forall l, Permutation (srt l) l.

Let dual x := last_bytes dms (ser (mask 0 (mask 1 (hash_point x)))).

Lemma mask_peer_spec : forall r r' items,
  dp_mask_peer Point mask ser deser dms r (mask_send_self Point hash_point mask ser bsz r' items) =
  Ok (map (fun x => last_bytes dms (ser (mask r (mask r' (hash_point x))))) items).
Proof using DS LS HB.
  intros r r' items. unfold dp_mask_peer. rewrite send_pts.
  rewrite (recv_points Point L ser) by (first [exact LS | apply pts_nonempty; exact HB]). cbn [bind].
  rewrite pts_concat by exact HB. rewrite !map_map. f_equal. apply map_ext. intros x. rewrite DS. reflexivity.
Qed.

Lemma held_dual : forall A x, (forall y, In y A -> dual y = dual x -> y = x) ->
  held (srt (srt (map dual A))) (dual x) = held A x.
Proof using SP.
  clear DS LS HB CM HD HI.
  intros A x INJ. unfold held. apply eq_true_iff_eq. rewrite !existsb_exists. split.
  - intros (c & Ic & Ec). apply beqb_spec in Ec. subst c.
    apply (Permutation_in _ (SP _)) in Ic. apply (Permutation_in _ (SP _)) in Ic.
    apply in_map_iff in Ic. destruct Ic as (y & Ey & Iy). exists y. split; [exact Iy|].
    apply beqb_spec. symmetry. apply INJ; auto.
  - intros (y & Iy & Ey). apply beqb_spec in Ey. subst y. exists (dual x). split; [|apply beqb_spec; reflexivity].
    apply (Permutation_in _ (Permutation_sym (SP _))). apply (Permutation_in _ (Permutation_sym (SP _))).
    apply in_map, Iy.
Qed.

Lemma filter_ext_number : forall (l : list bytes) (f g : bytes -> bool) i, (forall x, In x l -> f x = g x) ->
  map fst (filter (fun p => f (snd p)) (number i l)) = map fst (filter (fun p => g (snd p)) (number i l)).
Proof using.
  clear. intros l f g. induction l as [|x r IH]; intros i H; [reflexivity|]. cbn [number filter snd].
  rewrite (H x) by (left; reflexivity).
  destruct (g x); cbn [map]; rewrite IH by (intros y Hy; apply H; right; exact Hy); reflexivity.
Qed.

Lemma exchange_spec : forall A B c2 cq, (forall x y, In x A -> In y B -> dual x = dual y -> x = y) ->
  dp_exchange Point hash_point mask ser deser dms bsz srt A B c2 cq =
  Ok (dp_alice_choose c2 cq (where_in A B) (where_out A B)).
Proof using DS LS HB CM SP HD.
  intros A B c2 cq INJ. unfold dp_exchange, dp_bob_dual, dp_alice. cbv zeta.
  rewrite mask_peer_spec. cbn [bind]. rewrite mask_peer_spec. cbn [bind].
  assert (E : map (fun x => last_bytes dms (ser (mask 1 (mask 0 (hash_point x))))) A = map dual A).
  { apply map_ext. intros x. unfold dual. rewrite CM. reflexivity. }
  rewrite E, (recv_send bsz dms).
  - cbn [bind]. rewrite split_spec. fold dual. f_equal. unfold where_in, where_out. f_equal.
    + change (fun x => last_bytes dms (ser (mask 0 (mask 1 (hash_point x))))) with dual.
      rewrite (number_map dual (held (srt (srt (map dual A))))).
      apply (filter_ext_number B (fun x => held (srt (srt (map dual A))) (dual x)) (held A)). intros x Hx. apply held_dual. intros y Hy. apply INJ; auto.
    + change (fun x => last_bytes dms (ser (mask 0 (mask 1 (hash_point x))))) with dual.
      rewrite (number_map dual (fun d => negb (held (srt (srt (map dual A))) d))).
      apply (filter_ext_number B (fun x => negb (held (srt (srt (map dual A))) (dual x))) (fun x => negb (held A x))).
      intros x Hx. f_equal. apply held_dual. intros y Hy. apply INJ; auto.
  - exact HB.
  - rewrite Forall_forall. intros c Hc. apply (Permutation_in _ (SP _)) in Hc. apply in_map_iff in Hc.
    destruct Hc as (x & <- & _). apply last_bytes_len. rewrite LS. exact HD.
Qed.

Lemma choose_perm : forall c2 cq inter non, non <> [] ->
  Permutation (da_sent (dp_alice_choose c2 cq inter non)) (kept c2 inter ++ kept cq non).
Proof using.
  clear. intros c2 cq inter non H. unfold dp_alice_choose. destruct non as [|n r]; [contradiction|]. cbn [da_sent].
  rewrite dp_sort_perm, !samples_kept. reflexivity.
Qed.
Lemma kept_map : forall {T U : Type} (g : T -> U) c l, kept c (map g l) = map g (kept c l).
Proof using. clear. intros. rewrite <- !samples_kept. apply samples_map. Qed.
Lemma kept_incl : forall {T : Type} c (l : list T) x, In x (kept c l) -> In x l.
Proof using. clear. intros T c l x H. rewrite <- samples_kept in H. apply samples_incl in H. exact H. Qed.
Lemma kept_nodup : forall {T : Type} c (l : list T), NoDup l -> NoDup (kept c l).
Proof using. clear. intros. rewrite <- samples_kept. apply samples_nodup. assumption. Qed.

Lemma sent_bound : forall c2 cq A B i, In i (da_sent (dp_alice_choose c2 cq (where_in A B) (where_out A B))) -> i < length B.
Proof using.
  clear. intros c2 cq A B i H. destruct (where_out A B) as [|n r] eqn:E; [contradiction|].
  assert (NE : where_out A B <> []) by (rewrite E; discriminate).
  rewrite <- E in H. apply (Permutation_in _ (choose_perm _ _ _ _ NE)) in H.
  apply in_app_iff in H. destruct H as [H|H]; apply kept_incl in H; apply number_bound in H; lia.
Qed.

Lemma nodup_split : forall {T : Type} (f : T -> bool) l (X Y : list T), NoDup l -> NoDup X -> NoDup Y ->
  incl X (filter f l) -> incl Y (filter (fun x => negb (f x)) l) -> NoDup (X ++ Y).
Proof using.
  clear. intros T f l X Y N NX NY IX IY. induction NX as [|x X Hx NX IH]; [exact NY|]. cbn [app]. constructor.
  - rewrite in_app_iff. intros [H|H]; [contradiction|]. apply IY in H. apply filter_In in H.
    assert (H' : In x (filter f l)) by (apply IX; left; reflexivity). apply filter_In in H'.
    destruct H as [_ H], H' as [_ H']. rewrite H' in H. discriminate H.
  - apply IH. intros z Hz. apply IX. right. exact Hz.
Qed.

Lemma filter_map_comm : forall {T U : Type} (g : T -> U) f l, filter f (map g l) = map g (filter (fun x => f (g x)) l).
Proof using. clear. intros T U g f l. induction l as [|x r IH]; [reflexivity|]. cbn [map filter]. rewrite IH. destruct (f (g x)); reflexivity. Qed.

Lemma run_spec : forall A B shuffled c1 c2 cq,
  Permutation shuffled (seq 0 (length B)) ->
  (forall x y, In x A -> In y B -> dual x = dual y -> x = y) ->
  let S := kept c1 shuffled in
  let I := filter (fun j => held A (nth j B [])) S in
  let N := filter (fun j => negb (held A (nth j B []))) S in
  exists out, dp_run Point hash_point mask ser deser dms bsz idx_batch srt A B shuffled c1 c2 cq = Ok out /\
    dp_bob_sub out = length B - length S /\
    dp_items out = map (fun j => nth j B []) (dp_bob_idx out) /\
    da_return (dp_alice_res out) = length (dp_bob_idx out) /\
    match N with
    | [] => dp_bob_idx out = []
    | _ => StronglySorted lt (dp_bob_idx out) /\ Permutation (dp_bob_idx out) (kept c2 I ++ kept cq N) /\
           da_sub (dp_alice_res out) = length I - length (kept c2 I) /\
           da_up (dp_alice_res out) = length (kept cq N)
    end.
Proof using DS LS HB CM SP HD HI.
  intros A B shuffled c1 c2 cq PS INJ S I N.
  unfold dp_run, dp_bob_samples.
  assert (LSh : length shuffled = length B) by (rewrite (Permutation_length PS); apply seq_length).
  replace (firstn (length B) shuffled) with shuffled by (rewrite <- LSh; symmetry; apply firstn_all).
  rewrite samples_kept. fold S.
  set (sm := map (fun i => nth i B []) S).
  assert (NS : NoDup S). { apply kept_nodup. apply (Permutation_NoDup (Permutation_sym PS)), seq_NoDup. }
  assert (BS : forall j, In j S -> j < length B).
  { intros j Hj. apply kept_incl in Hj. apply (Permutation_in _ PS) in Hj. apply in_seq in Hj. lia. }
  rewrite exchange_spec.
  2:{ intros x y Hx Hy. apply INJ; [exact Hx|]. unfold sm in Hy. apply in_map_iff in Hy. destruct Hy as (j & <- & Hj).
      apply nth_In, BS, Hj. }
  cbn [bind]. set (a := dp_alice_choose c2 cq (where_in A sm) (where_out A sm)).
  unfold dp_bob_result. rewrite recv_send_all by exact HI. cbn [bind].
  rewrite lookup_ok.
  2:{ rewrite Forall_forall. intros i Hi. apply sent_bound in Hi. unfold sm in Hi. rewrite map_length in Hi. exact Hi. }
  cbn [bind]. eexists. split; [reflexivity|]. cbn [dp_bob_sub dp_items dp_bob_idx dp_alice_res].
  split; [unfold sm; rewrite map_length; reflexivity|]. split; [reflexivity|].
  set (g := fun i => nth i S 0). set (res := dp_sort (map g (da_sent a))).
  assert (EI : map g (where_in A sm) = I).
  { unfold g, where_in, sm, I. rewrite number_map. apply (number_nth 0 S [] (fun j => held A (nth j B []))). }
  assert (EN : map g (where_out A sm) = N).
  { unfold g, where_out, sm, N. rewrite (number_map (fun i => nth i B []) (fun x => negb (held A x))).
    apply (number_nth 0 S [] (fun j => negb (held A (nth j B [])))). }
  split.
  { unfold res. rewrite (Permutation_length (dp_sort_perm _)), map_length. unfold a, dp_alice_choose.
    destruct (where_out A sm); reflexivity. }
  destruct N as [|n r] eqn:EN'.
  - destruct (where_out A sm) as [|w wr] eqn:EW; [|discriminate EN]. unfold res, a. cbn. reflexivity.
  - assert (NW : where_out A sm <> []) by (intros Z; rewrite Z in EN; discriminate EN).
    assert (PR : Permutation res (kept c2 I ++ kept cq (n :: r))).
    { unfold res. rewrite dp_sort_perm. unfold a. rewrite (Permutation_map g (choose_perm c2 cq _ _ NW)).
      rewrite map_app, <- !kept_map, EI, EN. reflexivity. }
    split; [|split; [exact PR|]].
    + apply sorted_lt; [apply dp_sort_sorted|]. apply (Permutation_NoDup (Permutation_sym PR)).
      apply (nodup_split (fun j => held A (nth j B [])) S); [exact NS| | | |].
      * apply kept_nodup, NoDup_filter, NS.
      * apply kept_nodup. rewrite <- EN'. apply NoDup_filter, NS.
      * intros z Hz. apply kept_incl in Hz. exact Hz.
      * intros z Hz. apply kept_incl in Hz. rewrite <- EN' in Hz. exact Hz.
    + unfold a, dp_alice_choose. rewrite <- EI, <- EN, !kept_map, !map_length.
      destruct (where_out A sm) as [|w wr]; [contradiction|]. cbn [da_sub da_up]. rewrite !samples_kept. split; reflexivity.
Qed.
End X.
