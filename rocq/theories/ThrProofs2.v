From Coq Require Import List NArith Lia Bool Arith Permutation.
From Verif Require Import Base BaseProofs Text TextProofs StoreModel StoreSpec StoreProofs EcdhModel EcdhSpec
  EcdhProofs EcdhProofs2 DigestModel.
From Verif Require Import ThrModel ThrSpec ThrProofs.
Import ListNotations.

(** A match: shuffled position, receiver's position, sender's position, sender's row. *)
Record qrow : Type := mk_q { q_i : nat; q_j : nat; q_p : nat; q_row : bytes * N }.

Definition q1 (R S : list (bytes * N)) (e : nat * nat) : list qrow :=
  match find (fun p => beqb (fst (snd p)) (fst (nth (snd e) R dflt))) (number 0 S) with
  | None => []
  | Some p => [mk_q (fst e) (snd e) (fst p) (snd p)]
  end.

Lemma flat_map_sub : forall (A B C : Type) (g : A -> list B) (f : B -> C) (h : A -> C) l,
  (forall a b, In b (g a) -> f b = h a) -> (forall a, length (g a) <= 1) -> NoDup (map h l) ->
  NoDup (map f (flat_map g l)).
Proof.
  intros A B C g f h l Hf Hl. induction l as [|a l IH]; intros ND; [constructor|]. cbn [flat_map map] in *.
  inversion ND as [|? ? Hn Hr]; subst. rewrite map_app. specialize (Hl a). specialize (Hf a) as Hfa.
  destruct (g a) as [|b [|b' g']]; [apply IH; exact Hr| |cbn in Hl; lia].
  cbn [map app]. constructor; [|apply IH; exact Hr]. rewrite (Hfa b (or_introl eq_refl)).
  intros Hin. apply Hn. apply in_map_iff in Hin. destruct Hin as (b2 & E & Hb2). apply in_flat_map in Hb2.
  destruct Hb2 as (a2 & Ha2 & Hb2). rewrite (Hf a2 b2 Hb2) in E. rewrite <- E. apply in_map. exact Ha2.
Qed.

Lemma q1_len : forall R S e, length (q1 R S e) <= 1.
Proof. intros R S e. unfold q1. destruct (find _ _); cbn; lia. Qed.

Lemma q1_in : forall R S e q, In q (q1 R S e) ->
  q_i q = fst e /\ q_j q = snd e /\ nth_error S (q_p q) = Some (q_row q) /\ fst (q_row q) = fst (nth (snd e) R dflt).
Proof.
  intros R S e q H. unfold q1 in H. destruct (find _ _) as [p|] eqn:E; [|destruct H]. destruct H as [<-|[]].
  cbn [q_i q_j q_p q_row]. apply find_some in E. destruct E as [E1 E2]. apply beqb_spec in E2.
  apply number_nth in E1. destruct E1 as [_ E1]. rewrite Nat.sub_0_r in E1. auto.
Qed.

Lemma q1_none : forall R S e, existsb (beqb (fst (nth (snd e) R dflt))) (map fst S) = negb (Nat.eqb (length (q1 R S e)) 0).
Proof.
  intros R S e. unfold q1. set (x := fst (nth (snd e) R dflt)).
  assert (G : forall l k, existsb (beqb x) (map fst l) =
    match find (fun p : nat * (bytes * N) => beqb (fst (snd p)) x) (number k l) with Some _ => true | None => false end).
  { induction l as [|y l IH]; intros k; [reflexivity|]. cbn [map existsb number find fst snd].
    destruct (beqb x (fst y)) eqn:E.
    - apply beqb_spec in E. rewrite E, (proj2 (beqb_spec _ _) eq_refl). reflexivity.
    - destruct (beqb (fst y) x) eqn:E2; [apply beqb_spec in E2; rewrite E2, (proj2 (beqb_spec _ _) eq_refl) in E; discriminate|].
      apply IH. }
  rewrite (G S 0). destruct (find _ _); reflexivity.
Qed.

Lemma count_rows : forall R S (es : list (nat * nat)) l, map snd es = l ->
  length (flat_map (q1 R S) es) = length (filter (fun j => existsb (beqb (fst (nth j R dflt))) (map fst S)) l).
Proof.
  intros R S es l <-. induction es as [|e es IH]; [reflexivity|]. cbn [flat_map map filter]. rewrite app_length, IH.
  rewrite q1_none. pose proof (q1_len R S e). destruct (length (q1 R S e)) as [|[|]]; cbn [Nat.eqb negb length]; lia.
Qed.

Lemma filter_perm_len : forall (A : Type) (f : A -> bool) l l', Permutation l l' -> length (filter f l) = length (filter f l').
Proof.
  intros A f l l' P. induction P as [|x l l' P IH|x y l|l l' l'' P1 IH1 P2 IH2]; cbn [filter]; auto.
  - destruct (f x); cbn; auto.
  - destruct (f x), (f y); reflexivity.
  - congruence.
Qed.

Lemma filter_nth_len : forall (A : Type) (f : A -> bool) (l : list A) d,
  length (filter (fun j => f (nth j l d)) (seq 0 (length l))) = length (filter f l).
Proof.
  intros A f l d. induction l as [|x l IH]; [reflexivity|].
  assert (E : length (filter (fun j => f (nth j (x :: l) d)) (seq 1 (length l))) = length (filter f l)).
  { rewrite <- IH, <- seq_shift. generalize (seq 0 (length l)) as s. induction s as [|j s IHs]; [reflexivity|].
    cbn [map filter]. change (nth (S j) (x :: l) d) with (nth j l d).
    destruct (f (nth j l d)); cbn [length]; rewrite IHs; reflexivity. }
  change (length (if f x then 0 :: filter (fun j => f (nth j (x :: l) d)) (seq 1 (length l))
                  else filter (fun j => f (nth j (x :: l) d)) (seq 1 (length l))) =
          length (if f x then x :: filter f l else filter f l)).
  destruct (f x); cbn [length]; rewrite E; reflexivity.
Qed.

Lemma combine_map2 : forall (A B C : Type) (f : A -> B) (g : A -> C) l, combine (map f l) (map g l) = map (fun x => (f x, g x)) l.
Proof. induction l as [|x l IH]; cbn; congruence. Qed.

Lemma nth_error_ext' : forall (A : Type) (l l' : list A), (forall i, i < length l' -> nth_error l i = nth_error l' i) ->
  length l = length l' -> l = l'.
Proof.
  induction l as [|x l IH]; intros [|y l'] H L; try (cbn in L; lia); [reflexivity|]. f_equal.
  - specialize (H 0 ltac:(cbn; lia)). cbn in H. congruence.
  - apply IH; [|cbn in L; lia]. intros i Hi. specialize (H (S i) ltac:(cbn; lia)). exact H.
Qed.

Lemma dup_at_lt : forall n (l : dupmap) i, Forall (fun e => fst e < n /\ (snd e < max32)%N) l -> (dup_at l i < max32)%N.
Proof.
  intros n l i F. unfold dup_at. induction F as [|[k d] l [_ H] F IH]; [cbn; unfold max32; lia|].
  cbn [assoc]. destruct (Nat.eqb k i); [exact H|exact IH].
Qed.

Section Main.
Variable Point : Type.
Variable hash_point : bytes -> Point.
Variable mask : bool -> Point -> Point.
Variable ser : Point -> bytes.
Variable deser : bytes -> Point.
Variable dual_mask_size L : nat.
Variable hash : bytes -> N.
Variable num : nat.
Hypothesis deser_ser : forall x, deser (ser x) = x.
Hypothesis ser_len : forall x, length (ser x) = L.
Hypothesis ser_bytes : forall x, Forall is_byte (ser x).
Hypothesis mask_comm : forall x, mask true (mask false x) = mask false (mask true x).
Hypothesis num_pos : 0 < num.
Notation dual := (dual Point hash_point mask ser dual_mask_size).

Lemma dual_bytes : forall x, Forall is_byte (dual x).
Proof.
  intros x. unfold ThrProofs.dual, last_bytes. apply Forall_forall. intros b Hb.
  pose proof (ser_bytes (mask false (mask true (hash_point x)))) as F. rewrite Forall_forall in F. apply F.
  rewrite <- (firstn_skipn (length (ser (mask false (mask true (hash_point x)))) - dual_mask_size)).
  apply in_or_app. right. exact Hb.
Qed.

Lemma tm1_q1 : forall R S e, (snd e < length R) ->
  (forall x y, In x (map fst R) -> In y (map fst S) -> dual y = dual x -> y = x) ->
  tm1 (map (fun s => (dual (fst s), snd s)) S) (fst e, (dual (fst (nth (snd e) R dflt)), 0%N)) =
  map (fun q => mk_tmatch (u32 (N.of_nat (q_i q))) (u32 (N.of_nat (q_p q))) (snd (q_row q))) (q1 R S e).
Proof.
  intros R S e He DI. unfold tm1, q1. cbn [fst snd]. set (x := fst (nth (snd e) R dflt)).
  assert (Hx : In x (map fst R)) by (apply in_map, nth_In, He).
  assert (G : forall l k, (forall y, In y (map fst l) -> dual y = dual x -> y = x) ->
    find (fun p : nat * (bytes * N) => beqb (fst (snd p)) (dual x)) (number k (map (fun s => (dual (fst s), snd s)) l)) =
    option_map (fun p => (fst p, (dual (fst (snd p)), snd (snd p)))) (find (fun p => beqb (fst (snd p)) x) (number k l))).
  { induction l as [|y l IH]; intros k H; [reflexivity|]. cbn [map number find fst snd].
    destruct (beqb (fst y) x) eqn:E.
    - apply beqb_spec in E. rewrite E, (proj2 (beqb_spec _ _) eq_refl). cbn. rewrite E. reflexivity.
    - destruct (beqb (dual (fst y)) (dual x)) eqn:E2.
      + apply beqb_spec in E2. apply H in E2; [|left; reflexivity]. rewrite E2, (proj2 (beqb_spec _ _) eq_refl) in E. discriminate.
      + apply IH. intros z Hz. apply H. right. exact Hz. }
  rewrite (G S 0 (fun y Hy => DI x y Hx Hy)). destruct (find _ _) as [p|]; reflexivity.
Qed.

(** The run as a whole: [Q] lists the matches, in the order the bins give. *)
Lemma protocol_ok : forall th broadcast bsz rp sp shufs,
  good_provider rp -> good_provider sp -> good_shuffles rp shufs ->
  (N.of_nat th < max32)%N -> (0 < u32 bsz)%N ->
  (N.of_nat (length (sent rp)) < max32)%N -> (N.of_nat (length (sent sp)) < max32)%N ->
  (forall x y, In x (map fst (sent rp)) -> In y (map fst (sent sp)) -> dual y = dual x -> y = x) ->
  exists L',
    Permutation L' (number 0 (gsig 0 rp shufs)) /\
    let all := flat_map (q1 (sent rp) (sent sp)) L' in
    let Q := firstn th all in
    thr_protocol Point hash_point mask ser deser dual_mask_size hash num (N.of_nat th) broadcast bsz rp sp shufs =
    Ok (mk_tout (map (fun q => (N.of_nat (q_j q), snd (q_row q))) Q)
                (Some (N.of_nat (length all), N.of_nat (Nat.min th (length all))))
                (if broadcast then map (fun q => (N.of_nat (q_p q), snd (nth (q_i q) (sent rp) dflt))) Q else [])
                (if broadcast then Some (N.of_nat (length all), N.of_nat (Nat.min th (length all))) else None)).
Proof.
  intros th broadcast bsz rp sp shufs Gr Gs Hs Bt Bb Br Bs DI.
  set (R := sent rp) in *. set (S := sent sp) in *. set (sig := gsig 0 rp shufs) in *.
  assert (Psig : Permutation sig (seq 0 (length R))) by (apply gsig_perm; exact Hs).
  assert (Lsig : length sig = length R) by (rewrite (Permutation_length Psig); apply seq_length).
  assert (Hsig : forall j, In j sig -> j < length R).
  { intros j Hj. apply (Permutation_in _ Psig) in Hj. apply in_seq in Hj. lia. }
  set (self := map (fun j => (dual (fst (nth j R dflt)), 0%N)) sig).
  set (peer := map (fun e => (dual (fst e), snd e)) S).
  assert (Fself : Forall good_input self).
  { apply Forall_forall. intros e He. apply in_map_iff in He. destruct He as (j & <- & _). split; [apply dual_bytes|].
    cbn. unfold max32. lia. }
  assert (Fpeer : Forall good_input peer).
  { apply Forall_forall. intros e He. apply in_map_iff in He. destruct He as (s & <- & Hin). split; [apply dual_bytes|].
    cbn [snd]. unfold S, sent in Hin. apply in_flat_map in Hin. destruct Hin as (b & Hb & Hin). apply in_map_iff in Hin.
    destruct Hin as (ix & <- & _). cbn [snd]. unfold good_provider in Gs. rewrite Forall_forall in Gs.
    destruct (Gs b Hb) as [_ Fd]. apply (dup_at_lt _ _ _ Fd). }
  assert (Lself : length self = length R) by (unfold self; rewrite map_length; exact Lsig).
  assert (Lpeer : length peer = length S) by (unfold peer; apply map_length).
  assert (M3264 : (max32 < max64)%N) by (unfold max32, max64; lia).
  destruct (fresh_load hash num self num_pos Fself ltac:(lia)) as (c & _ & O & _).
  (* the order of the matches *)
  pose proof (binned_perm hash num self num_pos) as BP.
  assert (EN : number 0 self = map (fun e => (fst e, (dual (fst (nth (snd e) R dflt)), 0%N))) (number 0 sig))
    by (unfold self; apply number_map').
  rewrite EN in BP. apply Permutation_map_inv in BP. destruct BP as (L' & EB & PL).
  exists L'. split; [apply Permutation_sym; exact PL|]. cbn zeta.
  set (all := flat_map (q1 R S) L').
  set (f := fun q => mk_tmatch (u32 (N.of_nat (q_i q))) (u32 (N.of_nat (q_p q))) (snd (q_row q))).
  assert (EM : flat_map (tm1 peer) (binned hash num self) = map f all).
  { rewrite EB. unfold all. assert (HL : forall e, In e L' -> snd e < length R).
    { intros e He. apply (Permutation_in _ (Permutation_sym PL)) in He. apply Hsig.
      rewrite <- (number_snd _ sig 0). apply in_map. exact He. }
    clear -HL DI. induction L' as [|e L' IH]; [reflexivity|]. cbn [map flat_map]. rewrite map_app.
    rewrite IH by (intros e' He'; apply HL; right; exact He'). f_equal.
    apply tm1_q1; [apply HL; left; reflexivity|exact DI]. }
  assert (Hall : forall q, In q all -> nth_error sig (q_i q) = Some (q_j q) /\ nth_error S (q_p q) = Some (q_row q)).
  { intros q Hq. unfold all in Hq. apply in_flat_map in Hq. destruct Hq as (e & He & Hq).
    apply q1_in in Hq. destruct Hq as (-> & -> & E & _). split; [|exact E].
    apply (Permutation_in _ (Permutation_sym PL)) in He. apply number_nth in He. destruct He as [_ He].
    rewrite Nat.sub_0_r in He. exact He. }
  assert (NDi : NoDup (map q_i all)).
  { unfold all. apply (flat_map_sub _ _ _ (q1 R S) q_i fst); [intros a b Hb; apply q1_in in Hb; apply Hb|apply q1_len|].
    apply (Permutation_NoDup (Permutation_map fst PL)). rewrite number_fst. apply seq_NoDup. }
  assert (Lall : length all <= length R).
  { rewrite <- (map_length q_i). rewrite <- Lsig. rewrite <- (seq_length (length sig) 0).
    apply NoDup_incl_length; [exact NDi|]. intros i Hi. apply in_map_iff in Hi. destruct Hi as (q & <- & Hq).
    destruct (Hall q Hq) as [E _]. assert (q_i q < length sig) by (apply nth_error_Some; rewrite E; discriminate).
    apply in_seq. lia. }
  set (Q := firstn th all).
  assert (LQ : length Q = Nat.min th (length all)) by (unfold Q; apply firstn_length).
  assert (HQ : forall q, In q Q -> In q all).
  { intros q Hq. unfold Q in Hq. rewrite <- (firstn_skipn th all). apply in_or_app. left. exact Hq. }
  unfold thr_protocol.
  rewrite (online_ok Point hash_point mask ser deser dual_mask_size L deser_ser ser_len mask_comm broadcast rp sp shufs Gr Gs Hs).
  fold R S sig self peer. cbn [bind]. rewrite O. cbn [bind].
  rewrite (compute_ok hash th num self peer c Bt num_pos O Fself Fpeer ltac:(lia) ltac:(lia)).
  rewrite EM. unfold st_of. cbn [bind]. rewrite map_length. rewrite firstn_map. fold Q.
  assert (ESh : map tm_self (map f Q) = map (fun q => N.of_nat (q_i q)) Q).
  { rewrite map_map. apply map_ext_in. intros q Hq. cbn. apply u32_small.
    destruct (Hall q (HQ q Hq)) as [E _]. assert (q_i q < length sig) by (apply nth_error_Some; rewrite E; discriminate). lia. }
  assert (EPe : map tm_peer (map f Q) = map (fun q => N.of_nat (q_p q)) Q).
  { rewrite map_map. apply map_ext_in. intros q Hq. cbn. apply u32_small.
    destruct (Hall q (HQ q Hq)) as [_ E]. assert (q_p q < length S) by (apply nth_error_Some; rewrite E; discriminate). lia. }
  rewrite ESh, EPe. rewrite (u32_small (N.of_nat (length all))) by lia.
  set (mk := fun e : nat * nat => thr_save (fst e) (snd e) (if broadcast then snd (nth (fst e) R dflt) else 0%N)).
  set (recs := map mk (number 0 sig)).
  assert (Lrecs : length recs = length R) by (unfold recs; rewrite map_length, number_length; exact Lsig).
  unfold thr_sender_end. unfold thr_open. change (tc_recs (thr_close recs)) with recs.
  change (tc_cnt (thr_close recs)) with (u32 (N.of_nat (length recs))).
  rewrite (u32_small (N.of_nat (length recs))) by lia. rewrite N.eqb_refl. cbn [enforce bind].
  rewrite map_length, LQ. rewrite (u32_small (N.of_nat (Nat.min th (length all)))) by lia.
  replace (N.min (N.of_nat (length all)) (N.of_nat th)) with (N.of_nat (Nat.min th (length all))) by lia.
  rewrite N.eqb_refl. cbn [enforce].
  change (tc_recs (thr_close recs)) with recs.
  replace 0%N with (N.of_nat 0) at 1 by reflexivity.
  rewrite (restore_loop_ok bsz _ recs ltac:(lia) Bb (Datatypes.S (length recs)) 0) by lia. cbn [skipn bind].
  set (st0 := (repeat 0%N (Nat.min th (length all)), repeat 0%N (Nat.min th (length all)))).
  set (shuffled := map (fun q => N.of_nat (q_i q)) Q).
  assert (NDs : NoDup shuffled).
  { unfold shuffled. rewrite <- (map_map q_i N.of_nat). apply FinFun.Injective_map_NoDup; [intros a b; lia|].
    unfold Q. rewrite <- firstn_map. clear -NDi. revert NDi. generalize (map q_i all) as l.
    intros l. revert th. induction l as [|x l IHl]; intros th NDl; [rewrite firstn_nil; constructor|].
    destruct th as [|th]; [constructor|]. cbn [firstn]. inversion NDl as [|? ? Hx Hl]; subst. constructor; [|apply IHl; exact Hl].
    intros Hin. apply Hx. rewrite <- (firstn_skipn th l). apply in_or_app. left. exact Hin. }
  assert (NDr : NoDup (map t_origin recs)).
  { unfold recs. rewrite map_map.
    replace (map (fun e => t_origin (mk e)) (number 0 sig)) with (map (fun e : nat * nat => N.of_nat (fst e)) (number 0 sig)).
    - rewrite <- (map_map fst N.of_nat), number_fst. apply FinFun.Injective_map_NoDup; [intros a b; lia|apply seq_NoDup].
    - apply map_ext_in. intros e He. cbn. symmetry. apply u32_small. apply number_nth in He. destruct He as [_ He].
      assert (fst e - 0 < length sig) by (apply nth_error_Some; rewrite He; discriminate). lia. }
  destruct (restore_lens shuffled recs st0) as [K1 K2]. cbn [st0 fst snd] in K1, K2. rewrite repeat_length in K1, K2.
  assert (V : forall p q, nth_error Q p = Some q ->
     nth_error (fst (fold_left (thr_restore_step shuffled) recs st0)) p = Some (N.of_nat (q_j q)) /\
     nth_error (snd (fold_left (thr_restore_step shuffled) recs st0)) p =
       Some (if broadcast then snd (nth (q_i q) R dflt) else 0%N)).
  { intros p q Hq. assert (Hp : p < length Q) by (apply nth_error_Some; rewrite Hq; discriminate).
    destruct (Hall q (HQ q (nth_error_In _ _ Hq))) as [E _].
    assert (Hi : q_i q < length sig) by (apply nth_error_Some; rewrite E; discriminate).
    assert (Hj : q_j q < length R) by (apply Hsig, (nth_error_In _ _ E)).
    destruct (restore_value shuffled recs st0 p (N.of_nat (q_i q)) (mk (q_i q, q_j q)) NDs) as [V1 V2].
    - unfold shuffled. apply (map_nth_error (fun q => N.of_nat (q_i q))). exact Hq.
    - exact NDr.
    - unfold recs. apply in_map. apply number_in. split; [lia|]. rewrite Nat.sub_0_r. exact E.
    - cbn. apply u32_small. lia.
    - cbn [st0 fst]. rewrite repeat_length. lia.
    - cbn [st0 snd]. rewrite repeat_length. lia.
    - rewrite V1, V2. cbn [mk thr_save t_shuffle t_dup fst snd]. split; [|reflexivity].
      rewrite (u32_small (N.of_nat (q_j q))) by lia. rewrite u32_small by lia. reflexivity. }
  assert (F1 : fst (fold_left (thr_restore_step shuffled) recs st0) = map (fun q => N.of_nat (q_j q)) Q).
  { apply nth_error_ext'; [|rewrite map_length; lia]. intros p Hp. rewrite map_length in Hp.
    destruct (nth_error Q p) as [q|] eqn:Eq; [|apply nth_error_None in Eq; lia].
    rewrite (map_nth_error _ _ _ Eq). apply (V p q Eq). }
  assert (F2 : snd (fold_left (thr_restore_step shuffled) recs st0) =
               map (fun q => if broadcast then snd (nth (q_i q) R dflt) else 0%N) Q).
  { apply nth_error_ext'; [|rewrite map_length; lia]. intros p Hp. rewrite map_length in Hp.
    destruct (nth_error Q p) as [q|] eqn:Eq; [|apply nth_error_None in Eq; lia].
    rewrite (map_nth_error _ _ _ Eq). apply (V p q Eq). }
  destruct (fold_left (thr_restore_step shuffled) recs st0) as [restored dups]. cbn [fst snd] in F1, F2. subst restored dups.
  assert (RE : thr_receiver_end (map f Q) (N.of_nat (length all)) (N.of_nat (Nat.min th (length all))) (map (fun q => N.of_nat (q_j q)) Q) =
    Ok (map (fun q => (N.of_nat (q_j q), snd (q_row q))) Q, (N.of_nat (length all), N.of_nat (Nat.min th (length all))))).
  { unfold thr_receiver_end. rewrite map_length, LQ, N.eqb_refl. cbn [enforce]. rewrite map_map, combine_map2. reflexivity. }
  destruct broadcast; cbn [bind].
  - rewrite map_length, LQ. destruct (Nat.ltb_spec (Nat.min th (length all)) (Nat.min th (length all))); [lia|]. cbn [bind].
    rewrite RE. cbn [bind]. f_equal. f_equal. rewrite firstn_all2 by (rewrite map_length; lia). apply combine_map2.
  - rewrite RE. reflexivity.
Qed.
End Main.
