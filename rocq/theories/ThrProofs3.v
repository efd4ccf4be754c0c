From Coq Require Import List NArith Lia Bool Arith Permutation.
From Verif Require Import Base BaseProofs Text TextProofs StoreModel StoreSpec StoreProofs EcdhModel EcdhSpec
  EcdhProofs EcdhProofs2 DigestModel.
From Verif Require Import ThrModel ThrSpec ThrProofs ThrProofs2.
Import ListNotations.

Lemma nodup_firstn : forall (A : Type) (l : list A) n, NoDup l -> NoDup (firstn n l).
Proof.
  induction l as [|x l IHl]; intros n NDl; [rewrite firstn_nil; constructor|].
  destruct n as [|n]; [constructor|]. cbn [firstn]. inversion NDl as [|? ? Hx Hl]; subst. constructor; [|apply IHl; exact Hl].
  intros Hin. apply Hx. rewrite <- (firstn_skipn n l). apply in_or_app. left. exact Hin.
Qed.

Lemma Forall2_maps : forall (A B C : Type) (P : B -> C -> Prop) (f : A -> B) (g : A -> C) l,
  (forall a, In a l -> P (f a) (g a)) -> Forall2 P (map f l) (map g l).
Proof.
  induction l as [|a l IH]; intros H; [constructor|]. cbn [map]. constructor; [apply H; left; reflexivity|].
  apply IH. intros b Hb. apply H. right. exact Hb.
Qed.

Section Main.
Variable Point : Type.
Variable hash_point : bytes -> Point.
Variable mask : bool -> Point -> Point.
Variable ser : Point -> bytes.
Variable deser : bytes -> Point.
Variable dual_mask_size L : nat.
Variable hash : bytes -> N.
Variable num : nat.
Hypothesis deser_ser : forall x, deser (ser x) = x.
Hypothesis ser_len : forall x, length (ser x) = L.
Hypothesis ser_bytes : forall x, Forall is_byte (ser x).
Hypothesis mask_comm : forall x, mask true (mask false x) = mask false (mask true x).
Hypothesis num_pos : 0 < num.
Notation dual := (dual Point hash_point mask ser dual_mask_size).

Lemma run_exact : forall check ri si (th : N) broadcast bsz rp sp shufs,
  digest_equal check [ri; si] = Ok false ->
  good_provider rp -> good_provider sp -> good_shuffles rp shufs ->
  (th < max32)%N -> (0 < u32 bsz)%N ->
  (N.of_nat (length (sent rp)) < max32)%N -> (N.of_nat (length (sent sp)) < max32)%N ->
  NoDup (map fst (sent rp)) ->
  (forall x y, In x (map fst (sent rp)) -> In y (map fst (sent sp)) -> dual y = dual x -> y = x) ->
  exists out sel,
    thr_run Point hash_point mask ser deser dual_mask_size hash num check ri si th broadcast bsz rp sp shufs = Ok out /\
    NoDup sel /\
    N.of_nat (length sel) = N.min th (N.of_nat (length (common_rows (sent rp) (sent sp)))) /\
    Forall2 (fun x e => is_at (sent rp) x (fst e) /\ In (x, snd e) (sent sp)) sel (to_recv out) /\
    to_recv_cnt out = Some (N.of_nat (length (common_rows (sent rp) (sent sp))), N.of_nat (length sel)) /\
    (if broadcast
     then Forall2 (fun x e => is_at (sent sp) x (fst e)) sel (to_send out) /\ to_send_cnt out = to_recv_cnt out /\
          (Forall (fun r => snd r = 0%N) (sent rp) -> Forall2 (fun x e => In (x, snd e) (sent rp)) sel (to_send out))
     else to_send out = [] /\ to_send_cnt out = None).
Proof.
  intros check ri si th broadcast bsz rp sp shufs ED Gr Gs Hs Bt Bb Br Bs NDr DI.
  destruct (protocol_ok Point hash_point mask ser deser dual_mask_size L hash num deser_ser ser_len ser_bytes mask_comm num_pos
              (N.to_nat th) broadcast bsz rp sp shufs) as (L' & PL & EP); try assumption; [lia|].
  cbn zeta in EP. rewrite N2Nat.id in EP.
  set (R := sent rp) in *. set (S := sent sp) in *. set (sig := gsig 0 rp shufs) in *.
  set (all := flat_map (q1 R S) L') in *. set (Q := firstn (N.to_nat th) all) in *.
  assert (Psig : Permutation sig (seq 0 (length R))) by (apply gsig_perm; exact Hs).
  assert (Hsig : forall j, In j sig -> j < length R).
  { intros j Hj. apply (Permutation_in _ Psig) in Hj. apply in_seq in Hj. lia. }
  assert (PJ : Permutation (map snd L') sig).
  { rewrite (Permutation_map snd PL), number_snd. reflexivity. }
  assert (Eall : length all = length (common_rows R S)).
  { unfold all. rewrite (count_rows R S L' (map snd L') eq_refl).
    rewrite (filter_perm_len _ _ _ _ PJ), (filter_perm_len _ _ _ _ Psig). unfold common_rows.
    apply (filter_nth_len _ (fun e => existsb (beqb (fst e)) (map fst S)) R dflt). }
  assert (Hq : forall q, In q all -> q_i q < length R /\ q_j q < length R /\ nth_error S (q_p q) = Some (q_row q) /\
                                    fst (q_row q) = fst (nth (q_j q) R dflt)).
  { intros q Hq. unfold all in Hq. apply in_flat_map in Hq. destruct Hq as (e & He & Hq).
    apply q1_in in Hq. destruct Hq as (-> & -> & E & F).
    apply (Permutation_in _ PL) in He. apply number_nth in He. destruct He as [_ He].
    rewrite Nat.sub_0_r in He. split; [|split; [|auto]].
    - rewrite <- (seq_length (length R) 0), <- (Permutation_length Psig). apply nth_error_Some. rewrite He. discriminate.
    - apply Hsig. apply (nth_error_In _ _ He). }
  assert (NDk : NoDup (map (fun q => fst (q_row q)) all)).
  { unfold all. apply (flat_map_sub _ _ _ (q1 R S) (fun q => fst (q_row q)) (fun e => fst (nth (snd e) R dflt))).
    - intros a b Hb. apply q1_in in Hb. apply Hb.
    - apply q1_len.
    - rewrite <- (map_map snd (fun j => fst (nth j R dflt))).
      apply (Permutation_NoDup (l := map fst R)); [|exact NDr].
      rewrite (Permutation_map (fun j => fst (nth j R dflt)) PJ), (Permutation_map (fun j => fst (nth j R dflt)) Psig).
      rewrite <- (map_map (fun j => nth j R dflt) fst), map_nth_seq. reflexivity. }
  assert (LQ : length Q = Nat.min (N.to_nat th) (length all)) by (unfold Q; apply firstn_length).
  assert (HQ : forall q, In q Q -> In q all).
  { intros q Hin. unfold Q in Hin. rewrite <- (firstn_skipn (N.to_nat th) all). apply in_or_app. left. exact Hin. }
  unfold thr_run. rewrite ED. cbn [bind]. rewrite EP.
  eexists. exists (map (fun q => fst (q_row q)) Q). split; [reflexivity|]. cbn [to_recv to_recv_cnt to_send to_send_cnt].
  rewrite map_length, <- Eall. rewrite <- LQ.
  split; [unfold Q; rewrite <- firstn_map; apply nodup_firstn; exact NDk|]. split; [lia|]. split; [|split; [reflexivity|]].
  - apply Forall2_maps. intros q Hin. destruct (Hq q (HQ q Hin)) as (_ & Hj & E & F). cbn [fst snd]. split.
    + unfold is_at. rewrite Nat2N.id. exists (snd (nth (q_j q) R dflt)). rewrite (nth_error_nth' R dflt Hj). f_equal.
      rewrite F. destruct (nth (q_j q) R dflt); reflexivity.
    + apply nth_error_In in E. destruct (q_row q); exact E.
  - destruct broadcast; [|split; reflexivity]. split; [|split; [reflexivity|]].
    + apply Forall2_maps. intros q Hin. destruct (Hq q (HQ q Hin)) as (_ & _ & E & _). cbn [fst].
      unfold is_at. rewrite Nat2N.id. exists (snd (q_row q)). rewrite E. destruct (q_row q); reflexivity.
    + intros Z. apply Forall2_maps. intros q Hin. destruct (Hq q (HQ q Hin)) as (Hi & Hj & _ & F). cbn [snd].
      rewrite Forall_forall in Z. rewrite (Z (nth (q_i q) R dflt)) by (apply nth_In; exact Hi).
      rewrite F. rewrite <- (Z (nth (q_j q) R dflt)) by (apply nth_In; exact Hj).
      destruct (nth (q_j q) R dflt) eqn:En. cbn [fst snd]. rewrite <- En. apply nth_In. exact Hj.
Qed.

(** ** What the reply shows of the order *)
Lemma arrange : forall (c1 c2 : list bytes), Permutation c1 c2 ->
  exists sg, Permutation sg (seq 0 (length c1)) /\ c2 = thr_apply sg c1.
Proof.
  intros c1 c2 P. assert (P2 : Permutation c2 (map (fun j => nth j c1 []) (seq 0 (length c1)))).
  { rewrite map_nth_seq. apply Permutation_sym. exact P. }
  apply Permutation_map_inv in P2. destruct P2 as (sg & E & PS). exists sg. split; [apply Permutation_sym; exact PS|exact E].
Qed.

Lemma nodup_map_in : forall (A B : Type) (f : A -> B) l,
  NoDup l -> (forall a b, In a l -> In b l -> f a = f b -> a = b) -> NoDup (map f l).
Proof.
  induction 1 as [|x l Hx ND IH]; intros H; [constructor|]. cbn [map]. constructor.
  - intros Hin. apply in_map_iff in Hin. destruct Hin as (y & E & Hy). apply Hx.
    rewrite (H x y (or_introl eq_refl) (or_intror Hy)); [exact Hy|symmetry; exact E].
  - apply IH. intros a b Ha Hb. apply H; right; assumption.
Qed.

Lemma compose_perm : forall n P sg, all_arrangements n P -> Permutation sg (seq 0 n) ->
  Permutation (map (fun s => map (fun j => nth j sg 0) s) P) P.
Proof.
  intros n P sg [ND HP] PS.
  assert (Lsg : length sg = n) by (rewrite (Permutation_length PS); apply seq_length).
  assert (NDs : NoDup sg) by (apply (Permutation_NoDup (Permutation_sym PS)), seq_NoDup).
  apply NoDup_Permutation_bis.
  - apply nodup_map_in; [exact ND|]. intros s t Hs Ht E. apply HP in Hs. apply HP in Ht.
    assert (Fs : forall j, In j s -> j < n) by (intros j Hj; apply (Permutation_in _ Hs) in Hj; apply in_seq in Hj; lia).
    assert (Ft : forall j, In j t -> j < n) by (intros j Hj; apply (Permutation_in _ Ht) in Hj; apply in_seq in Hj; lia).
    clear Hs Ht. revert t E Ft. induction s as [|a s IH]; intros [|b t] E Ft; try discriminate; [reflexivity|].
    cbn [map] in E. injection E as E1 E2. f_equal.
    + apply (proj1 (NoDup_nth sg 0) NDs); [rewrite Lsg; apply Fs; left; reflexivity|rewrite Lsg; apply Ft; left; reflexivity|exact E1].
    + apply IH; [intros j Hj; apply Fs; right; exact Hj|exact E2|intros j Hj; apply Ft; right; exact Hj].
  - rewrite map_length. lia.
  - intros x Hx. apply in_map_iff in Hx. destruct Hx as (s & <- & Hs). apply HP. apply HP in Hs.
    rewrite (Permutation_map (fun j => nth j sg 0) Hs). rewrite <- Lsg at 1. rewrite map_nth_seq. exact PS.
Qed.

Lemma apply_perm : forall n P (c1 c2 : list bytes), all_arrangements n P -> length c1 = n -> Permutation c1 c2 ->
  Permutation (map (fun s => thr_apply s c1) P) (map (fun s => thr_apply s c2) P).
Proof.
  intros n P c1 c2 HP L1 PC. destruct (arrange c1 c2 PC) as (sg & PS & ->). rewrite L1 in PS.
  transitivity (map (fun s => thr_apply s c1) (map (fun s => map (fun j => nth j sg 0) s) P)).
  - apply Permutation_map, Permutation_sym, (compose_perm n); assumption.
  - rewrite map_map. apply Permutation_refl'. apply map_ext_in. intros s Hs. destruct HP as [_ HP]. apply HP in Hs.
    unfold thr_apply. rewrite map_map. apply map_ext_in. intros j Hj. apply (Permutation_in _ Hs) in Hj. apply in_seq in Hj.
    rewrite (nth_indep (map (fun j0 => nth j0 c1 []) sg) [] ((fun j => nth j c1 []) 0)) by (rewrite map_length, (Permutation_length PS), seq_length; lia).
    rewrite (map_nth (fun j => nth j c1 [])). reflexivity.
Qed.

Lemma flat_map_perm2 : forall (A : Type) (l1 l2 : list A) (B1 B2 : list (list A)),
  Permutation l1 l2 -> Permutation B1 B2 ->
  Permutation (flat_map (fun x => map (cons x) B1) l1) (flat_map (fun x => map (cons x) B2) l2).
Proof.
  intros A l1 l2 B1 B2 P1 P2. transitivity (flat_map (fun x => map (cons x) B1) l2).
  - apply Permutation_flat_map. exact P1.
  - clear P1. induction l2 as [|x l2 IH]; [constructor|]. cbn [flat_map]. apply Permutation_app; [apply Permutation_map; exact P2|exact IH].
Qed.

Notation backs := (backs Point hash_point mask ser dual_mask_size).

Lemma backs_choices : forall k b bs (P : list (list nat)) Cs,
  map (backs k (b :: bs)) (flat_map (fun s => map (cons s) Cs) P) =
  flat_map (fun m => map (cons m) (map (backs (S k) bs) Cs))
           (map (fun s => batch_data (thr_apply s (map dual (fst b))) [] k) P).
Proof.
  intros k b bs P Cs. induction P as [|s P IH]; [reflexivity|]. cbn [flat_map map]. rewrite map_app, IH. f_equal.
  rewrite !map_map. apply map_ext. intros c. reflexivity.
Qed.

Lemma order_hidden : forall rp1 rp2 Ps k,
  Forall2 (fun b1 b2 : list bytes * dupmap => Permutation (fst b1) (fst b2)) rp1 rp2 ->
  Forall2 (fun (b : list bytes * dupmap) P => all_arrangements (length (fst b)) P) rp1 Ps ->
  Permutation (map (backs k rp1) (choices Ps)) (map (backs k rp2) (choices Ps)).
Proof.
  intros rp1 rp2 Ps k H. revert Ps k. induction H as [|b1 b2 rp1 rp2 PB _ IH]; intros Ps k HP.
  - inversion HP; subst. constructor. constructor.
  - inversion HP as [|? P ? Ps' HP1 HP2]; subst. cbn [choices]. rewrite !backs_choices.
    apply flat_map_perm2; [|apply IH; exact HP2].
    rewrite <- (map_map (fun s => thr_apply s (map dual (fst b1))) (fun c => batch_data c [] k)).
    rewrite <- (map_map (fun s => thr_apply s (map dual (fst b2))) (fun c => batch_data c [] k)).
    apply Permutation_map. apply (apply_perm (length (fst b1))); [exact HP1|apply map_length|apply Permutation_map; exact PB].
Qed.

Lemma choices_good : forall (rp : list (list bytes * dupmap)) Ps sh,
  Forall2 (fun (b : list bytes * dupmap) P => all_arrangements (length (fst b)) P) rp Ps ->
  In sh (choices Ps) -> good_shuffles rp sh.
Proof.
  intros rp Ps sh H. revert sh. induction H as [|b P rp Ps [_ HP] _ IH]; intros sh Hin.
  - destruct Hin as [<-|[]]. constructor.
  - cbn [choices] in Hin. apply in_flat_map in Hin. destruct Hin as (s & Hs & Hin). apply in_map_iff in Hin.
    destruct Hin as (c & <- & Hc). constructor; [apply HP; exact Hs|apply IH; exact Hc].
Qed.

(** The reply to the receiver, over all outcomes of the shuffles. *)
Definition reply (broadcast : bool) (rp : list (list bytes * dupmap)) (sh : list (list nat)) : outcome (list msg) :=
  omap snd (thr_shuffle_peer Point mask ser deser dual_mask_size 0 0 (thr_mask_self Point hash_point mask ser true broadcast 0 rp) sh).

Lemma reply_backs : forall broadcast rp sh, good_provider rp -> good_shuffles rp sh ->
  reply broadcast rp sh = Ok (backs 0 rp sh).
Proof.
  intros broadcast rp sh G H. unfold reply.
  destruct (online_shuffle Point hash_point mask ser deser dual_mask_size L deser_ser ser_len mask_comm broadcast rp sh 0 [] G H) as [E _].
  cbn [length] in E. rewrite E. reflexivity.
Qed.

Lemma reply_hidden : forall b1 b2 rp1 rp2 Ps,
  good_provider rp1 -> good_provider rp2 ->
  Forall2 (fun x y : list bytes * dupmap => Permutation (fst x) (fst y)) rp1 rp2 ->
  Forall2 (fun (b : list bytes * dupmap) P => all_arrangements (length (fst b)) P) rp1 Ps ->
  Permutation (map (reply b1 rp1) (choices Ps)) (map (reply b2 rp2) (choices Ps)) /\
  Forall (fun sh => exists ms, reply b1 rp1 sh = Ok ms) (choices Ps).
Proof.
  intros b1 b2 rp1 rp2 Ps G1 G2 H HP.
  assert (HP2 : Forall2 (fun (b : list bytes * dupmap) P => all_arrangements (length (fst b)) P) rp2 Ps).
  { clear G1 G2. revert Ps HP. induction H as [|x y rp1 rp2 PB _ IH]; intros Ps HP.
    - inversion HP; constructor.
    - inversion HP as [|? P ? Ps' A1 A2]; subst. constructor; [|apply IH; exact A2].
      rewrite <- (Permutation_length PB). exact A1. }
  rewrite (map_ext_in (reply b1 rp1) (fun sh => Ok (backs 0 rp1 sh)))
    by (intros sh Hsh; apply reply_backs; [exact G1|apply (choices_good rp1 Ps); assumption]).
  rewrite (map_ext_in (reply b2 rp2) (fun sh => Ok (backs 0 rp2 sh)))
    by (intros sh Hsh; apply reply_backs; [exact G2|apply (choices_good rp2 Ps); assumption]).
  split.
  - rewrite <- (map_map (backs 0 rp1) (fun m => Ok m)), <- (map_map (backs 0 rp2) (fun m => Ok m)). apply Permutation_map. apply order_hidden; assumption.
  - apply Forall_forall. intros sh Hsh. eexists. apply reply_backs; [exact G1|apply (choices_good rp1 Ps); assumption].
Qed.

(** ** Batches of one item *)
Lemma gsig_single : forall rp sh base, good_shuffles rp sh -> Forall (fun b => length (fst b) = 1) rp ->
  gsig base rp sh = seq base (length (sent rp)).
Proof.
  intros rp sh base H. revert base. induction H as [|b s rp sh P _ IH]; intros base F; [reflexivity|].
  inversion F as [|? ? F1 F2]; subst. cbn [gsig]. rewrite IH by exact F2. rewrite F1 in *.
  apply Permutation_sym, Permutation_length_1_inv in P.
  subst s. cbn [map]. unfold sent. cbn [flat_map]. rewrite app_length, map_length, number_length, F1. cbn.
  rewrite Nat.add_0_r, Nat.add_1_r. reflexivity.
Qed.

Lemma single_reveal : forall broadcast rp sp sh,
  good_provider rp -> good_provider sp -> good_shuffles rp sh -> Forall (fun b => length (fst b) = 1) rp ->
  (forall x y, In x (map fst (sent rp)) -> In y (map fst (sent sp)) -> dual y = dual x -> y = x) ->
  exists cache self peer,
    thr_online Point hash_point mask ser deser dual_mask_size broadcast rp sp sh = Ok (cache, self, peer) /\
    matches self peer = matches (sent rp) (sent sp).
Proof.
  intros broadcast rp sp sh Gr Gs Hs F DI.
  rewrite (online_ok Point hash_point mask ser deser dual_mask_size L deser_ser ser_len mask_comm broadcast rp sp sh Gr Gs Hs).
  eexists _, _, _. split; [reflexivity|]. rewrite (gsig_single rp sh 0 Hs F).
  rewrite <- (map_map (fun j => nth j (sent rp) dflt) (fun e => (dual (fst e), 0%N))), map_nth_seq.
  unfold matches. rewrite number_map', flat_map_concat_map, map_map, <- flat_map_concat_map.
  set (S := sent sp) in *. generalize DI. generalize 0. clear. induction (sent rp) as [|x R IH]; intros k DI; [reflexivity|].
  cbn [number flat_map]. rewrite (IH (Datatypes.S k)).
  - f_equal. unfold match1. cbn [fst snd].
    assert (G : forall l, (forall y, In y (map fst l) -> dual y = dual (fst x) -> y = fst x) ->
      find (fun q : bytes * N => beqb (fst q) (dual (fst x))) (map (fun e => (dual (fst e), snd e)) l) =
      option_map (fun e => (dual (fst e), snd e)) (find (fun q => beqb (fst q) (fst x)) l)).
    { induction l as [|y l IHl]; intros H; [reflexivity|]. cbn [map find fst].
      destruct (beqb (fst y) (fst x)) eqn:E.
      - apply beqb_spec in E. rewrite E, (proj2 (beqb_spec _ _) eq_refl). cbn. rewrite E. reflexivity.
      - destruct (beqb (dual (fst y)) (dual (fst x))) eqn:E2.
        + apply beqb_spec in E2. apply H in E2; [|left; reflexivity]. rewrite E2, (proj2 (beqb_spec _ _) eq_refl) in E. discriminate.
        + apply IHl. intros z Hz. apply H. right. exact Hz. }
    rewrite (G S (fun y Hy => DI (fst x) y (or_introl eq_refl) Hy)). destruct (find _ S); reflexivity.
  - intros a b Ha Hb. apply DI; [right; exact Ha|exact Hb].
Qed.
End Main.
