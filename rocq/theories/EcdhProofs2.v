From Coq Require Import List NArith ZArith Lia Bool Permutation Sorted Arith.
From Verif Require Import Base BaseProofs Text TextProofs StoreModel StoreSpec StoreProofs EcdhModel EcdhSpec EcdhProofs.
Import ListNotations.

(** ** Provider wrapper *)
Lemma assoc_numbered : forall (b : list (bytes * N)) k i,
  assoc i (flat_map (fun p => if (1 <? snd (snd p))%N then [(fst p, (snd (snd p) - 1)%N)] else []) (number k b)) =
  match (if Nat.ltb i k then None else nth_error b (i - k)) with
  | Some x => if (1 <? snd x)%N then Some (snd x - 1)%N else None
  | None => None
  end.
Proof.
  induction b as [|x b IH]; intros k i.
  - simpl. destruct (Nat.ltb i k); auto. destruct (i - k); reflexivity.
  - cbn [number flat_map fst snd].
    destruct (Nat.ltb_spec i k).
    + assert (HN : assoc i (flat_map (fun p => if (1 <? snd (snd p))%N then [(fst p, (snd (snd p) - 1)%N)] else []) (number (S k) b)) = None).
      { rewrite IH. destruct (Nat.ltb_spec i (S k)); [reflexivity|lia]. }
      destruct (1 <? snd x)%N; cbn [app assoc]; auto. destruct (Nat.eqb_spec k i); [lia|auto].
    + destruct (Nat.eq_dec k i) as [->|Hne].
      * rewrite Nat.sub_diag. cbn [nth_error].
        destruct (1 <? snd x)%N; cbn [app assoc]; [rewrite Nat.eqb_refl; reflexivity|].
        rewrite IH. destruct (Nat.ltb_spec i (S i)); [reflexivity|lia].
      * assert (HS : assoc i (flat_map (fun p => if (1 <? snd (snd p))%N then [(fst p, (snd (snd p) - 1)%N)] else []) (number (S k) b)) =
                 match nth_error b (i - S k) with Some x => if (1 <? snd x)%N then Some (snd x - 1)%N else None | None => None end).
        { rewrite IH. destruct (Nat.ltb_spec i (S k)); [lia|reflexivity]. }
        replace (i - k) with (S (i - S k)) by lia. cbn [nth_error].
        destruct (1 <? snd x)%N; cbn [app assoc]; auto. destruct (Nat.eqb_spec k i); [lia|auto].
Qed.

Lemma wrap_dup : forall b i x, nth_error b i = Some x -> dup_at (snd (wrap b)) i = (snd x - 1)%N.
Proof.
  intros b i x H. unfold dup_at, wrap. cbn [snd]. rewrite assoc_numbered. cbn [Nat.ltb Nat.leb].
  rewrite Nat.sub_0_r, H. destruct (N.ltb_spec 1 (snd x)); lia.
Qed.

Lemma number_nth : forall (A : Type) (l : list A) k p, In p (number k l) -> k <= fst p /\ nth_error l (fst p - k) = Some (snd p).
Proof. intros A l k [j x] H. apply number_in in H. exact H. Qed.

Lemma wrapped_items : forall (A : Type) (g : bytes -> N -> A) b,
  map (fun ix => g (snd ix) (dup_at (snd (wrap b)) (fst ix))) (number 0 (fst (wrap b))) =
  map (fun x => g (fst x) (snd x - 1)%N) b.
Proof.
  intros A g b. unfold wrap at 2. cbn [fst]. rewrite number_map, map_map. cbn [fst snd].
  transitivity (map (fun p => g (fst (snd p)) (snd (snd p) - 1)%N) (number 0 b)).
  - apply map_ext_in. intros p Hp. apply number_nth in Hp. destruct Hp as [_ Hp]. rewrite Nat.sub_0_r in Hp.
    rewrite (wrap_dup _ _ _ Hp). reflexivity.
  - rewrite <- (map_map snd (fun x => g (fst x) (snd x - 1)%N)), number_snd. reflexivity.
Qed.

Lemma flat_map_wrapped : forall (A : Type) (g : bytes -> N -> A) bs,
  flat_map (fun b => map (fun ix => g (snd ix) (dup_at (snd b) (fst ix))) (number 0 (fst b))) (map wrap bs) =
  map (fun x => g (fst x) (snd x - 1)%N) (concat bs).
Proof.
  intros A g bs. induction bs as [|b bs IH]; auto. cbn [map flat_map concat].
  rewrite map_app, <- IH. f_equal. apply wrapped_items.
Qed.

Lemma wrapped_fst : forall bs, concat (map fst (map wrap bs)) = map fst (concat bs).
Proof. induction bs; simpl; auto. rewrite map_app. congruence. Qed.

(** ** Matching encrypted lists *)
Lemma find_enc : forall (f : bytes -> bytes) (peer : list (bytes * N)) x,
  (forall y, In y (map fst peer) -> f y = f x -> y = x) ->
  find (fun q => beqb (fst q) (f x)) (map (fun y => (f (fst y), (snd y - 1)%N)) peer) =
  option_map (fun y => (f (fst y), (snd y - 1)%N)) (find (fun y => beqb (fst y) x) peer).
Proof.
  intros f peer x. induction peer as [|[y c] peer IH]; intros H; auto.
  cbn [map find fst snd]. destruct (beqb y x) eqn:E.
  - apply beqb_spec in E. subst. rewrite (proj2 (beqb_spec _ _) eq_refl). reflexivity.
  - destruct (beqb (f y) (f x)) eqn:E2.
    + apply beqb_spec in E2. apply H in E2; [|left; auto]. subst.
      rewrite (proj2 (beqb_spec _ _) eq_refl) in E. discriminate.
    + apply IH. intros z Hz. apply H. right. auto.
Qed.

Lemma flat_map_ext_in' : forall (A B : Type) (f g : A -> list B) l,
  (forall x, In x l -> f x = g x) -> flat_map f l = flat_map g l.
Proof. induction l; simpl; intros H; auto. rewrite H by auto. f_equal. auto. Qed.

Lemma matches_enc : forall (f : bytes -> bytes) self peer,
  (forall x y, In x (map fst self) -> In y (map fst peer) -> f y = f x -> y = x) ->
  Forall good_count peer ->
  map (fun p => (fst p, u32 (snd p + 1)))
    (matches (map (fun x => (f (fst x), 0%N)) self) (map (fun y => (f (fst y), (snd y - 1)%N)) peer)) =
  matches self peer.
Proof.
  intros f self peer H G. unfold matches. rewrite number_map, flat_map_map, map_flat_map.
  apply flat_map_ext_in'. intros [i [x c]] Hin. unfold match1. cbn [fst snd].
  rewrite find_enc.
  2:{ intros y Hy. apply H; auto. apply number_in in Hin. destruct Hin as [_ Hin]. apply nth_error_In in Hin.
      apply in_map_iff. exists (x, c). auto. }
  destruct (find (fun y => beqb (fst y) x) peer) as [[y d]|] eqn:E; auto.
  cbn [option_map map fst snd]. apply find_some in E. destruct E as [E _].
  rewrite Forall_forall in G. apply G in E. unfold good_count in E. cbn [snd] in E.
  replace (d - 1 + 1)%N with d by lia. rewrite u32_small by lia. reflexivity.
Qed.

(** Meaning of [matches] when the peer's items are distinct. *)
Lemma in_matches : forall self peer i c, NoDup (map fst peer) ->
  (In (i, c) (matches self peer) <->
   exists x d, nth_error self (N.to_nat i) = Some (x, d) /\ In (x, c) peer).
Proof.
  intros self peer i c ND. unfold matches. rewrite in_flat_map. split.
  - intros ([j [x d]] & Hin & Hm). apply number_in in Hin. destruct Hin as [_ Hin]. rewrite Nat.sub_0_r in Hin.
    unfold match1 in Hm. cbn [fst snd] in Hm.
    destruct (find _ peer) as [[y e]|] eqn:E; [|destruct Hm].
    destruct Hm as [Hm|[]]. injection Hm as <- <-. apply find_some in E. destruct E as [E1 E2].
    cbn [fst] in E2. apply beqb_spec in E2. subst y. exists x, d. rewrite Nat2N.id. auto.
  - intros (x & d & Hn & Hp). exists (N.to_nat i, (x, d)). split.
    + apply number_in. split; [lia|]. rewrite Nat.sub_0_r. exact Hn.
    + unfold match1. cbn [fst snd]. destruct (find (fun q => beqb (fst q) x) peer) as [[y e]|] eqn:E.
      * apply find_some in E. destruct E as [E1 E2]. cbn [fst] in E2. apply beqb_spec in E2. subst y.
        left. rewrite N2Nat.id. cbn [snd]. f_equal.
        clear -ND E1 Hp. induction peer as [|[z f] peer IH]; [destruct Hp|].
        cbn [map fst] in ND. inversion ND as [|? ? Hz Hr]; subst.
        destruct E1 as [E1|E1], Hp as [Hp|Hp].
        -- congruence.
        -- injection E1 as -> ->. exfalso. apply Hz. apply in_map_iff. exists (x, c). auto.
        -- injection Hp as -> ->. exfalso. apply Hz. apply in_map_iff. exists (x, e). auto.
        -- auto.
      * exfalso. apply (find_none _ _ E) in Hp. cbn [fst] in Hp.
        rewrite (proj2 (beqb_spec _ _) eq_refl) in Hp. discriminate.
Qed.

Lemma matches_once : forall self peer, NoDup (map fst (matches self peer)).
Proof.
  intros self peer. destruct (matches_sorted (fun _ => 0%N) self peer 0) as [H _]. fold (matches self peer) in H.
  induction H as [|x l Hl IH Hf]; constructor; auto. intros Hin. rewrite Forall_forall in Hf. apply Hf in Hin. lia.
Qed.

Lemma matches_meaning : forall self peer, NoDup (map fst peer) ->
  NoDup (map fst (matches self peer)) /\
  forall i c, In (i, c) (matches self peer) <->
     exists x d, nth_error self (N.to_nat i) = Some (x, d) /\ In (x, c) peer.
Proof.
  intros self peer H. split; [apply matches_once|]. intros. apply in_matches. auto.
Qed.

(** ** Two-party protocol *)
Section Protocol.
Variable Point : Type.
Variable hash_point : bytes -> Point.
Variable mask : bool -> Point -> Point.
Variable ser : Point -> bytes.
Variable deser : bytes -> Point.
Variable dual_mask_size L : nat.
Variable target : option bool.
Variable window : option nat.
Variable pb : bool -> list (list (bytes * N)).
Hypothesis deser_ser : forall x, deser (ser x) = x.
Hypothesis ser_len : forall x, length (ser x) = L.
Hypothesis window_pos : match window with None => True | Some w => 0 < w end.
Hypothesis pb_nonempty : forall p, Forall (fun b => b <> []) (pb p).

Notation touch := (can_touch target).
Notation prov := (fun p : bool => map wrap (pb p)).
Notation step' := (step Point hash_point mask ser deser dual_mask_size target window).
Notation runs' := (runs Point hash_point mask ser deser dual_mask_size target window).
Notation start' := (start target prov).
Definition cipher (p : bool) (x : bytes) : bytes :=
  last_bytes dual_mask_size (ser (mask (negb p) (mask p (hash_point x)))).

Lemma prov_ne : forall p, Forall (fun b : list bytes * dupmap => fst b <> []) (prov p).
Proof.
  intros p. apply Forall_forall. intros b Hb. apply in_map_iff in Hb. destruct Hb as (x & <- & Hx).
  pose proof (pb_nonempty p) as H. rewrite Forall_forall in H. apply H in Hx.
  unfold wrap. cbn [fst]. destruct x; [contradiction|discriminate].
Qed.

Lemma reach_inv : forall tr s, runs' start' tr s ->
  exists c, Inv Point hash_point mask ser dual_mask_size target prov s c /\ total c = length tr.
Proof. intros tr s R. eapply runs_inv; eauto. apply prov_ne. Qed.

Lemma sched_safe : forall tr s, runs' start' tr s ->
  (forall p a, step' p a s <> SFail) /\
  (finished s \/ exists p a s', step' p a s = SNext s') /\
  length tr <= 8 + 4 * (length (pb true) + length (pb false)).
Proof.
  intros tr s R. destruct (reach_inv tr s R) as (c & I & T). split; [|split].
  - intros p a. eapply step_no_fail; eauto. apply prov_ne.
  - eapply progress; eauto. apply prov_ne.
  - rewrite <- T. pose proof (total_bound Point mask target prov prov_ne c) as HB. unfold run_bound, nb in HB.
    rewrite !map_length in HB. eapply HB. apply I.
Qed.

Lemma sched_finishes : exists tr s, runs' start' tr s /\ finished s.
Proof.
  assert (H : forall n tr s, runs' start' tr s ->
     8 + 4 * (length (pb true) + length (pb false)) - length tr <= n -> exists tr' s', runs' start' tr' s' /\ finished s').
  { induction n as [|n IH]; intros tr s R Hn; destruct (sched_safe tr s R) as (_ & [F|(p & a & s' & St)] & Hb); eauto.
    - assert (R' : runs' start' (tr ++ [(p, a)]) s') by (econstructor; eauto).
      destruct (sched_safe _ _ R') as (_ & _ & Hb'). rewrite app_length in Hb'. cbn [length] in Hb'. lia.
    - apply (IH (tr ++ [(p, a)]) s'); [econstructor; eauto|]. rewrite app_length. cbn [length]. lia. }
  eapply (H _ [] start'); [constructor|]. apply le_n.
Qed.

Lemma sched_unique : forall tr1 s1 tr2 s2,
  runs' start' tr1 s1 -> runs' start' tr2 s2 -> finished s1 -> finished s2 ->
  forall p, s1 p = s2 p.
Proof.
  intros tr1 s1 tr2 s2 R1 R2 F1 F2 p.
  destruct (reach_inv _ _ R1) as (c1 & I1 & _). destruct (reach_inv _ _ R2) as (c2 & I2 & _).
  pose proof (finished_counters _ _ _ _ _ _ _ prov_ne _ _ I1 F1) as C1.
  pose proof (finished_counters _ _ _ _ _ _ _ prov_ne _ _ I2 F2) as C2.
  destruct I1 as [_ E1]. destruct I2 as [_ E2]. rewrite E1, E2. unfold canon. rewrite !C1, !C2. reflexivity.
Qed.

Lemma sched_outsider : forall tr s p, runs' start' tr s -> touch p = false ->
  self_store (s p) = [] /\ peer_store (s p) = [] /\ out_dual (s (negb p)) = [] /\
  Forall (fun m => m_dup m = []) (out_main (s (negb p))).
Proof.
  intros tr s p R T. destruct (reach_inv _ _ R) as (c & I & _). eapply outsider; eauto.
Qed.

Hypothesis mask_comm : forall x, mask true (mask false x) = mask false (mask true x).

Lemma comm : forall p x, mask p (mask (negb p) x) = mask (negb p) (mask p x).
Proof. intros [] x; simpl; auto. Qed.

Lemma end_stores : forall tr s p, runs' start' tr s -> finished s -> touch p = true ->
  self_store (s p) = map (fun x => (cipher p (fst x), 0%N)) (concat (pb p)) /\
  peer_store (s p) = map (fun y => (cipher p (fst y), (snd y - 1)%N)) (concat (pb (negb p))).
Proof.
  intros tr s p R F T. destruct (reach_inv _ _ R) as (c & I & _).
  destruct (final_stores _ _ _ _ _ _ _ prov_ne s c I F p) as (H1 & H2 & _).
  rewrite H1, H2. unfold final_self, final_peer. rewrite T. split.
  - rewrite wrapped_fst, map_map. reflexivity.
  - rewrite (flat_map_wrapped _ (fun x d => (last_bytes dual_mask_size (ser (mask p (mask (negb p) (hash_point x)))), d))).
    apply map_ext. intros x. unfold cipher. rewrite comm. reflexivity.
Qed.

Lemma psi_exact_memory : forall tr s p,
  (forall x y, In x (map fst (concat (pb p))) -> In y (map fst (concat (pb (negb p)))) ->
     cipher p y = cipher p x -> y = x) ->
  Forall good_count (concat (pb (negb p))) ->
  (N.of_nat (length (concat (pb p))) < max64)%N -> (N.of_nat (length (concat (pb (negb p)))) < max64)%N ->
  runs' start' tr s -> finished s -> touch p = true ->
  on_end_memory (ms_save_all ms_empty (self_store (s p))) (ms_save_all ms_empty (peer_store (s p))) =
  matches (concat (pb p)) (concat (pb (negb p))).
Proof.
  intros tr s p CF G B1 B2 R F T. destruct (end_stores tr s p R F T) as [E1 E2].
  rewrite (on_end_memory_exact (fun _ => 0%N)) by (rewrite ?E1, ?E2, map_length; auto).
  rewrite E1, E2. apply (matches_enc (cipher p)); auto.
Qed.

Lemma psi_exact_bins : forall (hash : bytes -> N) num tr s p,
  (forall x, Forall is_byte (ser x)) -> 0 < num ->
  (forall x y, In x (map fst (concat (pb p))) -> In y (map fst (concat (pb (negb p)))) ->
     cipher p y = cipher p x -> y = x) ->
  Forall good_count (concat (pb (negb p))) ->
  (N.of_nat (length (concat (pb p))) < max64)%N -> (N.of_nat (length (concat (pb (negb p)))) < max64)%N ->
  runs' start' tr s -> finished s -> touch p = true ->
  exists cs cp m,
    omap (fun c => hb_write_all hash c (self_store (s p))) (hb_open [] num) = Ok cs /\
    omap (fun c => hb_write_all hash c (peer_store (s p))) (hb_open [] num) = Ok cp /\
    on_end_bins cs cp = Ok m /\
    Permutation m (matches (concat (pb p)) (concat (pb (negb p)))).
Proof.
  intros hash num tr s p SB Hn CF G B1 B2 R F T. destruct (end_stores tr s p R F T) as [E1 E2].
  assert (HB : forall x, Forall is_byte (cipher p x)).
  { intros x. unfold cipher, last_bytes. specialize (SB (mask (negb p) (mask p (hash_point x)))).
    rewrite <- (firstn_skipn (length (ser (mask (negb p) (mask p (hash_point x)))) - dual_mask_size)) in SB at 1.
    apply Forall_app in SB. tauto. }
  destruct (on_end_bins_exact hash num (self_store (s p)) (peer_store (s p))) as (cs & cp & m & H1 & H2 & H3 & H4); auto.
  - rewrite E1. apply Forall_forall. intros y Hy. apply in_map_iff in Hy. destruct Hy as (x & <- & _).
    split; cbn [fst snd]; auto. reflexivity.
  - rewrite E2. apply Forall_forall. intros y Hy. apply in_map_iff in Hy. destruct Hy as (x & <- & Hx).
    split; cbn [fst snd]; auto. rewrite Forall_forall in G. apply G in Hx. unfold good_count in Hx. lia.
  - rewrite E1, map_length. auto.
  - rewrite E2, map_length. auto.
  - exists cs, cp, m. repeat split; auto. rewrite H4. rewrite (psi_exact_memory tr s p); auto.
Qed.

(** The in-memory wrapper. *)
Lemma in_memory_spec : forall items f peer,
  in_memory_result items peer (map f items) = Ok (filter (fun x => existsb (beqb (f x)) peer) items).
Proof.
  induction items as [|x items IH]; intros f peer; [reflexivity|].
  cbn [map in_memory_result filter]. rewrite IH. cbn [bind]. reflexivity.
Qed.

Lemma psi_exact_items : forall tr s p,
  (forall x y, In x (map fst (concat (pb p))) -> In y (map fst (concat (pb (negb p)))) ->
     cipher p y = cipher p x -> y = x) ->
  runs' start' tr s -> finished s ->
  in_memory_result (map fst (concat (pb p))) (map fst (peer_store (s p))) (map fst (self_store (s p))) =
  Ok (if touch p then filter (fun x => existsb (beqb x) (map fst (concat (pb (negb p))))) (map fst (concat (pb p))) else []).
Proof.
  intros tr s p CF R F. destruct (touch p) eqn:T.
  - destruct (end_stores tr s p R F T) as [E1 E2]. rewrite E1, E2, !map_map. cbn [fst].
    rewrite <- (map_map fst (cipher p) (concat (pb p))), <- (map_map fst (cipher p) (concat (pb (negb p)))).
    rewrite in_memory_spec. f_equal.
    apply filter_ext_in. intros x Hx.
    assert (HE : forall l, (forall y, In y l -> cipher p y = cipher p x -> y = x) ->
                 existsb (beqb (cipher p x)) (map (cipher p) l) = existsb (beqb x) l).
    { induction l as [|y l IHl]; intros Hl; auto. cbn [map existsb]. f_equal.
      - destruct (beqb x y) eqn:E.
        + apply beqb_spec in E. subst. apply beqb_spec. reflexivity.
        + destruct (beqb (cipher p x) (cipher p y)) eqn:E3; auto. apply beqb_spec in E3.
          rewrite (Hl y (or_introl eq_refl)) in E by auto. rewrite (proj2 (beqb_spec _ _) eq_refl) in E. discriminate.
      - apply IHl. intros z Hz. apply Hl. right. auto. }
    apply HE. intros y Hy. apply CF; auto.
  - destruct (sched_outsider tr s p R T) as (E1 & _). rewrite E1. reflexivity.
Qed.
End Protocol.

(** ** Resume *)
Lemma sent_wrapped : forall pb, sent (map wrap pb) = map (fun x => (fst x, (snd x - 1)%N)) (concat pb).
Proof. intros pb. unfold sent. apply (flat_map_wrapped _ (fun x d => (x, d))). Qed.

Lemma sent_fst : forall bs, map fst (sent bs) = concat (map fst bs).
Proof.
  induction bs as [|b bs IH]; auto. unfold sent in *. cbn [flat_map map concat].
  rewrite map_app, IH, map_map. cbn [fst]. rewrite number_snd. reflexivity.
Qed.

Lemma skip_boundary : forall pre post,
  Forall (fun b : list bytes * dupmap => fst b <> []) pre ->
  skip_processed (pre ++ post) (length (concat (map fst pre))) = Ok post.
Proof.
  induction pre as [|[b d] pre IH]; intros post H; [destruct post; reflexivity|].
  inversion H as [|? ? Hb Hr]; subst. cbn [fst] in Hb. cbn [map concat app fst]. rewrite app_length.
  destruct b as [|x b]; [contradiction|].
  cbn [length Nat.add]. cbn [skip_processed app length Nat.eqb].
  destruct (Nat.leb_spec (S (length b)) (S (length b + length (concat (map fst pre))))); [|lia].
  replace (S (length b + length (concat (map fst pre))) - S (length b)) with (length (concat (map fst pre))) by lia.
  apply IH. auto.
Qed.

Lemma skip_straddle : forall pre b d post k,
  Forall (fun b : list bytes * dupmap => fst b <> []) pre -> 0 < k < length b ->
  skip_processed (pre ++ (b, d) :: post) (length (concat (map fst pre)) + k) = Ok ((skipn k b, d) :: post).
Proof.
  induction pre as [|[b0 d0] pre IH]; intros b d post k H Hk.
  - cbn [map concat length Nat.add app]. destruct k as [|k]; [lia|]. cbn [skip_processed].
    destruct (Nat.eqb_spec (length b) 0); [lia|].
    destruct (Nat.leb_spec (length b) (S k)); [lia|]. cbv zeta.
    assert (HD : forall m : dupmap, flat_map (fun ic => if 0 <=? fst ic then [(fst ic - 0, snd ic)] else []) m = m).
    { clear. induction m as [|[i c] m IHm]; auto. cbn [flat_map]. rewrite IHm. cbn [fst snd Nat.leb app]. rewrite Nat.sub_0_r. reflexivity. }
    rewrite HD. reflexivity.
  - inversion H as [|? ? Hb Hr]; subst. cbn [fst] in Hb. cbn [map concat app fst]. rewrite app_length.
    destruct b0 as [|x b0]; [contradiction|].
    cbn [length Nat.add]. cbn [skip_processed length Nat.eqb].
    destruct (Nat.leb_spec (S (length b0)) (S (length b0 + length (concat (map fst pre)) + k))); [|lia].
    replace (S (length b0 + length (concat (map fst pre)) + k) - S (length b0)) with (length (concat (map fst pre)) + k) by lia.
    apply IH; auto.
Qed.

(** Where the resume position falls. *)
Lemma locate : forall (bs : list (list bytes * dupmap)) k,
  k <= length (concat (map fst bs)) ->
  (exists pre post, bs = pre ++ post /\ k = length (concat (map fst pre))) \/
  (exists pre b d post j, bs = pre ++ (b, d) :: post /\ 0 < j < length b /\ k = length (concat (map fst pre)) + j).
Proof.
  induction bs as [|[b d] bs IH]; intros k H.
  - left. exists [], []. simpl in *. split; auto. lia.
  - cbn [map concat fst] in H. rewrite app_length in H.
    destruct (Nat.eq_dec k 0) as [->|Hk]; [left; exists [], ((b, d) :: bs); auto|].
    destruct (Nat.ltb_spec k (length b)) as [Hlt|Hge].
    + right. exists [], b, d, bs, k. simpl. split; [auto|]. split; lia.
    + destruct (IH (k - length b)) as [(pre & post & E & Ek)|(pre & b' & d' & post & j & E & Hj & Ek)]; [lia| |].
      * left. exists ((b, d) :: pre), post. split; [simpl; congruence|].
        cbn [map concat fst]. rewrite app_length. lia.
      * right. exists ((b, d) :: pre), b', d', post, j. split; [simpl; congruence|]. split; auto.
        cbn [map concat fst]. rewrite app_length. lia.
Qed.

Lemma skipn_map' : forall (A B : Type) (f : A -> B) l k, skipn k (map f l) = map f (skipn k l).
Proof. induction l; intros [|k]; simpl; auto. Qed.

Lemma resume_items : forall bs k,
  Forall (fun b : list bytes * dupmap => fst b <> []) bs -> k <= length (concat (map fst bs)) ->
  exists bs', skip_processed bs k = Ok bs' /\
    map fst (sent bs') = skipn k (map fst (sent bs)) /\
    Forall (fun b => fst b <> []) bs'.
Proof.
  intros bs k H Hk. rewrite sent_fst.
  destruct (locate bs k Hk) as [(pre & post & -> & ->)|(pre & b & d & post & j & -> & Hj & ->)].
  - apply Forall_app in H. destruct H as [Hp Hq]. exists post. split; [apply skip_boundary; auto|].
    split; auto. rewrite sent_fst, map_app, concat_app, skipn_app, skipn_all, Nat.sub_diag. reflexivity.
  - apply Forall_app in H. destruct H as [Hp Hq]. inversion Hq as [|? ? Hb Hr]; subst.
    eexists. split; [apply skip_straddle; auto|]. split.
    + rewrite sent_fst, map_app, concat_app. cbn [map concat fst].
      rewrite skipn_app, (skipn_all2 (concat (map fst pre))) by lia.
      replace (length (concat (map fst pre)) + j - length (concat (map fst pre))) with j by lia.
      cbn [app]. rewrite skipn_app. replace (j - length b) with 0 by lia. reflexivity.
    + constructor; auto. cbn [fst]. intros E. apply (f_equal (@length _)) in E. rewrite skipn_length in E. simpl in E. lia.
Qed.

Lemma resume_boundary : forall pre post,
  Forall (fun b : list bytes * dupmap => fst b <> []) pre ->
  exists bs', skip_processed (pre ++ post) (length (concat (map fst pre))) = Ok bs' /\
    sent bs' = skipn (length (concat (map fst pre))) (sent (pre ++ post)).
Proof.
  intros pre post H. exists post. split; [apply skip_boundary; auto|].
  unfold sent. rewrite flat_map_app. fold (sent pre) (sent post).
  assert (HL : length (concat (map fst pre)) = length (sent pre)) by (rewrite <- sent_fst, map_length; auto).
  rewrite HL, skipn_app, skipn_all, Nat.sub_diag. reflexivity.
Qed.

Lemma resume_no_dups : forall pre b post j,
  Forall (fun b : list bytes * dupmap => fst b <> []) pre -> 0 < j < length b ->
  exists bs', skip_processed (pre ++ (b, []) :: post) (length (concat (map fst pre)) + j) = Ok bs' /\
    sent bs' = skipn (length (concat (map fst pre)) + j) (sent (pre ++ (b, []) :: post)).
Proof.
  intros pre b post j H Hj. eexists. split; [apply skip_straddle; auto|].
  unfold sent. rewrite flat_map_app. fold (sent pre). cbn [flat_map fst snd].
  fold (sent post).
  assert (HL : length (concat (map fst pre)) = length (sent pre)) by (rewrite <- sent_fst, map_length; auto).
  rewrite HL, skipn_app, (skipn_all2 (sent pre)) by lia.
  replace (length (sent pre) + j - length (sent pre)) with j by lia. cbn [app].
  assert (HM : forall l : list bytes, map (fun ix => (snd ix, dup_at [] (fst ix))) (number 0 l) = map (fun x => (x, 0%N)) l).
  { intros l. unfold dup_at. cbn [assoc]. rewrite <- (map_map snd (fun x => (x, 0%N))), number_snd. reflexivity. }
  rewrite !HM. rewrite skipn_app, map_length, skipn_map'. replace (j - length b) with 0 by lia. reflexivity.
Qed.

(** Counts as the code leaves them after a resume inside a batch. *)
Lemma resume_straddle_counts : forall pre b d post j,
  Forall (fun b : list bytes * dupmap => fst b <> []) pre -> 0 < j < length b ->
  exists bs', skip_processed (pre ++ (b, d) :: post) (length (concat (map fst pre)) + j) = Ok bs' /\
    sent bs' = map (fun ix => (snd ix, dup_at d (fst ix))) (number 0 (skipn j b)) ++ sent post.
Proof.
  intros pre b d post j H Hj. eexists. split; [apply skip_straddle; auto|]. reflexivity.
Qed.

Lemma resume_too_far : forall bs k, Forall (fun b : list bytes * dupmap => fst b <> []) bs ->
  length (concat (map fst bs)) < k -> skip_processed bs k = Throw.
Proof.
  induction bs as [|[b d] bs IH]; intros k H Hk.
  - simpl in *. destruct k; [lia|reflexivity].
  - inversion H as [|? ? Hb Hr]; subst. cbn [map concat fst] in *. rewrite app_length in Hk.
    destruct k as [|k]; [lia|]. cbn [skip_processed].
    destruct (Nat.eqb_spec (length b) 0); auto.
    destruct (Nat.leb_spec (length b) (S k)); [|lia]. apply IH; auto. lia.
Qed.

Lemma resume_witness :
  exists (pb : list (list (bytes * N))) k bs',
    Forall (fun b => b <> []) pb /\ Forall good_count (concat pb) /\
    NoDup (map fst (concat pb)) /\
    skip_processed (map wrap pb) k = Ok bs' /\
    sent bs' <> skipn k (sent (map wrap pb)).
Proof.
  exists [[([97], 1); ([98], 4); ([99], 1); ([100], 1)]]%N, 1. eexists.
  split; [repeat constructor; discriminate|]. split; [repeat constructor; cbn; try lia; reflexivity|].
  split; [repeat constructor; cbn; intuition discriminate|].
  split; [reflexivity|]. vm_compute. discriminate.
Qed.

Lemma resume_all :
  (forall bs k, Forall (fun b : list bytes * dupmap => fst b <> []) bs ->
     if Nat.leb k (length (concat (map fst bs))) then
       exists bs', skip_processed bs k = Ok bs' /\
         map fst (sent bs') = skipn k (map fst (sent bs)) /\ Forall (fun b => fst b <> []) bs'
     else skip_processed bs k = Throw) /\
  (forall pre post, Forall (fun b : list bytes * dupmap => fst b <> []) pre ->
     exists bs', skip_processed (pre ++ post) (length (concat (map fst pre))) = Ok bs' /\
       sent bs' = skipn (length (concat (map fst pre))) (sent (pre ++ post))) /\
  (forall pre b post j, Forall (fun b : list bytes * dupmap => fst b <> []) pre -> 0 < j < length b ->
     exists bs', skip_processed (pre ++ (b, []) :: post) (length (concat (map fst pre)) + j) = Ok bs' /\
       sent bs' = skipn (length (concat (map fst pre)) + j) (sent (pre ++ (b, []) :: post))) /\
  (forall pre b d post j, Forall (fun b : list bytes * dupmap => fst b <> []) pre -> 0 < j < length b ->
     exists bs', skip_processed (pre ++ (b, d) :: post) (length (concat (map fst pre)) + j) = Ok bs' /\
       sent bs' = map (fun ix => (snd ix, dup_at d (fst ix))) (number 0 (skipn j b)) ++ sent post).
Proof.
  split; [|split; [exact resume_boundary|split; [exact resume_no_dups|exact resume_straddle_counts]]].
  intros bs k H. destruct (Nat.leb_spec k (length (concat (map fst bs)))).
  - apply resume_items; auto.
  - apply resume_too_far; auto.
Qed.
