(** C38 and C55: index filtering and the legacy bucket PSI. *)
From Coq Require Import List NArith Arith Bool Lia Sorting.Sorted Sorting.Permutation.
From Verif Require Import Base BaseProofs Text TextProofs StoreModel StoreSpec StoreProofs StoreProps LegacyModel LegacySpec LegacyProofs.
Import ListNotations.

Lemma good_positions_iff : forall n ind, good_positions n ind <-> good 0 n ind.
Proof.
  intros n ind. unfold good_positions, good. split; intros [S F]; (split; [exact S|]); revert F; apply Forall_impl; intros; cbn in *; lia.
Qed.

(** C38: with header lines hs and data lines data, a strictly increasing list of in-range
    positions gives the header and exactly the listed lines (difference mode: exactly the
    others), in file order, and the number of positions; every other list is rejected.
    Both overloads behave alike. *)
Theorem C38_filter_exact : forall (A : Type) diff (hs data : list A) ind,
  (N.of_nat (length hs + length data) < max64)%N -> (N.of_nat (length ind) < max64)%N ->
  (good_positions (length data) ind ->
     filter_file diff (length hs) (hs ++ data) ind = Ok (hs ++ pick (negb diff) ind data, N.of_nat (length ind))) /\
  (~ good_positions (length data) ind -> filter_file diff (length hs) (hs ++ data) ind = Throw) /\
  filter_file_reader diff (length hs) (hs ++ data) ind = filter_file diff (length hs) (hs ++ data) ind.
Proof.
  intros A diff hs data ind H1 H2. rewrite good_positions_iff.
  destruct (filter_file_spec diff hs data ind H1 H2) as [P Q]. split; [exact P|]. split; [exact Q|].
  apply filter_reader_spec; assumption.
Qed.
Print Assumptions C38_filter_exact.

Example C38_example :
  let ls := [100; 10; 11; 12; 13] in
  filter_file false 1 ls [1; 3]%N = Ok ([100; 11; 13], 2%N) /\
  filter_file true 1 ls [1; 3]%N = Ok ([100; 10; 12], 2%N) /\
  filter_file false 1 ls [3; 1]%N = Throw /\ filter_file true 1 ls [1; 1]%N = Throw /\
  filter_file false 1 ls [4]%N = Throw /\ filter_file_reader true 1 ls [1; 3]%N = Ok ([100; 10; 12], 2%N).
Proof. vm_compute. repeat split. Qed.

(** A file without the header line is rejected in difference mode, even with no index. *)
Theorem C38_missing_header_rejected : exists ind, good_positions 0 ind /\ @filter_file N true 1 [] ind = Throw.
Proof. exists []. split; [split; constructor|reflexivity]. Qed.
Print Assumptions C38_missing_header_rejected.

(** C55.  Contract of the in-memory PSI: for the (distinct) items of a bucket it returns
    those the peer has in that bucket, in any order. *)
Definition exact_psi (hash : bytes -> N) (num : nat) (peer : list bytes) (psi : nat -> list bytes -> list bytes) : Prop :=
  forall b own, NoDup own ->
    Permutation (psi b own)
      (filter (fun d => existsb (fun p => beqb (base64 p) d && Nat.eqb (bucket_of hash num (base64 p)) b) peer) own).

Lemma nodup_app_inv : forall (B : Type) (a b : list B), NoDup (a ++ b) -> NoDup a /\ NoDup b.
Proof.
  intros B a. induction a as [|x r IH]; intros b H; [split; [constructor|exact H]|]. cbn [app] in H.
  apply NoDup_cons_iff in H. destruct H as [H1 H2]. destruct (IH b H2) as [A C]. split; [|exact C]. constructor; [|exact A].
  intros I. apply H1. apply in_or_app. left. exact I.
Qed.
Lemma beqb_refl' : forall a b, reflect (a = b) (beqb a b).
Proof. intros. apply iff_reflect. symmetry. apply beqb_spec. Qed.
Lemma get_result_exact : forall items result (f : bytes -> bool),
  Permutation result (filter f (map b_data items)) ->
  get_result_indices items result = map b_index (filter (fun it => f (b_data it)) items).
Proof.
  intros items result f P. pose proof (Permutation_length P) as L.
  assert (FM : filter f (map b_data items) = map b_data (filter (fun it => f (b_data it)) items)).
  { clear. induction items as [|x r IH]; [reflexivity|]. cbn [map filter]. destruct (f (b_data x)); cbn [map]; rewrite IH; reflexivity. }
  rewrite FM in *. rewrite map_length in L.
  unfold get_result_indices. destruct result as [|d0 r0] eqn:R.
  - cbn [length] in L. symmetry in L. apply length_zero_iff_nil in L. rewrite L. reflexivity.
  - rewrite <- R in *. clear d0 r0 R. destruct (Nat.eqb_spec (length result) (length items)) as [E|E].
    + f_equal. assert (FL : length (filter (fun it => f (b_data it)) items) = length items) by lia.
      clear - FL. induction items as [|x r IH]; [reflexivity|]. cbn [filter] in *.
      assert (B : forall l, length (filter (fun it => f (b_data it)) l) <= length l)
        by (induction l as [|y l IHl]; cbn; [lia|destruct (f (b_data y)); cbn; lia]).
      destruct (f (b_data x)); cbn [length] in FL; [f_equal; apply IH; lia|specialize (B r); lia].
    + f_equal. apply filter_ext_in'. intros it I. apply eq_true_iff_eq. rewrite existsb_exists. split.
      * intros (d & Id & Ed). apply beqb_spec in Ed. subst d.
        apply (Permutation_in _ P) in Id. rewrite <- FM in Id. apply filter_In in Id. apply Id.
      * intros F. exists (b_data it). split; [|apply beqb_spec; reflexivity].
        apply (Permutation_in _ (Permutation_sym P)). rewrite <- FM. apply filter_In. split; [apply in_map; exact I|exact F].
Qed.

Lemma sorted_perm_eq : forall l l' : list N, StronglySorted N.le l -> StronglySorted N.lt l' -> Permutation l l' -> l = l'.
Proof.
  induction l as [|x r IH]; intros l' S S' P.
  - apply Permutation_nil in P. subst. reflexivity.
  - destruct l' as [|y t]; [apply Permutation_sym, Permutation_nil in P; discriminate|].
    apply StronglySorted_inv in S. destruct S as [S1 S2]. apply StronglySorted_inv in S'. destruct S' as [S1' S2'].
    rewrite Forall_forall in S2, S2'.
    assert (x = y).
    { assert (Ix : In x (y :: t)) by (eapply Permutation_in; [exact P|left; reflexivity]).
      assert (Iy : In y (x :: r)) by (eapply Permutation_in; [apply Permutation_sym; exact P|left; reflexivity]).
      destruct Ix as [?|Ix]; [congruence|]. destruct Iy as [?|Iy]; [congruence|].
      specialize (S2' x Ix). specialize (S2 y Iy). lia. }
    subst y. f_equal. apply IH; auto. eapply Permutation_cons_inv; eauto.
Qed.

Lemma number_sorted : forall (B : Type) (f : nat * B -> bool) (l : list B) k,
  StronglySorted N.lt (map (fun p => N.of_nat (fst p)) (filter f (number k l))).
Proof.
  intros B f l. induction l as [|x r IH]; intros k; cbn [number filter]; [constructor|].
  destruct (f (k, x)); [|apply IH]. cbn [map fst]. constructor; [apply IH|].
  apply Forall_map, Forall_forall. intros p I. apply filter_In in I. destruct I as [I _]. apply number_ge in I. cbn. lia.
Qed.
Lemma number_lt : forall (B : Type) (l : list B) k p, In p (number k l) -> fst p < k + length l.
Proof.
  intros B l. induction l as [|x r IH]; intros k p I; [destruct I|]. cbn [length]. destruct I as [<-|I]; [cbn; lia|].
  specialize (IH _ _ I). lia.
Qed.
Lemma pick_selected : forall (B C : Type) (data : list B) (items : list C) (g : C -> bool) k ind0,
  length data = length items ->
  (forall p, In p ind0 -> (p < N.of_nat k)%N) ->
  map snd (filter (fun p => Bool.eqb (existsb (N.eqb (N.of_nat (fst p)))
       (ind0 ++ map (fun p => N.of_nat (fst p)) (filter (fun p => g (snd p)) (number k items)))) true) (number k data)) =
  map fst (filter (fun p => g (snd p)) (combine data items)).
Proof.
  intros B C data. induction data as [|x r IH]; intros [|y s] g k ind0 L H; cbn [length] in L; try discriminate; [reflexivity|].
  cbn [number filter combine fst snd].
  assert (N0 : existsb (N.eqb (N.of_nat k)) ind0 = false).
  { apply not_true_is_false. intros X. apply existsb_exists in X. destruct X as (p & I & E). apply N.eqb_eq in E. specialize (H p I). lia. }
  destruct (g y) eqn:G.
  - cbn [map fst]. rewrite existsb_app, N0. cbn [existsb]. rewrite N.eqb_refl. cbn [orb Bool.eqb map fst snd]. f_equal.
    specialize (IH s g (S k) (ind0 ++ [N.of_nat k]) ltac:(lia)). rewrite <- app_assoc in IH. cbn [app] in IH. apply IH.
    intros p I. apply in_app_or in I. destruct I as [I|[<-|[]]]; [specialize (H p I)|]; lia.
  - assert (N1 : existsb (N.eqb (N.of_nat k)) (map (fun p => N.of_nat (fst p)) (filter (fun p => g (snd p)) (number (S k) s))) = false).
    { apply not_true_is_false. intros X. apply existsb_exists in X. destruct X as (p & I & E). apply N.eqb_eq in E.
      apply in_map_iff in I. destruct I as (q & <- & I). apply filter_In in I. destruct I as [I _]. apply number_ge in I. lia. }
    rewrite existsb_app, N0, N1. cbn [orb Bool.eqb]. apply IH; [lia|]. intros p I. specialize (H p I). lia.
Qed.

Lemma run_buckets_ok : forall hash num peer psi c bs,
  exact_psi hash num peer psi ->
  (forall b, In b bs -> exists l, hb_load c b = Ok l /\ NoDup (map b_data l) /\ forall i, In i l -> b = bucket_of hash num (b_data i)) ->
  run_buckets psi c bs =
  Ok (map b_index (filter (fun it => existsb (fun p => beqb (base64 p) (b_data it)) peer)
       (flat_map (fun b => match hb_load c b with Ok l => l | _ => [] end) bs))).
Proof.
  intros hash num peer psi c bs HP. induction bs as [|b r IH]; intros H; [reflexivity|].
  destruct (H b (or_introl eq_refl)) as (l & El & ND & Hb). cbn [run_buckets flat_map]. rewrite El. cbn [bind].
  rewrite IH by (intros; apply H; right; assumption). cbn [bind]. f_equal. rewrite filter_app, map_app. f_equal.
  rewrite (get_result_exact l _ _ (HP b (map b_data l) ND)). f_equal.
  apply filter_ext_in'. intros it I. specialize (Hb it I). clear - Hb.
  induction peer as [|p r IH]; [reflexivity|]. cbn [existsb]. rewrite IH. f_equal.
  destruct (beqb_refl' (base64 p) (b_data it)) as [E|E]; [|reflexivity]. rewrite E, Hb, Nat.eqb_refl. reflexivity.
Qed.

(** Given an exact in-memory PSI per bucket and distinct keys, the output file is the
    header followed by exactly those data lines whose key the peer has, in file order. *)
Theorem C55_legacy_output : forall (A : Type) hash srt psi num (header : A) data items peer,
  (forall l, Permutation (srt l) l) -> (forall l, StronglySorted N.le (srt l)) ->
  0 < num -> Forall good_input items -> NoDup (map fst items) -> Forall (fun p => Forall is_byte p) peer ->
  length data = length items -> (N.of_nat (S (length data)) < max64)%N ->
  exact_psi hash num peer psi ->
  exists n, legacy_run hash psi srt num (header :: data) items =
    Ok (header :: map fst (filter (fun q => existsb (beqb (fst (snd q))) peer) (combine data items)), n).
Proof.
  intros A hash srt psi num header data items peer HP HS Hn HG HND HB HL HM HX.
  destruct (C17_cache_is_partition hash num items Hn HG ltac:(lia)) as (c & Ec & H1 & H2 & H3).
  unfold legacy_run. destruct (Nat.eqb_spec num 0); [lia|]. rewrite Ec. cbn [bind].
  set (num_items := map (fun p => mk_bitem (N.of_nat (fst p)) (snd (snd p)) (base64 (fst (snd p)))) (number 0 items)) in *.
  assert (SN : map snd (number 0 items) = items).
  { generalize 0. clear. induction items as [|x r IH]; intros k; [reflexivity|]. cbn. f_equal. apply IH. }
  assert (GB : forall x, In x items -> Forall is_byte (fst x)) by (rewrite Forall_forall in HG; intros x I; apply HG; exact I).
  assert (NDall : NoDup (map b_data num_items)).
  { unfold num_items. rewrite map_map. cbn [b_data].
    rewrite <- (map_map snd (fun x => base64 (fst x))), SN.
    clear - HND GB. induction items as [|x r IH]; [constructor|]. cbn [map] in *. apply NoDup_cons_iff in HND. destruct HND as [Hx HND].
    constructor; [|apply IH; [exact HND|intros; apply GB; right; assumption]].
    intros I. apply in_map_iff in I. destruct I as (y & E & Iy). apply Hx.
    assert (fst y = fst x).
    { apply (proj1 (C17_equal_data_equal_bucket (fun _ => 0%N) 1 (fst y) (fst x) (GB y (or_intror Iy)) (GB x (or_introl eq_refl)))). exact E. }
    rewrite <- H. apply in_map. exact Iy. }
  rewrite (run_buckets_ok hash num peer psi c (seq 0 num) HX).
  2:{ intros b Ib. apply in_seq in Ib. destruct (H1 b) as [l El]; [lia|]. exists l. split; [exact El|]. split.
      - assert (NDf : NoDup (map b_data (flat_map (fun b => match hb_load c b with Ok l => l | _ => [] end) (seq 0 num)))).
        { eapply Permutation_NoDup; [apply Permutation_sym, Permutation_map; exact H2|exact NDall]. }
        assert (SQ : In b (seq 0 num)) by (apply in_seq; lia). apply in_split in SQ. destruct SQ as (s1 & s2 & ES).
        rewrite ES, flat_map_app in NDf. cbn [flat_map] in NDf. rewrite El, map_app in NDf.
        apply nodup_app_inv, proj2 in NDf. rewrite map_app in NDf. apply nodup_app_inv, proj1 in NDf. exact NDf.
      - intros i Ii. apply (H3 b l i); [lia|exact El|exact Ii]. }
  cbn [bind].
  set (fl := flat_map _ _) in *. set (g := fun it : bitem => existsb (fun p => beqb (base64 p) (b_data it)) peer).
  set (gk := fun x : bytes * N => existsb (beqb (fst x)) peer).
  set (ind := map (fun p => N.of_nat (fst p)) (filter (fun p => gk (snd p)) (number 0 items))).
  assert (IND : srt (map b_index (filter g fl)) = ind).
  { apply sorted_perm_eq; [apply HS|apply number_sorted|].
    eapply Permutation_trans; [apply HP|].
    assert (PF : forall (f : bitem -> bool) a b, Permutation a b -> Permutation (filter f a) (filter f b)).
    { intros f a b P. induction P; cbn [filter]; auto.
      - destruct (f x); auto.
      - destruct (f x), (f y); auto using perm_swap.
      - eapply Permutation_trans; eauto. }
    eapply Permutation_trans; [apply Permutation_map, PF; exact H2|].
    unfold num_items, ind. 
    assert (Q : forall k its, (forall x, In x its -> Forall is_byte (fst x)) ->
       map b_index (filter g (map (fun p => mk_bitem (N.of_nat (fst p)) (snd (snd p)) (base64 (fst (snd p)))) (number k its)))
       = map (fun p => N.of_nat (fst p)) (filter (fun p => gk (snd p)) (number k its))).
    { intros k its. revert k. induction its as [|x r IH]; intros k GX; [reflexivity|]. cbn [number map filter snd fst].
      assert (E : g (mk_bitem (N.of_nat k) (snd x) (base64 (fst x))) = gk x).
      { unfold g, gk. cbn [b_data]. clear - HB GX. specialize (GX x (or_introl eq_refl)).
        induction peer as [|p t IHp]; [reflexivity|]. apply Forall_cons_iff in HB. destruct HB as [HB1 HB2]. cbn [existsb]. rewrite (IHp HB2). apply (f_equal2 orb); [|reflexivity].
        pose proof (proj1 (C17_equal_data_equal_bucket (fun _ => 0%N) 1 p (fst x) HB1 GX)) as I.
        apply eq_true_iff_eq. rewrite !beqb_spec, I. split; intros Q; symmetry; exact Q. }
      match goal with |- context [if ?a then _ else _] => change a with (g (mk_bitem (N.of_nat k) (snd x) (base64 (fst x)))) end.
      rewrite E. destruct (gk x); cbn [map b_index fst]; rewrite IH by (intros; apply GX; right; assumption); reflexivity. }
    rewrite Q by exact GB. apply Permutation_refl. }
  rewrite IND.
  assert (GP : good_positions (length data) ind).
  { split; [apply number_sorted|]. unfold ind. apply Forall_map, Forall_forall. intros p I. apply filter_In in I. destruct I as [I _].
    apply number_lt in I. cbn. lia. }
  assert (LI : (N.of_nat (length ind) < max64)%N).
  { unfold ind. rewrite map_length. assert (B : forall (f : nat * (bytes * N) -> bool) l, length (filter f l) <= length l)
      by (intros f l; induction l as [|y l IHl]; cbn; [lia|destruct (f y); cbn; lia]).
    specialize (B (fun p => gk (snd p)) (number 0 items)).
    assert (LN : length (number 0 items) = length items) by (rewrite <- SN at 2; rewrite map_length; reflexivity). lia. }
  destruct (C38_filter_exact A false [header] data ind ltac:(cbn [length]; lia) LI) as (R & _ & _).
  specialize (R GP). cbn [length app negb] in R. rewrite R. eexists. f_equal. f_equal. f_equal.
  unfold pick, ind. apply (pick_selected A _ data items gk 0 []); [exact HL|intros p []].
Qed.
Print Assumptions C55_legacy_output.

(** Two buckets, hash = sum of the characters, an exact PSI; the peer holds [2] and [9]. *)
Example C55_example :
  let items := [([1], 0); ([2], 0); ([3], 0); ([9], 0)]%N in
  let peer := [[9]; [2]; [7]]%N in
  let psi b own := rev (filter (fun d => existsb (fun p => beqb (base64 p) d && Nat.eqb (bucket_of sum_hash 2 (base64 p)) b) peer) own) in
  exact_psi sum_hash 2 peer psi /\ Forall good_input items /\ legacy_run sum_hash psi (fun l => match l with [a; b] => if N.leb a b then [a; b] else [b; a] | _ => l end) 2
    [100; 10; 11; 12; 13] items = Ok ([100; 11; 13], 2%N).
Proof.
  cbv zeta. split; [intros b own _; apply Permutation_sym, Permutation_rev|]. split.
  - repeat constructor.
  - vm_compute. reflexivity.
Qed.
