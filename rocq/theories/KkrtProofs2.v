(** Lemmas about the KKRT exchange: receiver side and the whole. *)
From Coq Require Import List NArith Lia Bool Arith Permutation ZifyN ZifyNat.
From Verif Require Import Base BaseProofs Text TextProofs StoreModel CuckooModel CuckooSpec CuckooProofs SyncModel
  KkrtModel KkrtSpec KkrtProofs BucketSpec.
Import ListNotations.

Lemma em_find_app : forall a b k, em_find (a ++ b) k = match em_find a k with Some v => Some v | None => em_find b k end.
Proof.
  induction a as [ | [x v] a IH]; intros b k; [reflexivity | ]. cbn [em_find app].
  destruct (beqb x k); [reflexivity | apply IH].
Qed.

Lemma em_find_emplace : forall m k v k',
  em_find (em_emplace m k v) k' =
    match em_find m k' with Some w => Some w | None => if beqb k k' then Some v else None end.
Proof.
  intros m k v k'. unfold em_emplace. destruct (em_find m k) as [w | ] eqn:E.
  - destruct (em_find m k') as [w' | ] eqn:E'; [reflexivity | ].
    destruct (beqb k k') eqn:B; [ | reflexivity]. apply beqb_spec in B. subst k'. congruence.
  - rewrite em_find_app. cbn [em_find]. destruct (em_find m k'); reflexivity.
Qed.

Lemma nth_upd_d : forall (A : Type) (d : A) n m f l, n < length l ->
  nth m (upd n f l) d = if Nat.eqb n m then f (nth m l d) else nth m l d.
Proof.
  induction n; intros m f l L; destruct l as [ | x l]; simpl in L; try lia.
  - destruct m; reflexivity.
  - destruct m; [reflexivity | ]. simpl. apply IHn. lia.
Qed.

Lemma concat_sub : forall esz (l : list bytes) k x, Forall (fun e => length e = esz) l -> nth_error l k = Some x ->
  substr (concat l) (k * esz) esz = x.
Proof.
  intros esz l. induction l as [ | a l IH]; intros k x F H; [destruct k; discriminate | ].
  inversion F as [ | ? ? F1 F2]; subst. destruct k as [ | k].
  - simpl in H. injection H as ->. unfold substr. simpl. rewrite firstn_app, Nat.sub_diag, firstn_all. simpl. apply app_nil_r.
  - simpl in H. cbn [concat]. unfold substr in *. replace (S k * length a) with (length a + k * length a) by lia.
    rewrite skipn_app. rewrite skipn_all2 by lia. cbn [app].
    replace (length a + k * length a - length a) with (k * length a) by lia.
    apply IH; assumption.
Qed.

Lemma concat_len : forall esz (l : list bytes), Forall (fun e => length e = esz) l -> length (concat l) = length l * esz.
Proof. induction l; intros F; [reflexivity | ]. inversion F; subst. simpl. rewrite app_length, IHl by assumption. lia. Qed.

Lemma flat3_nth : forall (A : Type) (g : nat -> nat -> A) m s i j, i < m -> j < 3 ->
  nth_error (flat_map (fun t => [g t 0; g t 1; g t 2]) (seq s m)) (i * 3 + j) = Some (g (s + i) j).
Proof.
  induction m; intros s i j Hi Hj; [lia | ]. cbn [seq flat_map]. destruct i as [ | i].
  - rewrite Nat.add_0_r. destruct j as [ | [ | [ | j]]]; try lia; reflexivity.
  - replace (S i * 3 + j) with (S (S (S (i * 3 + j)))) by lia. cbn [app nth_error].
    rewrite IHm by lia. f_equal. f_equal. lia.
Qed.

Lemma flat3_len : forall (A : Type) (g : nat -> nat -> A) m s,
  length (flat_map (fun t => [g t 0; g t 1; g t 2]) (seq s m)) = m * 3.
Proof. induction m; intros s; [reflexivity | ]. cbn [seq flat_map]. rewrite app_length, IHm. simpl. lia. Qed.

Lemma dup_get_none : forall f a m k, k < a -> dup_get (flat_map (fun j => if (1 <? f j)%N then [(N.of_nat j, f j)] else []) (seq a m)) (N.of_nat k) = None.
Proof.
  intros f a m k. revert a. induction m; intros a H; [reflexivity | ]. cbn [seq flat_map].
  destruct (1 <? f a)%N; cbn [app dup_get].
  - replace (N.of_nat a =? N.of_nat k)%N with false by (symmetry; apply N.eqb_neq; lia). apply IHm. lia.
  - apply IHm. lia.
Qed.

Lemma dup_get_dups : forall f m a k, a <= k < a + m ->
  dup_get (flat_map (fun j => if (1 <? f j)%N then [(N.of_nat j, f j)] else []) (seq a m)) (N.of_nat k) =
    if (1 <? f k)%N then Some (f k) else None.
Proof.
  induction m; intros a k H; [lia | ]. cbn [seq flat_map].
  destruct (Nat.eq_dec a k) as [-> | NE].
  - destruct (1 <? f k)%N; cbn [app dup_get].
    + rewrite N.eqb_refl. reflexivity.
    + apply (dup_get_none f). lia.
  - destruct (1 <? f a)%N; cbn [app dup_get].
    + replace (N.of_nat a =? N.of_nat k)%N with false by (symmetry; apply N.eqb_neq; lia). apply IHm. lia.
    + apply IHm. lia.
Qed.

Section Recv.
  Context (oprf : N -> N -> bytes) (o : ck_opts) (G : good_opts o) (H3 : ko_hash o = 3%N).
  Context (t : cuckoo) (I : ck_inv o t).

  Definition holds (p : nat) (idx x : N) (h : nat) : Prop :=
    exists e, nth_error (ck_bins t) p = Some e /\ e <> k_empty /\ input_idx e = idx /\
      nth_error (ck_hashes t) (N.to_nat idx) = Some x /\ min_colliding o t (N.of_nat p) = Ok (N.of_nat h).

  Lemma holds_exists : forall p e, nth_error (ck_bins t) p = Some e -> e <> k_empty ->
    exists x h, holds p (input_idx e) x h /\ h < 3.
  Proof.
    intros p e Hp NE.
    assert (ST : stored t (input_idx e) (InBin p (e / 2 ^ 56)%N)).
    { exists e. repeat split; auto. symmetry. apply input_idx_mod. }
    destruct (min_colliding_spec o G t p _ _ I ST) as (m & code & E & EC & Lm & _).
    destruct (inv_places o G t I) as (_ & _ & X). destruct (X _ _ _ ST) as (LH & _).
    exists code, (N.to_nat m). split; [ | lia].
    exists e. rewrite N2Nat.id. auto.
  Qed.

  Lemma recv_bins_spec : forall l p0 maps, length maps = 3 ->
    (forall k e, nth_error l k = Some e -> nth_error (ck_bins t) (p0 + k) = Some e) ->
    exists maps', recv_bins oprf o t (number p0 l) maps = Ok maps' /\ length maps' = 3 /\
      (forall j k idx, em_find (nth j maps' []) k = Some idx ->
         em_find (nth j maps []) k = Some idx \/
         exists p x, p0 <= p < p0 + length l /\ holds p idx x j /\ k = oprf (N.of_nat p) x) /\
      (forall j k v, em_find (nth j maps []) k = Some v -> em_find (nth j maps' []) k = Some v) /\
      (forall p idx x j, p0 <= p < p0 + length l -> holds p idx x j -> em_find (nth j maps' []) (oprf (N.of_nat p) x) <> None).
  Proof.
    induction l as [ | e l IH]; intros p0 maps L HL.
    - exists maps. cbn [number recv_bins length]. repeat split; auto. intros; lia.
    - cbn [number recv_bins length].
      assert (He : nth_error (ck_bins t) p0 = Some e) by (specialize (HL 0 e eq_refl); rewrite Nat.add_0_r in HL; exact HL).
      assert (HL' : forall k e', nth_error l k = Some e' -> nth_error (ck_bins t) (S p0 + k) = Some e').
      { intros k e' Hk. replace (S p0 + k) with (p0 + S k) by lia. apply HL. exact Hk. }
      destruct (is_empty e) eqn:EE.
      + destruct (IH (S p0) maps L HL') as (m' & E & L' & A & B & C).
        exists m'. repeat split; auto.
        * intros j k idx F. destruct (A j k idx F) as [Q | (p & x & Q & R)]; [auto | right]. exists p, x. split; [lia | auto].
        * intros p idx x j R HH. destruct (Nat.eq_dec p p0) as [-> | NP].
          -- destruct HH as (e' & He' & NE & _). rewrite He in He'. injection He' as <-.
             apply N.eqb_eq in EE. contradiction.
          -- apply (C p idx x j); [lia | assumption].
      + assert (NE : e <> k_empty) by (apply N.eqb_neq; exact EE).
        destruct (holds_exists p0 e He NE) as (x & h & HH & Hh).
        destruct HH as (e' & He' & _ & _ & EX & EM). 
        rewrite EX, EM. cbn [bind]. rewrite Nat2N.id.
        set (maps1 := upd h (fun m => em_emplace m (oprf (N.of_nat p0) x) (input_idx e)) maps).
        assert (L1 : length maps1 = 3) by (unfold maps1; rewrite upd_len; assumption).
        assert (N1 : forall j k, em_find (nth j maps1 []) k =
                  match em_find (nth j maps []) k with Some w => Some w | None =>
                    if Nat.eqb h j then (if beqb (oprf (N.of_nat p0) x) k then Some (input_idx e) else None) else None end).
        { intros j k. unfold maps1. rewrite nth_upd_d by lia. destruct (Nat.eqb h j).
          - rewrite em_find_emplace. reflexivity.
          - destruct (em_find (nth j maps []) k); reflexivity. }
        destruct (IH (S p0) maps1 L1 HL') as (m' & E & L' & A & B & C).
        exists m'. split; [exact E | ]. split; [assumption | ]. split; [ | split].
        * intros j k idx F. destruct (A j k idx F) as [Q | (p & y & Q & R)].
          -- rewrite N1 in Q. destruct (em_find (nth j maps []) k); [auto | right].
             destruct (Nat.eqb_spec h j); [ | discriminate]. subst j.
             destruct (beqb (oprf (N.of_nat p0) x) k) eqn:EB; [ | discriminate]. injection Q as <-.
             apply beqb_spec in EB. exists p0, x. split; [lia | ]. split; [ | auto]. exists e. auto.
          -- right. exists p, y. split; [lia | auto].
        * intros j k v F. apply B. rewrite N1, F. reflexivity.
        * intros p idx y j R HH. destruct (Nat.eq_dec p p0) as [-> | NP].
          -- destruct HH as (e2 & He2 & _ & E2 & EX2 & EM2). rewrite He in He2. injection He2 as <-. subst idx.
             assert (y = x) by congruence. subst y.
             assert (j = h) by (rewrite EM in EM2; injection EM2 as EM2; lia). subst j.
             destruct (em_find (nth h maps1 []) (oprf (N.of_nat p0) x)) as [v | ] eqn:F.
             ++ rewrite (B _ _ _ F). discriminate.
             ++ rewrite N1, Nat.eqb_refl in F. destruct (em_find (nth h maps []) _); [discriminate | ].
                replace (beqb (oprf (N.of_nat p0) x) (oprf (N.of_nat p0) x)) with true in F; [discriminate | ].
                symmetry. apply beqb_spec. reflexivity.
          -- apply (C p idx y j); [lia | assumption].
  Qed.
End Recv.

Lemma recv_batches_ok : forall esz maps bs b, Forall (fun x => db_last x = false) bs -> db_last b = true ->
  Forall (fun x => length (db_flat x) = db_num x * 3 * esz) (bs ++ [b]) ->
  recv_batches esz maps (bs ++ [b]) = Ok (flat_map (look_batch esz maps) (bs ++ [b])).
Proof.
  induction bs as [ | a bs IH]; intros b F L FL.
  - cbn [app recv_batches flat_map]. inversion FL as [ | ? ? F1 _]; subst. unfold enforce.
    rewrite F1, Nat.eqb_refl, L. rewrite app_nil_r. reflexivity.
  - cbn [app recv_batches flat_map]. inversion FL as [ | ? ? F1 F2]; subst. inversion F as [ | ? ? G1 G2]; subst.
    unfold enforce. rewrite F1, Nat.eqb_refl, G1. rewrite IH by assumption. reflexivity.
Qed.

  Definition find_code (codes : list N) (x : N) : option nat :=
    option_map fst (find (fun p => N.eqb (snd p) x) (number 0 codes)).

  Lemma find_code_spec : forall codes x, match find_code codes x with
    | Some i => nth_error codes i = Some x
    | None => ~ In x codes end.
  Proof.
    intros codes x. unfold find_code. destruct (find _ _) as [[i y] | ] eqn:E; simpl.
    - apply find_some in E as [E1 E2]. simpl in E2. apply N.eqb_eq in E2. subst y.
      apply number_in in E1. destruct E1 as [_ E1]. rewrite Nat.sub_0_r in E1. exact E1.
    - intro H. apply In_nth_error in H as (i & Hi).
      pose proof (find_none _ _ E (i, x)) as K. simpl in K. rewrite N.eqb_refl in K.
      assert (true = false); [ | discriminate]. apply K. apply number_in. split; [lia | ]. rewrite Nat.sub_0_r. exact Hi.
  Qed.

  Definition keep_count (c : N) : N := if (1 <? c)%N then c else 0%N.
  Definition item_result (codes : list N) (it : hitem) : list (N * N) :=
    match find_code codes (fst it) with Some i => [(N.of_nat i, keep_count (snd it))] | None => [] end.
Section Whole.
  Context (oprf : N -> N -> bytes) (esz : nat) (o : ck_opts) (ot_batch psi_batch : nat)
          (perm : list nat) (fill : nat -> nat -> bytes) (garbage : nat -> bytes) (items : list hitem) (codes : list N).
  Context (G : good_opts o) (H3 : ko_hash o = 3%N) (S0 : ko_stash o = 0) (NBK : (ko_bins o < k_none)%N)
          (OB : 0 < ot_batch) (PB : 0 < psi_batch)
          (PP : Permutation perm (seq 0 (length items)))
          (OL : forall b x, length (oprf b x) = esz) (FL : forall i h, length (fill i h) = esz)
          (* no collisions of encodings of different items *)
          (INJ : forall b b' x y, In x (codes ++ map fst items) -> In y codes -> oprf b x = oprf b' y -> x = y)
          (* fillers differ from encodings *)
          (FILL : forall i h b y, In y codes -> fill i h <> oprf b y)
          (ND : NoDup codes) (NDI : NoDup (map fst items)).
  Let nb := ko_bins o.
  Let NB : (0 < nb < k_none)%N.
  Proof. destruct G as (_ & B & _). unfold nb. lia. Qed.

  Context (t : cuckoo) (I : ck_inv o t) (HC : ck_hashes t = codes).
  Context (maps : list emap)
    (M1 : forall j k idx, em_find (nth j maps []) k = Some idx -> exists p x, holds o t p idx x j /\ k = oprf (N.of_nat p) x)
    (M2 : forall p idx x j, holds o t p idx x j -> em_find (nth j maps []) (oprf (N.of_nat p) x) <> None).

  Lemma sbin_hash_nr : forall x h, sbin nb x h = (hash_nr x h mod nb)%N.
  Proof. intros. unfold sbin, hash_nr. rewrite N.shiftr_div_pow2. reflexivity. Qed.

  Lemma holds_in : forall p idx x j, holds o t p idx x j -> In x codes /\ nth_error codes (N.to_nat idx) = Some x.
  Proof. intros p idx x j (e & _ & _ & _ & EX & _). rewrite HC in EX. split; [eapply nth_error_In; eauto | assumption]. Qed.

  Lemma code_inj : forall i j x, nth_error codes i = Some x -> nth_error codes j = Some x -> i = j.
  Proof. intros i j x A B. eapply NoDup_nth_error; [exact ND | | congruence]. apply nth_error_Some. congruence. Qed.

  (** Lookup of the three slots of one item. *)
  Lemma slot_lookup : forall inp it h, h < 3 -> In it items ->
    match find_code codes (fst it) with
    | None => em_find (nth h maps []) (canon oprf nb fill inp it h) = None
    | Some i => exists m, m < 3 /\
        (em_find (nth h maps []) (canon oprf nb fill inp it h) = if Nat.eqb h m then Some (N.of_nat i) else None) /\
        (forall p idx j, holds o t p idx (fst it) j -> j = m)
    end.
  Proof.
    intros inp it h Hh Hit.
    assert (INx : In (fst it) (codes ++ map fst items)) by (apply in_or_app; right; apply in_map; assumption).
    assert (HIT : forall v, em_find (nth h maps []) (canon oprf nb fill inp it h) = Some v ->
              exists p, holds o t p v (fst it) h).
    { intros v F. destruct (M1 _ _ _ F) as (p & x & HH & EQ). destruct (holds_in _ _ _ _ HH) as [INX _].
      unfold canon in EQ. destruct (orig nb it h =? k_none)%N.
      - exfalso. eapply FILL; eauto.
      - assert (fst it = x) by (eapply INJ; eauto). subst x. exists p. exact HH. }
    pose proof (find_code_spec codes (fst it)) as FC.
    destruct (find_code codes (fst it)) as [i | ].
    - (* a common item: where is it stored? *)
      assert (LI : (N.of_nat i < N.of_nat (length (ck_hashes t)))%N).
      { rewrite HC. assert (i < length codes) by (apply nth_error_Some; congruence). lia. }
      destruct (inv_places o G t I) as (P1 & _ & _).
      destruct (P1 _ LI) as (pl & ST & UNI).
      destruct pl as [p hh | p].
      2: { destruct ST as (e & A & _). destruct I as (_ & _ & _ & SL & _). rewrite S0 in SL.
           destruct (ck_stash t); [destruct p; discriminate | discriminate]. }
      destruct (min_colliding_spec o G t p hh _ I ST) as (m & code & EM & EC & Lm & HM & Least).
      rewrite Nat2N.id, HC, FC in EC. injection EC as <-.
      destruct (inv_places o G t I) as (_ & _ & P3). destruct (P3 _ _ _ ST) as (LH & _).
      assert (HO : holds o t p (N.of_nat i) (fst it) (N.to_nat m)).
      { destruct ST as (e & A & B & C & D). exists e. rewrite Nat2N.id, HC, N2Nat.id.
        rewrite input_idx_mod. repeat split; auto. }
      assert (ALL : forall p' idx j, holds o t p' idx (fst it) j -> idx = N.of_nat i /\ j = N.to_nat m).
      { intros p' idx j HH. destruct (holds_in _ _ _ _ HH) as [_ EI].
        assert (EI2 : N.to_nat idx = i) by (eapply code_inj; eauto).
        assert (idx = N.of_nat i) by lia. subst idx. split; [reflexivity | ].
        destruct HH as (e & A & B & C & D & E).
        assert (ST2 : stored t (N.of_nat i) (InBin p' (e / 2 ^ 56)%N)).
        { exists e. rewrite <- input_idx_mod. repeat split; auto. }
        pose proof (UNI _ ST2) as EQ. injection EQ as -> _. rewrite EM in E. injection E as ->. lia. }
      exists (N.to_nat m). split; [lia | ]. split.
      + destruct (Nat.eqb_spec h (N.to_nat m)) as [EH | NH].
        * subst h. unfold canon.
          assert (FR : fresh nb (fst it) (N.to_nat m)).
          { intros h' Hh'. rewrite !sbin_hash_nr, N2Nat.id. fold nb in HM. rewrite HM. apply Least. lia. }
          destruct (orig_cases nb NB it (N.to_nat m) Hh) as [[_ EO] | [NF _]]; [ | contradiction].
          rewrite EO. replace (sbin nb (fst it) (N.of_nat (N.to_nat m)) =? k_none)%N with false
            by (symmetry; apply N.eqb_neq, sbin_not_none; exact NB).
          rewrite sbin_hash_nr, N2Nat.id. fold nb in HM. rewrite HM.
          destruct (em_find (nth (N.to_nat m) maps []) (oprf (N.of_nat p) (fst it))) as [v | ] eqn:F.
          -- destruct (M1 _ _ _ F) as (p' & x' & HH & EQ). destruct (holds_in _ _ _ _ HH) as [INX _].
             assert (fst it = x') by (eapply INJ; eauto). subst x'. destruct (ALL _ _ _ HH) as [-> _]. reflexivity.
          -- exfalso. exact (M2 _ _ _ _ HO F).
        * destruct (em_find (nth h maps []) (canon oprf nb fill inp it h)) as [v | ] eqn:F; [ | reflexivity].
          destruct (HIT v eq_refl) as (p' & HH). destruct (ALL _ _ _ HH) as [_ EJ]. contradiction.
      + intros p' idx j HH. apply (ALL p' idx j HH).
    - destruct (em_find (nth h maps []) (canon oprf nb fill inp it h)) as [v | ] eqn:F; [ | reflexivity].
      destruct (HIT v eq_refl) as (p & HH). destruct (holds_in _ _ _ _ HH) as [INX _]. contradiction.
  Qed.

  Definition pos_result (k : nat) : list (N * N) :=
    match nth_error perm k with
    | Some inp => match nth_error items inp with Some it => item_result codes it | None => [] end
    | None => []
    end.

  Lemma batch_slots_esz : forall i m, Forall (fun e => length e = esz)
    (flat_map (fun k => [slot_val oprf nb perm fill items k 0; slot_val oprf nb perm fill items k 1; slot_val oprf nb perm fill items k 2]) (seq i m))
    \/ length items < i + m.
  Proof.
    intros i m. destruct (Nat.lt_ge_cases (length items) (i + m)) as [L | L]; [auto | left].
    apply Forall_forall. intros e He. apply in_flat_map in He as (k & Hk & He). apply in_seq in Hk.
    destruct (perm_get perm items PP k ltac:(lia)) as (inp & it & Ep & _ & Ei).
    rewrite !(slot_val_eq oprf nb perm fill items k inp it _ Ep Ei) in He.
    unfold canon in He.
    destruct He as [<- | [<- | [<- | []]]];
      match goal with |- context [(?a =? ?b)%N] => destruct (a =? b)%N end; auto.
  Qed.

  Lemma look_batch_ok : forall i m, i + m <= length items ->
    look_batch esz maps (batch_of oprf nb perm fill items i m) = flat_map pos_result (seq i m).
  Proof.
    intros i m L. unfold look_batch. cbn [batch_of db_num].
    rewrite (flat_map_concat_map pos_result). replace (seq i m) with (map (fun k => i + k) (seq 0 m)).
    2: { clear. revert i. induction m; intros i; [reflexivity | ]. cbn [seq map]. rewrite Nat.add_0_r. f_equal.
         rewrite <- seq_shift, map_map. rewrite <- (IHm (S i)). apply map_ext. intros; lia. }
    rewrite map_map, <- flat_map_concat_map.
    assert (EXT : forall l, (forall k, In k l -> k < m) ->
      flat_map (fun i0 => look_slot esz maps (batch_of oprf nb perm fill items i m) i0 0 ++
                          look_slot esz maps (batch_of oprf nb perm fill items i m) i0 1 ++
                          look_slot esz maps (batch_of oprf nb perm fill items i m) i0 2) l =
      flat_map (fun k => pos_result (i + k)) l).
    { induction l as [ | k l IH]; intros HB; [reflexivity | ]. cbn [flat_map]. rewrite IH by (intros; apply HB; right; assumption).
      f_equal. specialize (HB k (or_introl eq_refl)).
      destruct (batch_slots_esz i m) as [ESZ | BAD]; [ | lia].
      destruct (perm_get perm items PP (i + k) ltac:(lia)) as (inp & it & Ep & _ & Ei).
      assert (SL : forall j, j < 3 -> look_slot esz maps (batch_of oprf nb perm fill items i m) k j =
        match em_find (nth j maps []) (canon oprf nb fill inp it j) with
        | None => []
        | Some idx => [(idx, keep_count (snd it))] end).
      { intros j Hj. unfold look_slot. cbn [batch_of db_flat db_dup].
        rewrite (concat_sub esz _ (k * 3 + j) _ ESZ (flat3_nth _ (slot_val oprf nb perm fill items) m i k j HB Hj)).
        rewrite (slot_val_eq oprf nb perm fill items (i + k) inp it j Ep Ei).
        unfold dups_of. rewrite (dup_get_dups (fun j0 => cnt_at perm items (i + j0)) m 0 k) by lia.
        unfold cnt_at. rewrite Ep, Ei.
        destruct (em_find _ _); [ | reflexivity]. unfold keep_count. destruct (1 <? snd it)%N; reflexivity. }
      rewrite !SL by lia.
      unfold pos_result. rewrite Ep, Ei. unfold item_result.
      assert (Hit : In it items) by (eapply nth_error_In; eauto).
      pose proof (slot_lookup inp it 0 ltac:(lia) Hit) as K0.
      pose proof (slot_lookup inp it 1 ltac:(lia) Hit) as K1.
      pose proof (slot_lookup inp it 2 ltac:(lia) Hit) as K2.
      destruct (find_code codes (fst it)) as [idx | ] eqn:FC.
      - destruct K0 as (m0 & B0 & K0 & U0), K1 as (m1 & B1 & K1 & U1), K2 as (m2 & B2 & K2 & U2).
        (* one m for all three slots *)
        assert (HO : exists p j, holds o t p (N.of_nat idx) (fst it) j).
        { pose proof (find_code_spec codes (fst it)) as FS. rewrite FC in FS.
          assert (LI : (N.of_nat idx < N.of_nat (length (ck_hashes t)))%N).
          { rewrite HC. assert (idx < length codes) by (apply nth_error_Some; congruence). lia. }
          destruct (inv_places o G t I) as (P1 & _ & _). destruct (P1 _ LI) as (pl & ST & _).
          destruct pl as [p hh | p].
          - destruct (min_colliding_spec o G t p hh _ I ST) as (mm & code & EM & EC & _).
            exists p, (N.to_nat mm). destruct ST as (e & A & B & C & D). exists e.
            rewrite Nat2N.id, HC, N2Nat.id, input_idx_mod. repeat split; auto.
          - destruct ST as (e & A & _). destruct I as (_ & _ & _ & SLN & _). rewrite S0 in SLN.
            destruct (ck_stash t); [destruct p; discriminate | discriminate]. }
        destruct HO as (p & j & HO). pose proof (U0 _ _ _ HO). pose proof (U1 _ _ _ HO). pose proof (U2 _ _ _ HO). subst m0 m1 m2.
        rewrite K0, K1, K2. destruct j as [ | [ | [ | j]]]; try lia; reflexivity.
      - rewrite K0, K1, K2. reflexivity. }
    apply EXT. intros k Hk. apply in_seq in Hk. lia.
  Qed.

  Lemma batch_len_ok : forall i m, i + m <= length items ->
    length (db_flat (batch_of oprf nb perm fill items i m)) = m * 3 * esz.
  Proof.
    intros i m L. cbn [batch_of db_flat].
    destruct (batch_slots_esz i m) as [ESZ | BAD]; [ | lia].
    rewrite (concat_len esz _ ESZ). rewrite (flat3_len _ (slot_val oprf nb perm fill items) m i). reflexivity.
  Qed.

  Lemma recv_all : 0 < length items ->
    recv_batches esz maps (batches_from oprf nb psi_batch perm fill items (S (length items)) 0) =
      Ok (flat_map pos_result (seq 0 (length items))).
  Proof.
    intros NP.
    destruct (batches_last oprf nb psi_batch perm fill items PB (S (length items)) 0 ltac:(lia) NP) as (bs & b & EB & LB & FB).
    rewrite EB. rewrite recv_batches_ok; auto.
    - rewrite <- EB. f_equal.
      rewrite (batches_view oprf nb psi_batch perm fill items PB _ pos_result (look_batch esz maps) look_batch_ok) by lia.
      rewrite Nat.sub_0_r. reflexivity.
    - rewrite <- EB. apply Forall_forall. intros x Hx.
      apply batches_in in Hx as (i & m & -> & L). rewrite (batch_len_ok i m L). reflexivity.
  Qed.

  Lemma pos_results_perm : Permutation (flat_map (pos_result) (seq 0 (length items))) (flat_map (item_result codes) items).
  Proof using PP. clear - PP.
    assert (E : flat_map pos_result (seq 0 (length items)) =
                flat_map (fun inp => match nth_error items inp with Some it => item_result codes it | None => [] end) perm).
    { rewrite <- (perm_len perm items PP).
      assert (K : forall l k, (forall i x, nth_error l i = Some x -> nth_error perm (k + i) = Some x) ->
        flat_map pos_result (seq k (length l)) =
        flat_map (fun inp => match nth_error items inp with Some it => item_result codes it | None => [] end) l).
      { induction l as [ | a l IH]; intros k HK; [reflexivity | ]. cbn [length seq flat_map].
        rewrite (IH (S k)). 2: { intros i x Hx. replace (S k + i) with (k + S i) by lia. apply HK. exact Hx. }
        f_equal. unfold pos_result. specialize (HK 0 a eq_refl). rewrite Nat.add_0_r in HK. rewrite HK. reflexivity. }
      apply K. auto. }
    rewrite E.
    eapply Permutation_trans; [apply Permutation_flat_map; exact PP | ].
    assert (K : forall l k, (forall i x, nth_error l i = Some x -> nth_error items (k + i) = Some x) ->
      flat_map (fun inp => match nth_error items inp with Some it => item_result codes it | None => [] end) (seq k (length l)) =
      flat_map (item_result codes) l).
    { induction l as [ | a l IH]; intros k HK; [reflexivity | ]. cbn [length seq flat_map].
      rewrite (IH (S k)). 2: { intros i x Hx. replace (S k + i) with (k + S i) by lia. apply HK. exact Hx. }
      f_equal. specialize (HK 0 a eq_refl). rewrite Nat.add_0_r in HK. rewrite HK. reflexivity. }
    rewrite (K items 0) by auto. apply Permutation_refl.
  Qed.
End Whole.

Lemma item_results_exact : forall codes items, NoDup codes -> NoDup (map fst items) ->
  exact_result N.to_nat keep_count codes items (flat_map (item_result codes) items).
Proof.
  intros codes items ND NDI. split.
  - induction items as [ | it items IH]; [constructor | ]. cbn [map] in NDI. inversion NDI as [ | ? ? N1 N2]; subst.
    cbn [flat_map]. rewrite map_app. unfold item_result at 1.
    pose proof (find_code_spec codes (fst it)) as FC.
    destruct (find_code codes (fst it)) as [i | ]; [ | apply IH; assumption].
    cbn [map app fst]. rewrite Nat2N.id. constructor; [ | apply IH; assumption].
    intro H. apply in_map_iff in H as ([k c] & E & H). cbn [fst] in E. apply in_flat_map in H as (it' & Hit' & H).
    unfold item_result in H. pose proof (find_code_spec codes (fst it')) as FC'.
    destruct (find_code codes (fst it')) as [i' | ]; [ | destruct H].
    destruct H as [H | []]. injection H as <- <-. rewrite Nat2N.id in E. subst i'.
    apply N1. apply in_map_iff. exists it'. split; [congruence | assumption].
  - intros i c. split.
    + intros (p & <- & H). apply in_flat_map in H as (it & Hit & H). unfold item_result in H.
      pose proof (find_code_spec codes (fst it)) as FC. destruct (find_code codes (fst it)) as [k | ]; [ | destruct H].
      destruct H as [H | []]. injection H as <- <-. rewrite Nat2N.id.
      exists (fst it), (snd it). destruct it; auto.
    + intros (x & cnt & HX & HI & ->). exists (N.of_nat i). split; [apply Nat2N.id | ].
      apply in_flat_map. exists (x, cnt). split; [assumption | ]. unfold item_result. cbn [fst snd].
      pose proof (find_code_spec codes x) as FC. destruct (find_code codes x) as [k | ].
      * assert (k = i).
        { eapply NoDup_nth_error; [exact ND | | congruence]. apply nth_error_Some. congruence. }
        subst k. left. reflexivity.
      * destruct FC. eapply nth_error_In; eauto.
Qed.

Lemma exact_result_perm : forall (P : Type) (pos : P -> nat) val codes items a b,
  Permutation a b -> exact_result pos val codes items a -> exact_result pos val codes items b.
Proof.
  intros P pos val codes items a b PAB [N1 H]. split.
  - eapply Permutation_NoDup; [apply Permutation_map; exact PAB | assumption].
  - intros i c. rewrite <- H. split; intros (p & E & Hp); exists p; split; auto.
    + eapply Permutation_in; [apply Permutation_sym; exact PAB | assumption].
    + eapply Permutation_in; [exact PAB | assumption].
Qed.

Theorem kkrt_exact : forall oprf esz o ot_batch psi_batch perm fill garbage arr items codes,
  good_opts o -> ko_hash o = 3%N -> ko_stash o = 0 -> (ko_bins o < k_none)%N ->
  0 < ot_batch -> 0 < psi_batch -> Permutation perm (seq 0 (length items)) ->
  arrivals (ko_bins o) arr ->
  (forall b x, length (oprf b x) = esz) -> (forall i h, length (fill i h) = esz) ->
  (forall b b' x y, In x (codes ++ map fst items) -> In y codes -> oprf b x = oprf b' y -> x = y) ->
  (forall i h b y, In y codes -> fill i h <> oprf b y) ->
  NoDup codes -> NoDup (map fst items) -> items <> [] ->
  exists fuel0 bs, (forall fuel, fuel0 <= fuel ->
      kkrt_send oprf (ko_bins o) ot_batch psi_batch perm fill garbage arr items fuel = Ok bs) /\
    (kkrt_recv_indices oprf esz o codes bs = Throw \/
     exists res, kkrt_recv_indices oprf esz o codes bs = Ok res /\ exact_result N.to_nat keep_count codes items res).
Proof.
  intros oprf esz o ot_batch psi_batch perm fill garbage arr items codes
    G H3 S0 NBK OB PB PP AR OL FL INJ FILL ND NDI NE.
  assert (NB : (0 < ko_bins o < k_none)%N) by (destruct G as (_ & B & _); lia).
  assert (NP : 0 < length items) by (destruct items; [congruence | simpl; lia]).
  destruct (kkrt_send_ok oprf (ko_bins o) ot_batch psi_batch perm fill garbage items NB OB PB PP arr AR NP) as (fuel0 & HS).
  exists fuel0, (batches_from oprf (ko_bins o) psi_batch perm fill items (S (length items)) 0). split; [exact HS | ].
  unfold kkrt_recv_indices.
  destruct (ck_new_inv o G) as (t0 & E0 & I0 & H0). rewrite E0. cbn [bind].
  destruct (ck_insert_inv o G t0 codes I0) as [E1 | (t & E1 & I1 & H1)]; rewrite E1; cbn [bind]; [left; reflexivity | ].
  rewrite H0 in H1. cbn [app] in H1.
  assert (SL : length (ck_stash t) = 0) by (destruct I1 as (_ & _ & _ & SL & _); lia).
  unfold enforce. rewrite SL, Nat.eqb_refl.
  destruct (recv_bins_spec oprf o G H3 t I1 (ck_bins t) 0 [[]; []; []] eq_refl) as (maps & EM & LM & A & B & C); [auto | ].
  rewrite EM. cbn [bind]. right.
  eexists. split.
  - apply (recv_all oprf esz o ot_batch psi_batch perm fill garbage items codes G H3 S0 NBK OB PB PP OL FL INJ FILL ND t I1 H1 maps); auto.
    + intros j k idx F. destruct (A j k idx F) as [Q | (p & x & _ & R)]; [ | exists p, x; exact R].
      destruct j as [ | [ | [ | j]]]; try discriminate Q. destruct j; discriminate Q.
    + intros p idx x j HH. apply (C p idx x j); [ | exact HH]. split; [lia | ].
      destruct HH as (e & He & _). simpl. apply nth_error_Some. congruence.
  - eapply exact_result_perm; [apply Permutation_sym; apply (pos_results_perm perm items codes PP) | ].
    apply item_results_exact; assumption.
Qed.

Theorem kkrt_recv_exact : forall oprf esz o ot_batch psi_batch perm fill garbage arr items codes,
  good_opts o -> ko_hash o = 3%N -> ko_stash o = 0 -> (ko_bins o < k_none)%N ->
  0 < ot_batch -> 0 < psi_batch -> Permutation perm (seq 0 (length items)) ->
  arrivals (ko_bins o) arr ->
  (forall b x, length (oprf b x) = esz) -> (forall i h, length (fill i h) = esz) ->
  (forall b b' x y, In x (codes ++ map fst items) -> In y codes -> oprf b x = oprf b' y -> x = y) ->
  (forall i h b y, In y codes -> fill i h <> oprf b y) ->
  NoDup codes -> NoDup (map fst items) -> items <> [] ->
  exists fuel0 bs, (forall fuel, fuel0 <= fuel ->
      kkrt_send oprf (ko_bins o) ot_batch psi_batch perm fill garbage arr items fuel = Ok bs) /\
    (kkrt_recv oprf esz o codes bs = Throw \/
     exists res, kkrt_recv oprf esz o codes bs = Ok res /\
       exact_result (fun p => p) (fun cnt => (cnt - 1)%N) codes items res).
Proof.
  intros oprf esz o ot_batch psi_batch perm fill garbage arr items codes
    G H3 S0 NBK OB PB PP AR OL FL INJ FILL ND NDI NE.
  destruct (kkrt_exact oprf esz o ot_batch psi_batch perm fill garbage arr items codes
    G H3 S0 NBK OB PB PP AR OL FL INJ FILL ND NDI NE) as (fuel0 & bs & HS & HR).
  exists fuel0, bs. split; [exact HS | ]. unfold kkrt_recv.
  destruct HR as [E | (res & E & [N1 HX])]; rewrite E; unfold omap; cbn [bind]; [left; reflexivity | right].
  eexists. split; [reflexivity | ]. split.
  - rewrite map_map. cbn [fst]. exact N1.
  - intros i c. split.
    + intros (p & <- & H). apply in_map_iff in H as ([q d] & EQ & H). cbn [fst snd] in EQ. injection EQ as <- <-.
      destruct (proj1 (HX (N.to_nat q) d)) as (x & cnt & A & B & C); [exists q; auto | ].
      exists x, cnt. repeat split; auto. subst d. unfold extra, keep_count.
      destruct (1 <? cnt)%N eqn:EC; [rewrite EC; reflexivity | ]. apply N.ltb_ge in EC. simpl. lia.
    + intros (x & cnt & A & B & ->).
      destruct (proj2 (HX i (keep_count cnt))) as (q & Eq & Hq); [exists x, cnt; auto | ].
      exists i. split; [reflexivity | ]. apply in_map_iff. exists (q, keep_count cnt). split; [ | assumption].
      cbn [fst snd]. f_equal; [assumption | ]. unfold extra, keep_count.
      destruct (1 <? cnt)%N eqn:EC; [rewrite EC; reflexivity | ]. apply N.ltb_ge in EC. simpl. lia.
Qed.

(** Timing independence. *)
Theorem kkrt_send_timing : forall oprf num_bins ot_batch psi_batch perm fill items,
  (0 < num_bins < k_none)%N -> 0 < ot_batch -> 0 < psi_batch ->
  Permutation perm (seq 0 (length items)) -> items <> [] ->
  exists bs, forall garbage arr, arrivals num_bins arr ->
    exists fuel0, forall fuel, fuel0 <= fuel ->
      kkrt_send oprf num_bins ot_batch psi_batch perm fill garbage arr items fuel = Ok bs.
Proof.
  intros oprf num_bins ot_batch psi_batch perm fill items NB OB PB PP NE.
  assert (NP : 0 < length items) by (destruct items; [congruence | simpl; lia]).
  exists (batches_from oprf num_bins psi_batch perm fill items (S (length items)) 0).
  intros garbage arr AR. apply (kkrt_send_ok oprf num_bins ot_batch psi_batch perm fill garbage items NB OB PB PP arr AR NP).
Qed.

(** Bucket form, kkrt/receiver.cc:119-140 and kkrt/sender.cc:125-136: items are
    hashed, the sender passes extra_dup_cnt + 1. *)
Theorem kkrt_bucket_exact : forall (hash128 : bytes -> N) rb sb res,
  (forall a b, In a (map b_data (rb ++ sb)) -> In b (map b_data (rb ++ sb)) -> hash128 a = hash128 b -> a = b) ->
  exact_result (fun p => p) (fun cnt => (cnt - 1)%N)
    (map (fun i => hash128 (b_data i)) rb) (map (fun i => (hash128 (b_data i), b_dup i + 1)%N) sb) res ->
  exact_on rb sb res.
Proof.
  intros hash128 rb sb res INJ [N1 HX]. split; [exact N1 | ].
  intros i c. split.
  - intros H. destruct (proj1 (HX i c)) as (x & cnt & A & B & C); [exists i; auto | ].
    rewrite nth_error_map in A. destruct (nth_error rb i) as [r | ] eqn:ER; [ | discriminate]. simpl in A. injection A as <-.
    apply in_map_iff in B as (s & EQ & Hs). injection EQ as E1 E2.
    exists r, s. repeat split; auto; [ | lia].
    apply INJ; auto; apply in_map_iff; [exists s | exists r]; split; auto; apply in_or_app; auto.
    left. eapply nth_error_In; eauto.
  - intros (x & y & A & B & C & D).
    destruct (proj2 (HX i c)) as (p & -> & Hp); [ | exact Hp].
    exists (hash128 (b_data x)), (b_dup y + 1)%N. rewrite nth_error_map, A. split; [reflexivity | ].
    split; [ | lia]. apply in_map_iff. exists y. split; [congruence | assumption].
Qed.
