(** Baxos decoding: bins, pending batches and threads; linearity of decoding. *)
From Coq Require Import List Arith NArith Bool Lia.
From Verif Require Import Base BaseProofs StoreModel StoreProofs GfModel GfSpec GfProofs GfProofs2 KkrtProofs2 OkvsModel OkvsSpec OkvsProofs OkvsProofs2.
Import ListNotations.
Local Open Scope N_scope.

Lemma compress_lt : forall h, h < 2 ^ 128 -> bin_compress h < 2 ^ 64.
Proof.
  intros h H. unfold bin_compress. repeat apply lxor_below.
  - apply N.mod_lt. discriminate.
  - rewrite N.shiftr_div_pow2. apply N.div_lt_upper_bound; [discriminate|].
    rewrite <- N.pow_add_r. exact H.
  - rewrite N.shiftr_div_pow2. apply N.div_lt_upper_bound; [discriminate|].
    rewrite <- N.pow_add_r. apply N.lt_le_trans with (2 ^ 128); [assumption|]. apply N.pow_le_mono_r; lia.
Qed.

Lemma bin_main_is : forall nb h, h < 2 ^ 128 -> 0 < nb -> bin_main nb h = bin_tail nb h.
Proof. intros. unfold bin_main, bin_tail. apply do_mod_is; [apply compress_lt|]; assumption. Qed.

Lemma nth_error_ext' : forall A (a b : list A), (forall i, nth_error a i = nth_error b i) -> a = b.
Proof.
  intros A a. induction a as [|x a IH]; intros [|y b] H; [reflexivity|discriminate (H O)|discriminate (H O)|].
  injection (H O) as ->. f_equal. apply IH. intros i. apply (H (S i)).
Qed.

(** Stores of the right value at each index. *)
Lemma store_all_len : forall ivs vals, length (store_all vals ivs) = length vals.
Proof.
  induction ivs as [|iv r IH]; intros; [reflexivity|].
  unfold store_all in *. cbn [fold_left]. rewrite IH. apply upd_length.
Qed.
Lemma store_all_keep : forall (f : nat -> N) ivs vals i, (forall iv, In iv ivs -> snd iv = f (fst iv)) ->
  nth_error vals i = Some (f i) -> nth_error (store_all vals ivs) i = Some (f i).
Proof.
  intros f ivs. induction ivs as [|iv r IH]; intros vals i H E; [assumption|].
  unfold store_all in *. cbn [fold_left]. apply IH; [intros; apply H; right; assumption|].
  rewrite upd_nth. destruct (Nat.eqb_spec (fst iv) i) as [X|X]; [|assumption].
  rewrite E. cbn [option_map]. rewrite (H iv) by (left; reflexivity). rewrite X. reflexivity.
Qed.
Lemma store_all_set : forall (f : nat -> N) ivs vals i, (forall iv, In iv ivs -> snd iv = f (fst iv)) ->
  In i (map fst ivs) -> (i < length vals)%nat -> nth_error (store_all vals ivs) i = Some (f i).
Proof.
  intros f ivs. induction ivs as [|iv r IH]; intros vals i H I L; [destruct I|].
  assert (Hr : forall iv, In iv r -> snd iv = f (fst iv)) by (intros; apply H; right; assumption).
  cbn [map] in I. destruct I as [I|I].
  - unfold store_all. cbn [fold_left]. apply (store_all_keep f r); [assumption|].
    rewrite upd_nth, I, Nat.eqb_refl.
    destruct (nth_error vals i) eqn:E; [|apply nth_error_None in E; lia].
    cbn [option_map]. rewrite (H iv) by (left; reflexivity). rewrite I. reflexivity.
  - unfold store_all. cbn [fold_left]. apply IH; try assumption. rewrite upd_length. assumption.
Qed.

Section BATCH.
Variables (avx : bool) (w : N) (nb : nat) (q : okvs_param) (pp : list N) (hs : list N).
Hypothesis Hnb : (1 <= nb)%nat.
Hypothesis Hq : param_ok w q.
Hypothesis Hs : shape_ok 128 q.
Hypothesis H20 : (ok_weight q <= 20)%nat.
Hypothesis Hpp : all_below 128 pp.
Hypothesis Hhs : Forall (fun h => h < 2 ^ 128) hs.

Definition bno (h : N) : nat := N.to_nat (bin_tail (N.of_nat nb) h).
Definition cv (h : N) : N := key_val (gf_mul avx) q (bin_slice q pp (bno h)) h.
Definition fi (i : nat) : N := match nth_error hs i with Some h => cv h | None => 0 end.

Lemma bno_lt : forall h, (bno h < nb)%nat.
Proof using Hnb.
  clear - Hnb. intros. unfold bno, bin_tail. assert (bin_compress h mod N.of_nat nb < N.of_nat nb) by (apply N.mod_lt; lia). lia.
Qed.

Lemma slice_below : forall b, all_below 128 (bin_slice q pp b).
Proof using Hpp.
  clear - Hpp. intros. unfold bin_slice, all_below in *. rewrite Forall_forall in *. intros x I.
  apply Hpp.
  match type of I with In _ (firstn ?k ?l) => assert (In x l) by (rewrite <- (firstn_skipn k l); apply in_or_app; left; assumption) end.
  match goal with H : In x (skipn ?k ?l) |- _ => rewrite <- (firstn_skipn k l); apply in_or_app; right; assumption end.
Qed.

(** A pending entry is legitimate; index i is settled or pending. *)
Definition inv (k : nat) (st : list (list (N * nat)) * list N) : Prop :=
  let '(bins, vals) := st in
  length bins = nb /\ length vals = length hs /\
  (forall b h i, In (h, i) (nth b bins []) -> nth_error hs i = Some h /\ b = bno h) /\
  (forall i, (i < k)%nat -> nth_error vals i = Some (fi i) \/
     exists h, nth_error hs i = Some h /\ In (h, i) (nth (bno h) bins [])).

Lemma flush_ok : forall k b st, (b < nb)%nat -> inv k st -> exists st', flush_bin avx w q pp b st = Ok st' /\ inv k st' /\
  nth b (fst st') [] = [] /\ (forall b', b' <> b -> nth b' (fst st') [] = nth b' (fst st) []).
Proof using All.
  intros k b [bins vals] Hb (L1 & L2 & HP & HV).
  unfold flush_bin. set (pend := nth b bins []) in *.
  assert (HH : Forall (fun h => h < 2 ^ 128) (map fst pend)).
  { apply Forall_forall. intros h I. apply in_map_iff in I. destruct I as ([h' i] & E & I). cbn in E; subst h'.
    destruct (HP b h i I) as [E _]. rewrite Forall_forall in Hhs. apply Hhs. eapply nth_error_In; eassumption. }
  unfold decode_bin. replace (Nat.leb (ok_weight q) 20) with true by (symmetry; apply Nat.leb_le; assumption).
  cbn [enforce]. rewrite decode_hashed_ok by (try assumption; apply slice_below). cbn [bind].
  set (ivs := combine (map snd pend) (map (key_val (gf_mul avx) q (bin_slice q pp b)) (map fst pend))).
  assert (EI : ivs = map (fun hi => (snd hi, cv (fst hi))) pend).
  { unfold ivs. assert (X : forall l : list (N * nat), (forall h i, In (h, i) l -> b = bno h) ->
      combine (map snd l) (map (key_val (gf_mul avx) q (bin_slice q pp b)) (map fst l)) = map (fun hi => (snd hi, cv (fst hi))) l).
    { induction l as [|[h i] r IH]; intros X; [reflexivity|]. cbn [map combine fst snd]. f_equal.
      - f_equal. unfold cv. rewrite <- (X h i) by (left; reflexivity). reflexivity.
      - apply IH. intros h' i' I. apply (X h' i'). right; assumption. }
    apply X. intros h i I. apply (HP b h i I). }
  assert (GI : forall iv, In iv ivs -> snd iv = fi (fst iv)).
  { intros iv I. rewrite EI in I. apply in_map_iff in I. destruct I as ([h i] & E & I). subst iv. cbn [fst snd].
    destruct (HP b h i I) as [E _]. unfold fi. rewrite E. reflexivity. }
  eexists. split; [reflexivity|]. split.
  - split; [rewrite upd_length; assumption|]. split; [rewrite store_all_len; assumption|]. split.
    + intros b' h i I. rewrite nth_upd_d in I by lia.
      destruct (Nat.eqb_spec b b') as [E|E]; [destruct I|]. apply HP; assumption.
    + intros i Hi. destruct (HV i Hi) as [E|(h & E & I)].
      * left. apply store_all_keep; assumption.
      * destruct (Nat.eq_dec (bno h) b) as [X|X].
        -- left. apply store_all_set; [assumption| |].
           ++ rewrite EI, map_map. cbn [fst]. apply in_map_iff. exists (h, i). split; [reflexivity|].
              unfold pend. rewrite <- X. assumption.
           ++ rewrite L2. apply nth_error_Some. rewrite E. discriminate.
        -- right. exists h. split; [assumption|]. rewrite nth_upd_d by lia.
           destruct (Nat.eqb_spec b (bno h)); [congruence|assumption].
  - cbn [fst]. split.
    + rewrite nth_upd_d by lia. rewrite Nat.eqb_refl. reflexivity.
    + intros b' Hb'. rewrite nth_upd_d by lia. destruct (Nat.eqb_spec b b'); [congruence|reflexivity].
Qed.

Lemma push_ok : forall dsz h i st, nth_error hs i = Some h -> inv i st ->
  exists st', push_key avx w q pp dsz (bno h) h i st = Ok st' /\ inv (S i) st'.
Proof using All.
  intros dsz h i [bins vals] E (L1 & L2 & HP & HV). unfold push_key.
  assert (B := bno_lt h).
  assert (I : inv (S i) (upd (bno h) (fun l => l ++ [(h, i)]) bins, vals)).
  { split; [rewrite upd_length; assumption|]. split; [assumption|]. split.
    - intros b h' i' I. rewrite nth_upd_d in I by lia.
      destruct (Nat.eqb_spec (bno h) b) as [X|X].
      + apply in_app_or in I. destruct I as [I|[I|[]]].
        * rewrite <- X in *. apply (HP (bno h)); assumption.
        * injection I as <- <-. split; [assumption|]. symmetry; assumption.
      + apply HP; assumption.
    - intros j Hj. destruct (Nat.eq_dec j i) as [->|N].
      + right. exists h. split; [assumption|]. rewrite nth_upd_d by lia. rewrite Nat.eqb_refl.
        apply in_or_app. right; left; reflexivity.
      + destruct (HV j ltac:(lia)) as [X|(h' & X & Y)]; [left; assumption|].
        right. exists h'. split; [assumption|]. rewrite nth_upd_d by lia.
        destruct (Nat.eqb (bno h) (bno h')); [apply in_or_app; left|]; assumption. }
  destruct (Nat.eqb _ dsz).
  - destruct (flush_ok (S i) (bno h) _ B I) as (st' & X & Y & _). exists st'. split; assumption.
  - eexists. split; [reflexivity|exact I].
Qed.

Lemma push_all_ok : forall dsz bin_of, (forall i h, In h hs -> N.to_nat (bin_of i h) = bno h) ->
  forall l i st, hs = firstn i hs ++ l -> length (firstn i hs) = i -> inv i st ->
  exists st', push_all avx w q pp dsz bin_of l i st = Ok st' /\ inv (length hs) st'.
Proof using All.
  intros dsz bin_of HB l. induction l as [|h r IH]; intros i st E L I.
  - rewrite app_nil_r in E. assert (length hs = i) by (rewrite E; assumption).
    exists st. split; [reflexivity|]. rewrite H. assumption.
  - cbn [push_all].
    assert (Hn : nth_error hs i = Some h).
    { rewrite E. rewrite nth_error_app2 by lia. rewrite L, Nat.sub_diag. reflexivity. }
    rewrite HB by (eapply nth_error_In; eassumption).
    destruct (push_ok dsz h i st Hn I) as (st' & X & Y). rewrite X. cbn [bind].
    apply IH; [| |assumption].
    + assert (K : firstn (S i) hs = firstn i hs ++ [h]).
      { assert (i < length hs)%nat by (apply nth_error_Some; congruence).
        rewrite E at 1. rewrite firstn_app, L. replace (S i - i)%nat with 1%nat by lia.
        rewrite firstn_all2 by lia. reflexivity. }
      rewrite K, <- app_assoc. exact E.
    + apply firstn_length_le. assert (i < length hs)%nat by (apply nth_error_Some; congruence). lia.
Qed.

Lemma flush_rest_ok : forall todo b st, (b + todo = nb)%nat -> inv (length hs) st ->
  (forall b', (b' < b)%nat -> nth b' (fst st) [] = []) ->
  exists st', flush_rest avx w q pp todo b st = Ok st' /\ inv (length hs) st' /\
    (forall b', (b' < nb)%nat -> nth b' (fst st') [] = []).
Proof using All.
  induction todo as [|k IH]; intros b st E I Z.
  - exists st. split; [reflexivity|]. split; [assumption|]. intros b' L. apply Z. lia.
  - cbn [flush_rest].
    destruct (nth b (fst st) []) eqn:P.
    + cbn [bind]. apply IH; [lia|assumption|].
      intros b' L. destruct (Nat.eq_dec b' b) as [->|]; [assumption|apply Z; lia].
    + destruct (flush_ok (length hs) b st ltac:(lia) I) as (st' & X & Y & W & V).
      rewrite X. cbn [bind]. apply IH; [lia|assumption|].
      intros b' L. destruct (Nat.eq_dec b' b) as [->|]; [assumption|]. rewrite V by assumption. apply Z; lia.
Qed.

Lemma batch_core : forall dsz bin_of, (forall i h, In h hs -> N.to_nat (bin_of i h) = bno h) ->
  (do st <- push_all avx w q pp dsz bin_of hs 0 (repeat [] nb, repeat 0 (length hs));
   do st <- flush_rest avx w q pp nb 0 st;
   Ok (snd st)) = Ok (map cv hs).
Proof using All.
  intros dsz bin_of HB.
  destruct (push_all_ok dsz bin_of HB hs 0 (repeat [] nb, repeat 0 (length hs))) as (st & E & I).
  - reflexivity.
  - reflexivity.
  - split; [apply repeat_length|]. split; [apply repeat_length|]. split.
    + intros b h i I. rewrite nth_repeat in I. destruct I.
    + intros i L. lia.
  - rewrite E. cbn [bind].
    destruct (flush_rest_ok nb 0 st ltac:(lia) I) as (st' & E' & I' & Z).
    { intros b' L. lia. }
    rewrite E'. cbn [bind]. f_equal. destruct st' as [bins vals]. destruct I' as (L1 & L2 & HP & HV). cbn [snd fst] in *.
    apply nth_error_ext'. intros i.
    destruct (lt_dec i (length hs)) as [L|L].
    + destruct (HV i L) as [X|(h & X & Y)].
      * rewrite X. rewrite nth_error_map. unfold fi.
        destruct (nth_error hs i) eqn:F; [reflexivity|]. apply nth_error_None in F. lia.
      * rewrite Z in Y by apply bno_lt. destruct Y.
    + transitivity (@None N); [apply nth_error_None; lia|symmetry; apply nth_error_None; rewrite map_length; lia].
Qed.
End BATCH.

Lemma decode_batch_ok : forall aes avx w nb q pp inputs, (1 <= nb)%nat -> param_ok w q -> shape_ok 128 q ->
  (ok_weight q <= 20)%nat -> all_below 128 pp -> (forall x, aes x < 2 ^ 128) ->
  decode_batch aes avx w nb q pp inputs = Ok (map (fun x => cv avx nb q pp (aes x)) inputs).
Proof.
  intros aes avx w nb q pp inputs Hnb Hq Hs H20 Hpp Ha. unfold decode_batch. cbv zeta.
  assert (F : Forall (fun h => h < 2 ^ 128) (map aes inputs)).
  { apply Forall_forall. intros h I. apply in_map_iff in I. destruct I as (x & <- & _). apply Ha. }
  rewrite <- (map_map aes (cv avx nb q pp)).
  assert (C := batch_core avx w nb q pp (map aes inputs) Hnb Hq Hs H20 Hpp F).
  rewrite map_length in C. apply C. clear C.
  intros i h I. unfold bno. f_equal. rewrite Forall_forall in F.
  destruct (Nat.ltb _ _); [|reflexivity]. apply bin_main_is; [apply F; assumption|lia].
Qed.

(** Threads. *)
Lemma par_slices : forall A T (l : list A), (1 <= T)%nat -> concat (map (fun i => par_slice T i l) (seq 0 T)) = l.
Proof.
  intros A T l HT.
  assert (X : forall k, (k <= T)%nat -> concat (map (fun i => par_slice T i l) (seq 0 k)) = firstn (Nat.div (length l * k) T) l).
  { induction k as [|k IH]; intros L.
    - rewrite Nat.mul_0_r, Nat.div_0_l by lia. reflexivity.
    - rewrite seq_S, map_app, concat_app, IH by lia. cbn [map concat]. rewrite app_nil_r, Nat.add_0_l.
      unfold par_slice. rewrite Nat.add_1_r.
      set (a := Nat.div (length l * k) T). set (b := Nat.div (length l * S k) T).
      assert (a <= b)%nat by (apply Nat.div_le_mono; lia).
      assert (firstn b l = firstn a l ++ firstn (b - a) (skipn a l)); [|symmetry; assumption].
      rewrite <- (firstn_skipn a (firstn b l)). f_equal.
      + rewrite firstn_firstn. f_equal. lia.
      + rewrite skipn_firstn_comm. reflexivity. }
  rewrite X by lia. rewrite Nat.div_mul by lia. apply firstn_all.
Qed.

Lemma idx_width_ok : forall s, s <= 2 ^ 63 -> s <= 2 ^ idx_width s.
Proof.
  intros s H. unfold idx_width.
  assert (L : s + 1 <= 2 ^ N.log2_up (s + 1)).
  { destruct (N.eq_dec s 0) as [->|]; [cbn; lia|]. apply N.log2_up_spec. lia. }
  destruct (N.leb_spec (N.log2_up (s + 1)) 8).
  { assert (2 ^ N.log2_up (s + 1) <= 2 ^ 8) by (apply N.pow_le_mono_r; lia). lia. }
  destruct (N.leb_spec (N.log2_up (s + 1)) 16).
  { assert (2 ^ N.log2_up (s + 1) <= 2 ^ 16) by (apply N.pow_le_mono_r; lia). lia. }
  destruct (N.leb_spec (N.log2_up (s + 1)) 32).
  { assert (2 ^ N.log2_up (s + 1) <= 2 ^ 32) by (apply N.pow_le_mono_r; lia). lia. }
  pose proof pow63_64. lia.
Qed.

Lemma baxos_decode_ok : forall aes avx nb q threads pp inputs, (1 <= nb)%nat ->
  (1 <= ok_weight q <= 20)%nat -> ok_sparse q <= 2 ^ 63 -> N.of_nat (ok_weight q) <= ok_sparse q ->
  shape_ok 128 q -> all_below 128 pp -> (forall x, aes x < 2 ^ 128) ->
  length pp = (nb * (N.to_nat (ok_sparse q) + ok_dense q))%nat ->
  baxos_decode aes avx nb q threads pp inputs = Ok (map (fun x => cv avx nb q pp (aes x)) inputs).
Proof.
  intros aes avx nb q threads pp inputs Hnb Hw H63 Hsp Hs Hpp Ha Hl. unfold baxos_decode.
  assert (Hq : param_ok (idx_width (ok_sparse q)) q).
  { split; [lia|]. split; [apply idx_width_ok; assumption|]. split; assumption. }
  destruct (Nat.eqb_spec nb 1) as [->|N1].
  - unfold paxos_decode. rewrite Hl.
    replace (N.of_nat (1 * (N.to_nat (ok_sparse q) + ok_dense q)) =? ok_sparse q + N.of_nat (ok_dense q)) with true
      by (symmetry; apply N.eqb_eq; lia).
    cbn [enforce]. rewrite decode_hashed_ok; try assumption.
    + rewrite map_map. f_equal. apply map_ext. intros x. unfold cv, bno, bin_tail, bin_slice.
      change (N.of_nat 1) with 1. rewrite N.mod_1_r. cbn [N.to_nat Nat.mul skipn].
      rewrite firstn_all2 by lia. reflexivity.
    + apply Forall_forall. intros h I. apply in_map_iff in I. destruct I as (x & <- & _). apply Ha.
  - cbv zeta. set (T := Nat.max threads 1).
    rewrite (omapM_ok _ _ _ (fun i => map (fun x => cv avx nb q pp (aes x)) (par_slice T i inputs))).
    + cbn [bind]. f_equal. rewrite <- (map_map (fun i => par_slice T i inputs) (map (fun x => cv avx nb q pp (aes x)))).
      rewrite <- concat_map. rewrite par_slices by lia. reflexivity.
    + intros i _. apply decode_batch_ok; try assumption; lia.
Qed.
