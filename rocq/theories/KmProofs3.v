(** Lemmas for C81: the protocol. *)
From Coq Require Import List NArith Bool Arith Lia Permutation.
From Verif Require Import Base BaseProofs StoreModel KmModel KmSpec KmProofs KmProofs2.
Import ListNotations.

(** ** Sums *)
Lemma xor_pair : forall (A : Type) (f h : A -> N) l,
  km_xor (map (fun s => N.lxor (f s) (h s)) l) = N.lxor (km_xor (map f l)) (km_xor (map h l)).
Proof.
  intros A f h l. induction l as [|x l IH]; [reflexivity|]. unfold km_xor in *. cbn [map fold_right]. rewrite IH.
  rewrite !N.lxor_assoc. f_equal. rewrite <- !N.lxor_assoc. f_equal. apply N.lxor_comm.
Qed.
Lemma xor_zero : forall (A : Type) (l : list A), km_xor (map (fun _ => 0%N) l) = 0%N.
Proof. intros A l. induction l as [|x l IH]; [reflexivity|]. unfold km_xor in *. cbn. exact IH. Qed.
Lemma xor_swap : forall (A B : Type) (g : A -> B -> N) la lb,
  km_xor (map (fun b => km_xor (map (fun a => g a b) la)) lb) = km_xor (map (fun a => km_xor (map (g a) lb)) la).
Proof.
  intros A B g la lb. induction lb as [|b lb IH]; [cbn [map]; symmetry; apply xor_zero|].
  cbn [map]. change (km_xor (?x :: ?l)) with (N.lxor x (km_xor l)). rewrite IH, <- xor_pair. reflexivity.
Qed.
Lemma map_rows : forall n k (rows : list (list N)) (v : nat -> N), length rows = n ->
  (forall s, s < n -> exists row, nth_error rows s = Some row /\ nth k row 0%N = v s) ->
  map (fun row => nth k row 0%N) rows = map v (seq 0 n).
Proof.
  intros n k rows v L HS. apply nth_ext with (d := 0%N) (d' := 0%N); [rewrite !map_length, seq_length; exact L|].
  intros i Hi. rewrite map_length in Hi. destruct (HS i ltac:(lia)) as (row & E & V).
  assert (E1 : nth_error (map (fun row => nth k row 0%N) rows) i = Some (nth k row 0%N)) by (rewrite nth_error_map, E; reflexivity).
  assert (E2 : nth_error (map v (seq 0 n)) i = Some (v i)) by (rewrite nth_error_map, nth_error_seq by lia; reflexivity).
  rewrite (nth_error_nth _ _ _ E1), (nth_error_nth _ _ _ E2). exact V.
Qed.

(** ** Output *)
Lemma output_in : forall inputs recons out x, km_output inputs recons = Ok out ->
  In x out <-> exists k, nth_error inputs k = Some x /\ nth_error recons k = Some 0%N.
Proof.
  intros inputs recons. revert inputs. induction recons as [|v r IH]; intros inputs out x E; cbn [km_output] in E.
  - inversion E; subst. split; [intros []|intros ([|k] & _ & Q); discriminate].
  - destruct (v =? 0)%N eqn:Z.
    + apply N.eqb_eq in Z. subst v. destruct inputs as [|y ins]; [discriminate|]. unfold omap in E.
      destruct (km_output ins r) as [o| | |] eqn:EO; try discriminate. cbn [bind] in E. inversion E; subst. split.
      * intros [<-|I]; [exists 0; auto|]. apply (IH ins o x EO) in I. destruct I as (k & A & B). exists (S k). auto.
      * intros ([|k] & A & B); cbn in A, B; [inversion A; left; reflexivity|]. right. apply (IH ins o x EO). eauto.
    + rewrite (IH _ _ _ E). apply N.eqb_neq in Z. split.
      * intros (k & A & B). exists (S k). destruct inputs; [destruct k; discriminate|]. auto.
      * intros ([|k] & A & B); cbn in A, B; [congruence|]. exists k. destruct inputs; [discriminate|]. auto.
Qed.
Lemma subseq_none : forall (A : Type) (l : list A), subseq [] l.
Proof. intros A l. induction l; constructor; assumption. Qed.
Lemma output_subseq : forall recons inputs out, km_output inputs recons = Ok out -> subseq out inputs.
Proof.
  induction recons as [|v r IH]; intros inputs out E; cbn [km_output] in E; [inversion E; apply subseq_none|].
  destruct (v =? 0)%N.
  - destruct inputs as [|y ins]; [discriminate|]. unfold omap in E. destruct (km_output ins r) as [o| | |] eqn:EO; try discriminate.
    cbn [bind] in E. inversion E; subst. apply sub_keep. apply IH. exact EO.
  - destruct inputs as [|y ins]; [apply IH in E; exact E|]. apply sub_skip. apply IH. exact E.
Qed.

Section Protocol.
Variable ro : N -> N -> N.
Variable tries : nat.
Variable H : list N -> N.
Variable bins_of : nat -> nat * nat.
Variable n leader : nat.

Lemma gather_spec : forall count get rows, km_gather n count get = Ok rows ->
  length rows = n /\ forall s, s < n -> s < count /\ exists row, nth_error rows s = Some row /\ get s = Ok row.
Proof using.
  intros count get rows E. apply mapM_seq in E. destruct E as (L & E). split; [exact L|]. intros s Hs.
  destruct (E s Hs) as (row & A & B). destruct (get s) as [v| | |]; try discriminate. cbn [bind] in B.
  destruct (s <? count) eqn:C; [|discriminate]. apply Nat.ltb_lt in C. inversion B; subst. eauto.
Qed.
Lemma gather_ext : forall count f g, (forall s, s < n -> f s = g s) -> km_gather n count f = km_gather n count g.
Proof using. intros count f g HE. apply mapM_ext. intros s I. apply in_seq in I. rewrite HE by lia. reflexivity. Qed.
Lemma sum_nth : forall count rows k, k < count -> nth_error (km_sum count rows) k = Some (km_xor (map (fun row => nth k row 0%N) rows)).
Proof using. clear. intros count rows k Hk. unfold km_sum. rewrite nth_error_map, nth_error_seq by exact Hk. reflexivity. Qed.

Lemma zero_sum : forall zero me k, 0 < n -> km_xor (map (fun dst => km_zero n zero me dst k) (seq 0 n)) = 0%N.
Proof using.
  clear. intros zero me k Hn. destruct n as [|m]; [lia|]. cbn [seq map]. unfold km_zero at 1. cbn [Nat.eqb Nat.sub]. rewrite Nat.sub_0_r.
  change (km_xor (?x :: ?l)) with (N.lxor x (km_xor l)).
  replace (map (fun dst => km_zero (S m) zero me dst k) (seq 1 m)) with (map (fun d => u64 (zero me d k)) (seq 1 m)); [apply N.lxor_nilpotent|].
  apply map_ext_in. intros d I. apply in_seq in I. unfold km_zero. replace (d =? 0) with false by (symmetry; apply Nat.eqb_neq; lia). reflexivity.
Qed.

Section Run.
Variable zero : nat -> nat -> nat -> N.
Variable R : bool -> nat -> nat -> km_rand.
Variable count : nat.
Variable items : nat -> list N.
Hypothesis items_len : forall j, j < n -> length (items j) = count.

Notation swap := (km_swap ro tries bins_of n zero R count items).
Notation recon := (km_recon ro tries bins_of n leader R count items).

Lemma swap_len : forall me S, swap me = Ok S -> length S = count.
Proof using.
  clear. intros me S E. unfold km_swap in E. destruct (km_gather _ _ _) as [rows| | |]; try discriminate. inversion E; subst. unfold km_sum. rewrite map_length. apply seq_length.
Qed.

Lemma common_zero : forall shares v q p,
  leader < n -> q <> 0%N -> (forall b s d l, Permutation (kr_walk (R b s d) l) l) ->
  (forall j, j < n -> first_pos (items j) q (p j)) ->
  (forall src dst ot, src < n -> dst < n -> src <> dst -> ot < fst (bins_of count) + snd (bins_of count) -> kr_oprf (R false src dst) ot q <> km_zero n zero src dst (p src)) ->
  (forall src ot, src < n -> src <> leader -> ot < fst (bins_of count) + snd (bins_of count) -> kr_oprf (R true src leader) ot q <> km_xor (map (fun s => km_zero n zero s src (p s)) (seq 0 n))) ->
  km_mapM swap (seq 0 n) = Ok shares -> recon (fun j => nth j shares []) = Ok v ->
  nth_error v (p leader) = Some 0%N.
Proof using items_len.
  intros shares v q p HL Zq HW HP HC1 HC2 ES ER.
  assert (PL : forall j, j < n -> p j < count).
  { intros j Hj. destruct (HP j Hj) as (E & _). rewrite <- (items_len j Hj). apply nth_error_Some. congruence. }
  apply mapM_seq in ES. destruct ES as (LS & ES).
  (* every party's share of the item *)
  assert (SV : forall j, j < n -> exists S, nth_error shares j = Some S /\ length S = count /\
             nth_error S (p j) = Some (km_xor (map (fun s => km_zero n zero s j (p s)) (seq 0 n)))).
  { intros j Hj. destruct (ES j Hj) as (S & A & B). exists S. split; [exact A|]. split; [exact (swap_len _ _ B)|].
    unfold km_swap in B. destruct (km_gather n count _) as [rows| | |] eqn:EG; try discriminate. inversion B; subst S. clear B.
    rewrite sum_nth by (apply PL; exact Hj). f_equal. f_equal. apply gather_spec in EG. destruct EG as (LR & EG).
    apply map_rows; [exact LR|]. intros s Hs. destruct (EG s Hs) as (_ & row & E1 & E2). exists row. split; [exact E1|].
    destruct (s =? j) eqn:Q.
    - apply Nat.eqb_eq in Q. subst s. inversion E2; subst row. apply nth_error_nth. unfold km_shares. rewrite nth_error_map, nth_error_seq by (apply PL; exact Hj). reflexivity.
    - apply Nat.eqb_neq in Q. apply nth_error_nth.
      apply (opprf_hit ro tries bins_of (R false s j) (items s) _ (items j) row (p j) q (p s) _ E2).
      + apply HW.
      + rewrite !items_len by assumption. reflexivity.
      + apply HP. exact Hj.
      + exact Zq.
      + apply HP. exact Hs.
      + unfold km_shares. rewrite nth_error_map, nth_error_seq by (apply PL; exact Hs). reflexivity.
      + rewrite items_len by assumption. intros ot Hot. apply HC1; assumption. }
  unfold km_recon in ER. destruct (km_gather n count _) as [rows| | |] eqn:EG; try discriminate. inversion ER; subst v. clear ER.
  rewrite sum_nth by (apply PL; exact HL). f_equal. apply gather_spec in EG. destruct EG as (LR & EG).
  rewrite (map_rows n (p leader) rows (fun j => km_xor (map (fun s => km_zero n zero s j (p s)) (seq 0 n))) LR).
  - rewrite (xor_swap _ _ (fun s j => km_zero n zero s j (p s))).
    rewrite <- (xor_zero nat (seq 0 n)). f_equal. apply map_ext. intros s. apply zero_sum. lia.
  - intros s Hs. destruct (EG s Hs) as (_ & row & E1 & E2). exists row. split; [exact E1|]. destruct (SV s Hs) as (S & A & LenS & B).
    destruct (s =? leader) eqn:Q.
    + apply Nat.eqb_eq in Q. subst s. inversion E2; subst row. apply nth_error_nth. rewrite (nth_error_nth _ _ _ A). exact B.
    + apply Nat.eqb_neq in Q. apply nth_error_nth.
      apply (opprf_hit ro tries bins_of (R true s leader) (items s) _ (items leader) row (p leader) q (p s) _ E2).
      * apply HW.
      * rewrite !items_len by assumption. reflexivity.
      * apply HP. exact HL.
      * exact Zq.
      * apply HP. exact Hs.
      * rewrite (nth_error_nth _ _ _ A). exact B.
      * rewrite items_len by assumption. intros ot Hot. apply HC2; assumption.
Qed.
End Run.

(** ** The whole run *)
Lemma max_le : forall (inputs : list (list (list N))) j, length (nth j inputs []) <= list_max (map (@length _) inputs).
Proof using.
  clear. induction inputs as [|i r IH]; intros [|j]; cbn; try lia. specialize (IH j). unfold list_max in IH. lia.
Qed.
Lemma encode_len : forall pad me count inputs, length inputs <= count -> length (km_encode H pad me count inputs) = count.
Proof using. clear. intros pad me count inputs L. unfold km_encode. rewrite app_length, !map_length, seq_length. lia. Qed.

Lemma first_encoded : forall pad me count inputs x p, (forall y, In y inputs -> H y = H x -> y = x) -> first_at x p inputs ->
  first_pos (km_encode H pad me count inputs) (H x) p.
Proof using.
  clear. intros pad me count inputs x p HI (E & NI). unfold km_encode. assert (LP : p < length inputs) by (apply nth_error_Some; congruence).
  split.
  - rewrite nth_error_app1 by (rewrite map_length; exact LP). rewrite nth_error_map, E. reflexivity.
  - rewrite firstn_app, map_length. replace (p - length inputs) with 0 by lia. cbn [firstn]. rewrite app_nil_r, firstn_map.
    intros I. apply in_map_iff in I. destruct I as (y & Q & I). apply NI. replace x with y; [exact I|].
    apply HI; [|exact Q]. rewrite <- (firstn_skipn p inputs). apply in_or_app. left. exact I.
Qed.

Lemma run_inv : forall zero pad R inputs outs, km_run ro tries H bins_of n leader zero pad R inputs = Ok outs ->
  Forall (fun i => i <> []) inputs ->
  let count := list_max (map (@length _) inputs) in
  let items me := km_encode H pad me count (nth me inputs []) in
  exists shares recon, km_mapM (km_swap ro tries bins_of n zero R count items) (seq 0 n) = Ok shares /\
    km_recon ro tries bins_of n leader R count items (fun j => nth j shares []) = Ok recon /\
    forall me, me < n -> exists out, nth_error outs me = Some out /\
      km_output (nth me inputs []) (if me =? leader then recon else nth me shares []) = Ok out.
Proof using.
  intros zero pad R inputs outs E HN count items. unfold km_run in E.
  replace (existsb (fun i => length i =? 0) inputs) with false in E.
  - fold count in E. fold items in E. destruct (km_mapM (km_swap _ _ _ _ _ _ _ _) (seq 0 n)) as [shares| | |]; try discriminate. cbn [bind] in E.
    destruct (km_recon _ _ _ _ _ _ _ _ _) as [recon| | |] eqn:ER; try discriminate. cbn [bind] in E.
    exists shares, recon. split; [reflexivity|]. split; [exact ER|]. apply mapM_seq in E. destruct E as (_ & E). exact E.
  - symmetry. destruct (existsb _ inputs) eqn:X; [|reflexivity]. exfalso. apply existsb_exists in X. destruct X as (i & I & Q).
    rewrite Forall_forall in HN. apply (HN i I). destruct i; [reflexivity|discriminate].
Qed.

Lemma common_found : forall zero pad R inputs outs x p,
  let bins := bins_of (list_max (map (@length _) inputs)) in
  leader < n -> length inputs = n -> Forall (fun i => i <> []) inputs ->
  km_run ro tries H bins_of n leader zero pad R inputs = Ok outs ->
  (forall i y, In i inputs -> In y i -> H y = H x -> y = x) -> H x <> 0%N ->
  (forall b s d l, Permutation (kr_walk (R b s d) l) l) ->
  (forall j, j < n -> first_at x (p j) (nth j inputs [])) ->
  (forall src dst ot, src < n -> dst < n -> src <> dst -> ot < fst bins + snd bins -> kr_oprf (R false src dst) ot (H x) <> km_zero n zero src dst (p src)) ->
  (forall src ot, src < n -> src <> leader -> ot < fst bins + snd bins -> kr_oprf (R true src leader) ot (H x) <> km_xor (map (fun s => km_zero n zero s src (p s)) (seq 0 n))) ->
  In x (nth leader outs []).
Proof using.
  intros zero pad R inputs outs x p bins HL HN HE E HI Zx HW HP HC1 HC2.
  destruct (run_inv zero pad R inputs outs E HE) as (shares & recon & E1 & E2 & E3).
  set (count := list_max _) in *. set (items := fun me => km_encode H pad me count (nth me inputs [])) in *.
  destruct (E3 leader HL) as (out & EO & EK). rewrite Nat.eqb_refl in EK. rewrite (nth_error_nth _ _ _ EO).
  apply (output_in _ _ _ x EK). exists (p leader). split; [apply HP; exact HL|].
  apply (common_zero zero R count items) with (shares := shares) (q := H x); try assumption.
  - intros j Hj. apply encode_len. apply max_le.
  - intros j Hj. apply first_encoded; [|apply HP; exact Hj]. intros y I. apply (HI (nth j inputs [])); [apply nth_In; lia|exact I].
Qed.

Lemma outputs_sub : forall zero pad R inputs outs me,
  length inputs = n -> Forall (fun i => i <> []) inputs ->
  km_run ro tries H bins_of n leader zero pad R inputs = Ok outs -> me < n -> subseq (nth me outs []) (nth me inputs []).
Proof using.
  intros zero pad R inputs outs me HN HE E Hm.
  destruct (run_inv zero pad R inputs outs E HE) as (shares & recon & E1 & E2 & E3). destruct (E3 me Hm) as (out & EO & EK).
  rewrite (nth_error_nth _ _ _ EO). exact (output_subseq _ _ _ EK).
Qed.

Lemma few_items : forall zero pad R inputs outs,
  Forall (fun i => i <> []) inputs -> list_max (map (@length _) inputs) < n ->
  km_run ro tries H bins_of n leader zero pad R inputs <> Ok outs.
Proof using.
  intros zero pad R inputs outs HE HC E. destruct (run_inv zero pad R inputs outs E HE) as (shares & recon & _ & E2 & _).
  unfold km_recon in E2. destruct (km_gather n _ _) as [rows| | |] eqn:EG; try discriminate.
  apply gather_spec in EG. destruct EG as (_ & EG). destruct (EG _ HC) as (Z & _). lia.
Qed.
End Protocol.
