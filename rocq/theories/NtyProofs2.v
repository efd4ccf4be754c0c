(** Proofs about NtyModel: the values of both sides and the whole run. *)
From Coq Require Import List Arith NArith Bool Lia Permutation Sorted.
From Verif Require Import Base BaseProofs StoreModel JoinModel JoinProofs4 GfModel GfProofs GfProofs2 OkvsModel OkvsProofs OkvsProofs2 OkvsProofs3 OkvsProofs4
  Rr22OprfModel Rr22OprfProofs PaxEncModel PaxEncProofs BaxEncModel BaxEncProps NtyModel NtySpec NtyProofs.
Import ListNotations.
Local Open Scope N_scope.

Lemma ok_inj : forall (A : Type) (a b : A), Ok a = Ok b -> a = b.
Proof. intros A a b H. congruence. Qed.
Lemma cv_below : forall avx nb q pp h, all_below 128 pp -> h < 2 ^ 128 -> cv avx nb q pp h < 2 ^ 128.
Proof.
  intros avx nb q pp h Hp Hh. unfold cv, key_val. apply table_below; [apply gf_is_mul|apply slice_below; assumption|].
  apply coefs_below; [apply gf_is_mul|assumption].
Qed.
Lemma map_in : forall (A B : Type) (f g : A -> B) l x, map f l = map g l -> In x l -> f x = g x.
Proof. intros A B f g l x E I. apply ext_in_map with (l := l); assumption. Qed.
Lemma zip_map : forall (f g : N -> N) l, zip_with N.lxor (map f l) (map g l) = map (fun x => N.lxor (f x) (g x)) l.
Proof. intros f g l. induction l as [|x l IH]; [reflexivity|]. unfold zip_with in *. cbn [map combine]. rewrite IH. reflexivity. Qed.

(** xor of a list of functions at x, as the loops compute it. *)
Definition xsum (fs : list (N -> N)) (x : N) : N := fold_left (fun a f => N.lxor a (f x)) fs 0.
Lemma xsum_fold : forall l fs (g : N -> N), fold_left xor_into (map (fun f => map f l) fs) (map g l) =
  map (fun x => fold_left (fun a f => N.lxor a (f x)) fs (g x)) l.
Proof.
  intros l fs. induction fs as [|f fs IH]; intros g; [reflexivity|]. cbn [map fold_left]. unfold xor_into at 2. rewrite zip_map. apply IH.
Qed.
Lemma xsum_below : forall fs x, Forall (fun f : N -> N => f x < 2 ^ 128) fs -> xsum fs x < 2 ^ 128.
Proof.
  intros fs x. unfold xsum. assert (G : forall a, a < 2 ^ 128 -> Forall (fun f : N -> N => f x < 2 ^ 128) fs -> fold_left (fun a f => N.lxor a (f x)) fs a < 2 ^ 128).
  { induction fs as [|f fs IH]; intros a A F; [assumption|]. inversion F; subst. cbn [fold_left]. apply IH; [apply lxor_below; assumption|assumption]. }
  apply G. reflexivity.
Qed.
Lemma zeros_map : forall (l : list N), repeat 0 (length l) = map (fun _ => 0) l.
Proof. induction l as [|x l IH]; [reflexivity|]. cbn [length repeat map]. rewrite IH. reflexivity. Qed.
Lemma xsum_ext : forall (A : Type) (f g : A -> N -> N) l x, (forall i, In i l -> f i x = g i x) -> xsum (map f l) x = xsum (map g l) x.
Proof.
  intros A f g l x. unfold xsum. generalize 0. induction l as [|i l IH]; intros a H; [reflexivity|]. cbn [map fold_left]. rewrite (H i) by (left; reflexivity).
  apply IH. intros. apply H. right. assumption.
Qed.

Section Tables.
Variable enc dec : N -> N -> N.
Variable cr : nat -> N -> N.
Variable shape : nat -> okvs_shape.
Variable mach : nat -> machine.
Hypothesis Hcr : forall i x, cr i x < 2 ^ 128.

Lemma gen_decode : forall i items values msgs, fit_shape (shape (length items)) ->
  Permutation (m_order (mach i)) (seq 0 (sh_bins (shape (length items)))) ->
  length values = length items -> Forall (fun v => v < 2 ^ 128) values ->
  gen_okvs cr shape mach i items values = Ok msgs ->
  exists D, (forall j Q, decode_okvs cr shape mach j i (length items) Q msgs = Ok (map D Q)) /\ map D items = values /\ (forall x, D x < 2 ^ 128).
Proof using Hcr.
  intros i items values msgs (F1 & F2 & F3 & F4 & F5 & F6) Ho L Hv H. unfold gen_okvs in H. set (s := shape (length items)) in *. set (m := mach i) in *.
  apply bind_ok in H. destruct H as (p & E & H). apply ok_inj in H. subst msgs.
  assert (Hs : shape_ok 128 (sh_param s)) by (unfold shape_ok; rewrite F5; split; [reflexivity|assumption]).
  assert (X : forall t, length p = sh_size s /\ Forall (fun x => x < 2 ^ 128) p /\ (length items <= length values)%nat /\
     baxos_decode (cr i) true (sh_bins s) (sh_param s) t p items = Ok (firstn (length items) values)).
  { intros t. apply (C63_solve_decode (cr i) (sh_param s) (m_avx m) true (sh_bins s) (sh_gap s) (length items) (m_cap m) (sh_ipb s) (m_threads m) t (m_order m)); try assumption.
    - apply Hcr.
    - auto.
    - rewrite F5. discriminate. }
  destruct (X 1%nat) as (A & B & _ & D). rewrite firstn_all2 in D by lia.
  assert (DO : forall avx t Q, baxos_decode (cr i) avx (sh_bins s) (sh_param s) t p Q = Ok (map (fun x => cv avx (sh_bins s) (sh_param s) p (cr i x)) Q)).
  { intros avx t Q. apply baxos_decode_ok; try assumption. apply Hcr. }
  rewrite DO in D. apply ok_inj in D.
  exists (fun x => cv true (sh_bins s) (sh_param s) p (cr i x)). split; [|split; [assumption|intros x; apply cv_below; [assumption|apply Hcr]]].
  intros j Q. unfold decode_okvs. fold s. assert (C0 : (0 < send_chunk_size)%nat) by (unfold send_chunk_size; lia).
  rewrite recv_chunked_all.
  - unfold send_chunked. rewrite chunks_concat by assumption. rewrite app_nil_l. cbn [bind fst]. rewrite DO. f_equal. apply map_ext. intros x. unfold cv.
    apply key_val_ext; try apply gf_is_mul; [apply slice_below; assumption|apply Hcr].
  - intros c I. apply (chunks_nonempty _ _ _ _ C0 I).
  - unfold send_chunked. rewrite chunks_concat by assumption. cbn [length]. lia.
Qed.

Section Run.
Variable wsize srv hlp rcv : nat.
Variable inputs : nat -> list N.
Variable seed : nat -> N.
Notation others := (nty_others wsize srv hlp rcv).
Hypothesis Henc : forall k x, enc k x < 2 ^ 128.
Hypothesis Hin : forall i x, In x (inputs i) -> x < 2 ^ 128.
Hypothesis Hfit : forall i, (i < wsize)%nat -> i <> hlp -> i <> rcv ->
  fit_shape (shape (length (inputs i))) /\ Permutation (m_order (mach i)) (seq 0 (sh_bins (shape (length (inputs i))))).

(** The key function everybody knows a part of. *)
Definition mask (x : N) : N := if Nat.eqb wsize 3 then enc (seed hlp) x else xsum (map (fun k => enc (seed k)) others) x.
Lemma mask_below : forall x, mask x < 2 ^ 128.
Proof using Henc.
  intros x. unfold mask. destruct (Nat.eqb wsize 3); [apply Henc|]. apply xsum_below. apply Forall_map. apply Forall_forall. intros k _. apply Henc.
Qed.
Lemma server_values_is : server_values enc wsize srv hlp rcv inputs seed = map mask (inputs srv).
Proof using.
  unfold server_values, mask. destruct (Nat.eqb wsize 3); [reflexivity|]. rewrite zeros_map. unfold prf.
  transitivity (fold_left xor_into (map (fun f => map f (inputs srv)) (map (fun k => enc (seed k)) others)) (map (fun _ => 0) (inputs srv))).
  - generalize (map (fun _ : N => 0) (inputs srv)). induction others as [|k l IH]; intros a; [reflexivity|]. cbn [map fold_left]. apply IH.
  - apply (xsum_fold (inputs srv) _ (fun _ => 0)).
Qed.
Lemma others_in : forall i, In i others <-> (i < wsize)%nat /\ i <> srv /\ i <> hlp /\ i <> rcv.
Proof using.
  clear. intros i. unfold nty_others. rewrite filter_In, in_seq, negb_true_iff, !orb_false_iff, !Nat.eqb_neq. intuition lia.
Qed.

Lemma receiver_is : forall rv, (srv < wsize)%nat -> srv <> hlp -> srv <> rcv ->
  receiver_values enc cr shape mach wsize srv hlp rcv inputs seed = Ok rv ->
  exists D, rv = map (fun x => N.lxor x (D x)) (inputs rcv) /\ (forall x, In x (inputs srv) -> D x = mask x) /\ (forall x, D x < 2 ^ 128).
Proof using Hcr Henc Hfit.
  intros rv S1 S2 S3 H. unfold receiver_values in H. rewrite server_values_is in H. apply bind_ok in H. destruct H as (msgs & E & H).
  destruct (Hfit srv S1 S2 S3) as [F O]. apply gen_decode in E; try assumption.
  - destruct E as (D & E1 & E2 & E3). rewrite E1 in H. cbn [bind] in H. apply ok_inj in H. exists D. split; [|split; [|assumption]].
    + rewrite <- H. unfold xor_into. rewrite <- (map_id (inputs rcv)) at 1. apply (zip_map (fun x => x)).
    + intros x I. apply (map_in _ _ D mask (inputs srv)); assumption.
  - apply map_length.
  - apply Forall_map. apply Forall_forall. intros x _. apply mask_below.
Qed.

Lemma helper_decodes : forall l ds, NoDup l -> (forall i, In i l -> In i others) ->
  omapM (fun i => do msgs <- gen_okvs cr shape mach i (inputs i) (prf enc (seed i) (inputs i));
                  decode_okvs cr shape mach hlp i (length (inputs i)) (inputs hlp) msgs) l = Ok ds ->
  exists D : nat -> N -> N, ds = map (fun f => map f (inputs hlp)) (map D l) /\ (forall i x, In i l -> In x (inputs i) -> D i x = enc (seed i) x) /\
    (forall i x, In i l -> D i x < 2 ^ 128).
Proof using Hcr Henc Hfit.
  induction l as [|i l IH]; intros ds ND Hl H.
  - cbn in H. apply ok_inj in H. subst ds. exists (fun _ _ => 0). split; [reflexivity|]. split; intros ? ? [].
  - cbn [omapM] in H. apply bind_ok in H. destruct H as (d & E & H). apply bind_ok in H. destruct H as (ds' & E' & H). apply ok_inj in H. subst ds.
    apply bind_ok in E. destruct E as (msgs & G & E). inversion ND as [|? ? NI ND']; subst. apply IH in E'; [|assumption|intros; apply Hl; right; assumption]. destruct E' as (D & -> & D1 & D2).
    pose proof (proj1 (others_in i) (Hl i (or_introl eq_refl))) as (I1 & I2 & I3 & I4). destruct (Hfit i I1 I3 I4) as [F O].
    apply gen_decode in G; try assumption.
    + destruct G as (Di & G1 & G2 & G3). rewrite G1 in E. apply ok_inj in E. subst d.
      exists (fun j => if Nat.eqb j i then Di else D j).
      assert (Dl : forall j x, In j l -> In x (inputs j) -> (if Nat.eqb j i then Di else D j) x = enc (seed j) x).
      { intros j x Ij Ix. destruct (Nat.eqb_spec j i) as [->|N]; [|apply D1; assumption]. apply (map_in _ _ Di (enc (seed i)) (inputs i)); [exact G2|assumption]. }
      split; [|split].
      * cbn [map]. rewrite Nat.eqb_refl. f_equal. 
        f_equal. apply map_ext_in. intros j Ij. destruct (Nat.eqb_spec j i) as [->|N]; [contradiction|reflexivity].
      * intros j x [<-|Ij] Ix; [|apply Dl; assumption]. rewrite Nat.eqb_refl. apply (map_in _ _ Di (enc (seed i)) (inputs i)); [exact G2|assumption].
      * intros j x [<-|Ij]; [rewrite Nat.eqb_refl; apply G3|]. destruct (Nat.eqb j i); [apply G3|apply D2; assumption].
    + apply map_length.
    + apply Forall_map. apply Forall_forall. intros x _. apply Henc.
Qed.

Lemma others_nodup : NoDup others.
Proof using. clear. unfold nty_others. apply NoDup_filter. apply seq_NoDup. Qed.
Lemma helper_is : forall hv, helper_values enc cr shape mach wsize srv hlp rcv inputs seed = Ok hv ->
  exists D, hv = map (fun x => N.lxor x (D x)) (inputs hlp) /\ (forall x, (forall i, In i others -> In x (inputs i)) -> D x = mask x) /\ (forall x, D x < 2 ^ 128).
Proof using Hcr Henc Hfit.
  intros hv H. unfold helper_values in H. unfold mask. destruct (Nat.eqb wsize 3).
  - apply ok_inj in H. subst hv. exists (enc (seed hlp)). split; [|split; [reflexivity|intros; apply Henc]].
    unfold xor_into, prf. rewrite <- (map_id (inputs hlp)) at 1. apply (zip_map (fun x => x)).
  - apply bind_ok in H. destruct H as (ds & E & H). apply ok_inj in H. subst hv. apply helper_decodes in E; [|apply others_nodup|auto].
    destruct E as (D & -> & D1 & D2). exists (xsum (map D others)). split; [|split].
    + rewrite zeros_map, (xsum_fold (inputs hlp) _ (fun _ => 0)). unfold xor_into. rewrite <- (map_id (inputs hlp)) at 1. apply (zip_map (fun x => x)).
    + intros x Hx. apply xsum_ext. intros i I. apply D1; [assumption|apply Hx; assumption].
    + intros x. apply xsum_below. apply Forall_map. apply Forall_forall. intros i I. apply D2. assumption.
Qed.
End Run.
End Tables.

(** ** The two-party part *)
Lemma raw_facts : forall (enc dec : N -> N) shufH shufR hv rv,
  (forall x, x < 2 ^ 128 -> dec (enc x) = x) -> (forall l : list N, Permutation (shufH l) l) -> (forall l : list N, Permutation (shufR l) l) ->
  Forall (fun v => v < 2 ^ 128) hv -> Forall (fun v => v < 2 ^ 128) rv ->
  let raw := map dec (server_assist (shufH (map enc hv)) (shufR (map enc rv))) in
  (forall v, v < 2 ^ 128 -> times v raw = Nat.min (times v hv) (times v rv)) /\ (forall r, In r raw -> In r rv).
Proof.
  intros enc dec shufH shufR hv rv Hd PH PR BH BR raw. rewrite Forall_forall in BH, BR.
  set (l := server_assist (shufH (map enc hv)) (shufR (map enc rv))) in *.
  assert (TL : forall z, times z l = Nat.min (times z (map enc hv)) (times z (map enc rv))).
  { intros z. unfold l. rewrite assist_times, (times_perm z _ _ (PH _)), (times_perm z _ _ (PR _)). reflexivity. }
  assert (IL : forall y, In y l -> exists w, In w rv /\ y = enc w).
  { intros y I. apply (count_occ_In N.eq_dec) in I. fold (times y l) in I. rewrite TL in I. assert (J : (times y (map enc rv) > 0)%nat) by lia.
    apply (count_occ_In N.eq_dec) in J. apply in_map_iff in J. destruct J as (w & <- & J). exists w. auto. }
  assert (TE : forall v k, v < 2 ^ 128 -> (forall y, In y k -> y < 2 ^ 128) -> times (enc v) (map enc k) = times v k).
  { intros v k Hv Hk. apply times_map. intros y I E. rewrite <- (Hd y), <- (Hd v) by auto. congruence. }
  split.
  - intros v Hv. unfold raw. rewrite <- (Hd v Hv) at 1. rewrite times_map.
    + rewrite TL, !TE by auto. reflexivity.
    + intros y I E. destruct (IL y I) as (w & W & ->). rewrite !Hd in E by auto. congruence.
  - intros r I. unfold raw in I. apply in_map_iff in I. destruct I as (y & <- & I). destruct (IL y I) as (w & W & ->). rewrite Hd by auto. assumption.
Qed.
