From Coq Require Import List NArith ZArith Lia Bool Permutation Sorted Arith.
From Verif Require Import Base BaseProofs Text TextProofs StoreModel StoreSpec StoreProofs EcdhModel.
Import ListNotations.

(** ** Packing *)
Lemma concat_cut : forall (items : list bytes) sz i,
  Forall (fun x => length x = sz) items -> i < length items ->
  firstn sz (skipn (i * sz) (concat items)) = nth i items [].
Proof.
  induction items as [|x items IH]; intros sz i H Hi; [simpl in Hi; lia|].
  inversion H as [|? ? Hx Hr]; subst. cbn [concat]. destruct i as [|i].
  - simpl. rewrite firstn_app, Nat.sub_diag. rewrite firstn_O, app_nil_r. apply firstn_all.
  - simpl in Hi. rewrite skipn_app. rewrite (skipn_all2 x) by nia.
    replace (S i * length x - length x) with (i * length x) by lia. simpl. apply IH; auto. lia.
Qed.

Lemma concat_len : forall (items : list bytes) sz,
  Forall (fun x => length x = sz) items -> length (concat items) = length items * sz.
Proof.
  induction 1 as [|x l Hx Hl IH]; auto. cbn [concat length]. rewrite app_length. lia.
Qed.

Lemma map_nth_seq : forall (A : Type) (l : list A) d, map (fun i => nth i l d) (seq 0 (length l)) = l.
Proof.
  intros A l d. induction l as [|x l IH]; auto. cbn [length seq map nth]. f_equal.
  rewrite <- seq_shift, map_map. exact IH.
Qed.

Lemma recv_batch_data : forall items dup k sz,
  Forall (fun x => length x = sz) items ->
  recv_batch (batch_data items dup k) = (items, match items with [] => [] | _ => dup end).
Proof.
  intros items dup k sz H. destruct items as [|x items]; [reflexivity|].
  unfold batch_data, recv_batch. cbn [m_num m_dup]. cbn [length Nat.eqb]. f_equal.
  unfold unpack. cbn [m_num m_bytes]. rewrite (concat_len _ sz) by auto.
  change (S (length items)) with (length (x :: items)).
  rewrite Nat.mul_comm, Nat.div_mul by discriminate.
  transitivity (map (fun i => nth i (x :: items) []) (seq 0 (length (x :: items)))).
  - apply map_ext_in. intros i Hi. apply in_seq in Hi. destruct Hi as [_ Hi]. apply concat_cut; auto.
  - apply map_nth_seq.
Qed.

Lemma batch_data_idx : forall items dup k, m_idx (batch_data items dup k) = k.
Proof. intros [|x items] dup k; reflexivity. Qed.

(** ** Queues as intervals *)
Lemma queue_push : forall (A : Type) (f : nat -> A) b a, b <= a ->
  map f (seq b (a - b)) ++ [f a] = map f (seq b (S a - b)).
Proof.
  intros A f b a H. replace (S a - b) with (S (a - b)) by lia.
  rewrite seq_S, map_app. cbn [map]. replace (b + (a - b)) with a by lia. reflexivity.
Qed.

Lemma queue_pop : forall (A : Type) (f : nat -> A) b a m q,
  map f (seq b (a - b)) = m :: q -> b < a /\ m = f b /\ q = map f (seq (S b) (a - S b)).
Proof.
  intros A f b a m q H. destruct (a - b) as [|k] eqn:E; [discriminate|].
  cbn [seq map] in H. injection H as <- <-. split; [lia|]. split; auto. do 2 f_equal. lia.
Qed.

Lemma flat_map_snoc : forall (A : Type) (f : nat -> list A) n,
  flat_map f (seq 0 n) ++ f n = flat_map f (seq 0 (S n)).
Proof. intros. rewrite seq_S, flat_map_app. cbn [flat_map Nat.add]. rewrite app_nil_r. reflexivity. Qed.

Lemma skipn_nth : forall (A : Type) (l : list A) k,
  skipn k l = match nth_error l k with Some x => x :: skipn (S k) l | None => [] end.
Proof.
  intros A l. induction l as [|x l IH]; intros [|k]; simpl; auto. apply IH.
Qed.

Section Protocol.
Variable Point : Type.
Variable hash_point : bytes -> Point.
Variable mask : bool -> Point -> Point.
Variable ser : Point -> bytes.
Variable deser : bytes -> Point.
Variable dual_mask_size L : nat.
Variable target : option bool.
Variable window : option nat.
Variable prov : bool -> list (list bytes * dupmap).
Hypothesis deser_ser : forall x, deser (ser x) = x.
Hypothesis ser_len : forall x, length (ser x) = L.
Hypothesis window_pos : match window with None => True | Some w => 0 < w end.
Hypothesis prov_nonempty : forall p, Forall (fun b => fst b <> []) (prov p).

Notation touch := (can_touch target).
Notation lastb := (last_bytes dual_mask_size).
Notation step' := (step Point hash_point mask ser deser dual_mask_size target window).
Notation runs' := (runs Point hash_point mask ser deser dual_mask_size target window).

Definition nb (p : bool) : nat := length (prov p).
Definition items_at (p : bool) (k : nat) : list bytes :=
  match nth_error (prov p) k with Some (i, _) => i | None => [] end.
Definition dups_at (p : bool) (k : nat) : dupmap :=
  match nth_error (prov p) k with Some (_, d) => d | None => [] end.
Definition msg_main (p : bool) (k : nat) : msg :=
  batch_data (map (fun it => ser (mask p (hash_point it))) (items_at p k))
             (if touch (negb p) then dups_at p k else []) k.
Definition dual_ciphers (p : bool) (k : nat) : list bytes :=
  map (fun it => lastb (ser (mask p (mask (negb p) (hash_point it))))) (items_at (negb p) k).
Definition msg_dual (p : bool) (k : nat) : msg := batch_data (dual_ciphers p k) [] k.
Definition saved_peer (p : bool) (k : nat) : list (bytes * N) :=
  if touch p then map (fun ic => (snd ic, dup_at (dups_at (negb p) k) (fst ic))) (number 0 (dual_ciphers p k))
  else [].
Definition saved_self (p : bool) (k : nat) : list (bytes * N) :=
  map (fun c => (c, 0%N)) (dual_ciphers (negb p) k).

Record counters : Type := mk_cnt { c_a : nat; c_b : nat; c_s : nat; c_d : nat }.

Definition canon (c : bool -> counters) (p : bool) : pstate :=
  let q := negb p in
  mk_pstate (skipn (c_a (c p)) (prov p))
    (Nat.min (c_a (c p)) (nb p)) (Nat.eqb (c_a (c p)) (S (nb p)))
    (Nat.min (c_s (c p)) (nb q))
    (if Nat.eqb (c_b (c p)) (c_s (c p)) then None else Some (dual_ciphers p (c_s (c p))))
    (Nat.eqb (c_s (c p)) (S (nb q)))
    (Nat.min (c_d (c p)) (nb p)) (negb (touch p) || Nat.eqb (c_d (c p)) (S (nb p)))
    (flat_map (saved_self p) (seq 0 (c_d (c p))))
    (flat_map (saved_peer p) (seq 0 (c_b (c p))))
    (map (msg_main p) (seq (c_b (c q)) (c_a (c p) - c_b (c q))))
    (if touch q then map (msg_dual p) (seq (c_d (c q)) (c_s (c p) - c_d (c q))) else []).

Definition bounds (c : bool -> counters) : Prop := forall p,
  c_a (c p) <= S (nb p) /\ c_b (c (negb p)) <= c_a (c p) /\
  c_s (c p) <= c_b (c p) <= S (c_s (c p)) /\
  c_d (c p) <= c_s (c (negb p)) /\ (touch p = false -> c_d (c p) = 0).

Definition Inv (s : system) (c : bool -> counters) : Prop :=
  bounds c /\ forall p, s p = canon c p.

Definition set_cnt (c : bool -> counters) (p : bool) (x : counters) : bool -> counters :=
  fun r => if Bool.eqb r p then x else c r.

Lemma items_in : forall p k, k < nb p -> items_at p k <> [].
Proof.
  intros p k H. unfold items_at. unfold nb in H.
  destruct (nth_error (prov p) k) as [[i d]|] eqn:E.
  - pose proof (prov_nonempty p) as Hn. rewrite Forall_forall in Hn.
    apply (Hn (i, d)). eapply nth_error_In; eauto.
  - apply nth_error_None in E. lia.
Qed.

Lemma items_out : forall p k, nb p <= k -> items_at p k = [].
Proof.
  intros p k H. unfold items_at. rewrite (proj2 (nth_error_None _ _)); auto.
Qed.

Lemma items_len0 : forall p k, k <= nb p -> Nat.eqb (length (items_at p k)) 0 = Nat.eqb k (nb p).
Proof.
  intros p k H. destruct (Nat.eqb_spec k (nb p)) as [->|E].
  - rewrite items_out by lia. reflexivity.
  - pose proof (items_in p k ltac:(lia)). destruct (items_at p k); [contradiction|reflexivity].
Qed.

Lemma dual_len0 : forall p k, k <= nb (negb p) -> Nat.eqb (length (dual_ciphers p k)) 0 = Nat.eqb k (nb (negb p)).
Proof. intros p k H. unfold dual_ciphers. rewrite map_length. apply items_len0. auto. Qed.

Lemma msg_main_idx : forall p k, m_idx (msg_main p k) = k.
Proof. intros. apply batch_data_idx. Qed.
Lemma msg_dual_idx : forall p k, m_idx (msg_dual p k) = k.
Proof. intros. apply batch_data_idx. Qed.

Lemma recv_main : forall p k,
  recv_batch (msg_main p k) =
    (map (fun it => ser (mask p (hash_point it))) (items_at p k),
     match items_at p k with [] => [] | _ => if touch (negb p) then dups_at p k else [] end).
Proof.
  intros p k. unfold msg_main. rewrite (recv_batch_data _ _ _ L).
  - f_equal. destruct (items_at p k); reflexivity.
  - apply Forall_forall. intros x Hx. apply in_map_iff in Hx. destruct Hx as (y & <- & _). apply ser_len.
Qed.

Lemma recv_dual : forall p k, fst (recv_batch (msg_dual p k)) = dual_ciphers p k.
Proof.
  intros p k. unfold msg_dual. rewrite (recv_batch_data _ _ _ (L - (L - dual_mask_size))); [reflexivity|].
  apply Forall_forall. intros x Hx. unfold dual_ciphers in Hx. apply in_map_iff in Hx.
  destruct Hx as (y & <- & _). unfold last_bytes. rewrite skipn_length, ser_len. reflexivity.
Qed.

Lemma ciphers_of_main : forall p k,
  map (fun it => lastb (ser (mask p (deser it)))) (fst (recv_batch (msg_main (negb p) k))) = dual_ciphers p k.
Proof.
  intros p k. rewrite recv_main. cbn [fst]. unfold dual_ciphers. rewrite map_map.
  apply map_ext. intros x. rewrite deser_ser. reflexivity.
Qed.

Lemma saved_of_main : forall p k,
  (if touch p then map (fun ic => (snd ic, dup_at (snd (recv_batch (msg_main (negb p) k))) (fst ic)))
                       (number 0 (dual_ciphers p k)) else []) = saved_peer p k.
Proof.
  intros p k. unfold saved_peer. destruct (touch p) eqn:E; auto. rewrite recv_main. cbn [snd].
  rewrite negb_involutive, E. unfold dual_ciphers.
  destruct (items_at (negb p) k); reflexivity.
Qed.

Lemma eqb_negb : forall p, Bool.eqb (negb p) p = false.
Proof. destruct p; reflexivity. Qed.

Lemma set_party_same : forall s p x, set_party s p x p = x.
Proof. intros s [] x; reflexivity. Qed.
Lemma set_party_other : forall s p x, set_party s p x (negb p) = s (negb p).
Proof. intros s [] x; reflexivity. Qed.
Lemma set_party_other2 : forall s p x, set_party s (negb p) x p = s p.
Proof. intros s [] x; reflexivity. Qed.
Lemma set_cnt_same : forall c p x, set_cnt c p x p = x.
Proof. intros c [] x; reflexivity. Qed.
Lemma set_cnt_other : forall c p x, set_cnt c p x (negb p) = c (negb p).
Proof. intros c [] x; reflexivity. Qed.

Lemma two_parties : forall (P : bool -> Prop) p, P p -> P (negb p) -> forall r, P r.
Proof. intros P [] H1 H2 []; auto. Qed.

(** Each successful step advances exactly one counter. *)
Definition bump (a : activity) (x : counters) : counters :=
  match a with
  | MaskSelf => mk_cnt (S (c_a x)) (c_b x) (c_s x) (c_d x)
  | MaskPeerRecv => mk_cnt (c_a x) (S (c_b x)) (c_s x) (c_d x)
  | MaskPeerSend => mk_cnt (c_a x) (c_b x) (S (c_s x)) (c_d x)
  | RecvDual => mk_cnt (c_a x) (c_b x) (c_s x) (S (c_d x))
  end.

Lemma pstate_eq : forall a1 a2 a3 a4 a5 a6 a7 a8 a9 a10 a11 a12 b1 b2 b3 b4 b5 b6 b7 b8 b9 b10 b11 b12,
  a1 = b1 -> a2 = b2 -> a3 = b3 -> a4 = b4 -> a5 = b5 -> a6 = b6 -> a7 = b7 -> a8 = b8 -> a9 = b9 ->
  a10 = b10 -> a11 = b11 -> a12 = b12 ->
  mk_pstate a1 a2 a3 a4 a5 a6 a7 a8 a9 a10 a11 a12 = mk_pstate b1 b2 b3 b4 b5 b6 b7 b8 b9 b10 b11 b12.
Proof. intros; subst; reflexivity. Qed.

Ltac proj := cbn [ms_rest msk_cnt ms_done mp_cnt mp_hold mp_done rd_cnt rd_done self_store peer_store
                  out_main out_dual c_a c_b c_s c_d] in *.

Lemma bounds_le : forall c, bounds c -> forall p,
  c_a (c p) <= S (nb p) /\ c_b (c p) <= S (nb (negb p)) /\ c_s (c p) <= S (nb (negb p)) /\ c_d (c p) <= S (nb p).
Proof.
  intros c B p. pose proof (B p) as Bp. pose proof (B (negb p)) as Bq. rewrite negb_involutive in Bq. lia.
Qed.

Lemma done_cond : forall k n, k <= n -> Nat.min (S k) n = (if Nat.eqb k n then Nat.min k n else S (Nat.min k n)).
Proof. intros k n H. destruct (Nat.eqb_spec k n); lia. Qed.

Lemma mask_self_step : forall c s p s', Inv s c -> step_mask_self Point hash_point mask ser target window p s = SNext s' ->
  Inv s' (set_cnt c p (bump MaskSelf (c p))) /\ c_a (c p) <= nb p.
Proof.
  intros c s p s' [B E] H. unfold step_mask_self in H.
  pose proof (B p) as Bp. pose proof (B (negb p)) as Bq. rewrite negb_involutive in Bq.
  rewrite (E p) in H. unfold canon in H. proj.
  destruct (Nat.eqb_spec (c_a (c p)) (S (nb p))) as [|Ea]; [discriminate|].
  destruct (negb _); [discriminate|].
  assert (Hr : (match skipn (c_a (c p)) (prov p) with [] => ([], [], []) | (i, d) :: r => (i, d, r) end) =
               (items_at p (c_a (c p)), dups_at p (c_a (c p)), skipn (S (c_a (c p))) (prov p))).
  { rewrite skipn_nth at 1. unfold items_at, dups_at.
    destruct (nth_error (prov p) (c_a (c p))) as [[i d]|] eqn:En; auto.
    f_equal. symmetry. apply skipn_all2. apply nth_error_None in En. unfold nb in *. lia. }
  rewrite Hr in H. clear Hr. injection H as <-.
  split; [|lia]. split.
  - unfold bounds; intros r; pattern r; apply (two_parties _ p).
    + rewrite set_cnt_same, set_cnt_other. cbn [bump]. proj. intuition lia.
    + rewrite negb_involutive, set_cnt_same, set_cnt_other. cbn [bump]. proj. intuition lia.
  - unfold bounds; intros r; pattern r; apply (two_parties _ p).
    + rewrite set_party_same. unfold canon. rewrite set_cnt_same, set_cnt_other. cbn [bump]. proj.
      apply pstate_eq; auto.
      * rewrite items_len0 by lia. symmetry. apply done_cond. lia.
      * rewrite items_len0 by lia. reflexivity.
      * rewrite <- queue_push by lia. f_equal. f_equal. unfold msg_main.
        destruct (Nat.eqb_spec (c_a (c p)) (nb p)) as [En|En].
        -- rewrite items_out by lia. cbn [map batch_data].
           destruct (touch (negb p)); rewrite Nat.min_l by lia; reflexivity.
        -- rewrite Nat.min_l by lia. destruct (touch (negb p)); reflexivity.
    + rewrite set_party_other, E. unfold canon. rewrite negb_involutive, set_cnt_other, set_cnt_same.
      cbn [bump]. proj. reflexivity.
Qed.

Lemma mask_peer_recv_step : forall c s p, Inv s c ->
  (step_mask_peer_recv Point mask ser deser dual_mask_size target p s <> SFail) /\
  (forall s', step_mask_peer_recv Point mask ser deser dual_mask_size target p s = SNext s' ->
   Inv s' (set_cnt c p (bump MaskPeerRecv (c p)))).
Proof.
  intros c s p [B E]. unfold step_mask_peer_recv.
  pose proof (B p) as Bp. pose proof (B (negb p)) as Bq. rewrite negb_involutive in Bq.
  rewrite (E p), (E (negb p)). unfold canon. proj. rewrite ?negb_involutive.
  destruct (Nat.eqb_spec (c_s (c p)) (S (nb (negb p)))) as [|Es]; [split; [discriminate|intros; discriminate]|].
  destruct (Nat.eqb_spec (c_b (c p)) (c_s (c p))) as [Eb|]; [|split; [discriminate|intros; discriminate]].
  destruct (map (msg_main (negb p)) _) as [|m q] eqn:Eq; [split; [discriminate|intros; discriminate]|].
  apply queue_pop in Eq. destruct Eq as (Hlt & -> & ->).
  rewrite !msg_main_idx.
  rewrite Nat.min_l by lia. rewrite Eb, Nat.eqb_refl. cbn [negb].
  destruct (recv_batch (msg_main (negb p) (c_s (c p)))) as [its dup] eqn:ER.
  split; [discriminate|]. intros s' H. injection H as <-.
  assert (HC : map (fun it => lastb (ser (mask p (deser it)))) its = dual_ciphers p (c_s (c p))).
  { rewrite <- ciphers_of_main, ER. reflexivity. }
  rewrite HC. pose proof (saved_of_main p (c_s (c p))) as HS. rewrite ER in HS. cbn [snd] in HS. rewrite HS.
  split.
  - unfold bounds; intros r; pattern r; apply (two_parties _ p).
    + rewrite set_cnt_same, set_cnt_other. cbn [bump]. proj. intuition lia.
    + rewrite negb_involutive, set_cnt_same, set_cnt_other. cbn [bump]. proj. intuition lia.
  - unfold bounds; intros r; pattern r; apply (two_parties _ p).
    + rewrite set_party_other2, set_party_same. unfold canon. rewrite set_cnt_same, set_cnt_other. cbn [bump]. proj.
      apply pstate_eq; auto.
      * rewrite Nat.min_l by lia. reflexivity.
      * destruct (Nat.eqb_spec (S (c_b (c p))) (c_s (c p))); [lia|]. reflexivity.
      * symmetry. apply Nat.eqb_neq. lia.
      * rewrite <- flat_map_snoc, Eb. reflexivity.
    + rewrite set_party_same. unfold canon. rewrite negb_involutive, set_cnt_other, set_cnt_same.
      cbn [bump]. proj. apply pstate_eq; auto. rewrite Eb. reflexivity.
Qed.

Lemma mask_peer_send_step : forall c s p s', Inv s c -> step_mask_peer_send target p s = SNext s' ->
  Inv s' (set_cnt c p (bump MaskPeerSend (c p))).
Proof.
  intros c s p s' [B E] H. unfold step_mask_peer_send in H.
  pose proof (B p) as Bp. pose proof (B (negb p)) as Bq. rewrite negb_involutive in Bq.
  rewrite (E p) in H. unfold canon in H. proj.
  destruct (Nat.eqb_spec (c_b (c p)) (c_s (c p))) as [|Eb]; [discriminate|].
  injection H as <-.
  assert (Hs : c_s (c p) <= nb (negb p)) by lia.
  split.
  - unfold bounds; intros r; pattern r; apply (two_parties _ p).
    + rewrite set_cnt_same, set_cnt_other. cbn [bump]. proj. intuition lia.
    + rewrite negb_involutive, set_cnt_same, set_cnt_other. cbn [bump]. proj. intuition lia.
  - unfold bounds; intros r; pattern r; apply (two_parties _ p).
    + rewrite set_party_same. unfold canon. rewrite set_cnt_same, set_cnt_other. cbn [bump]. proj.
      rewrite dual_len0 by lia.
      apply pstate_eq; auto.
      * symmetry. apply done_cond. lia.
      * replace (c_b (c p)) with (S (c_s (c p))) by lia. rewrite Nat.eqb_refl. reflexivity.
      * destruct (touch (negb p)); auto. rewrite <- queue_push by lia. f_equal. f_equal.
        unfold msg_dual. rewrite Nat.min_l by lia. reflexivity.
    + rewrite set_party_other, E. unfold canon. rewrite negb_involutive, set_cnt_other, set_cnt_same.
      cbn [bump]. proj. reflexivity.
Qed.

Lemma recv_dual_step : forall c s p, Inv s c ->
  step_recv_dual p s <> SFail /\
  (forall s', step_recv_dual p s = SNext s' -> Inv s' (set_cnt c p (bump RecvDual (c p)))).
Proof.
  intros c s p [B E]. unfold step_recv_dual.
  pose proof (B p) as Bp. pose proof (B (negb p)) as Bq. rewrite negb_involutive in Bq.
  rewrite (E p), (E (negb p)). unfold canon. proj. rewrite ?negb_involutive.
  destruct (touch p) eqn:Tp; cbn [negb orb]; [|split; [discriminate|intros; discriminate]].
  destruct (Nat.eqb_spec (c_d (c p)) (S (nb p))) as [|Ed]; [split; [discriminate|intros; discriminate]|].
  destruct (map (msg_dual (negb p)) _) as [|m q] eqn:Eq; [split; [discriminate|intros; discriminate]|].
  apply queue_pop in Eq. destruct Eq as (Hlt & -> & ->).
  rewrite !msg_dual_idx.
  rewrite Nat.min_l by lia. rewrite Nat.eqb_refl. cbn [negb].
  split; [discriminate|]. intros s' H. injection H as <-.
  rewrite !recv_dual. pose proof (dual_len0 (negb p) (c_d (c p))) as HD. rewrite negb_involutive in HD.
  rewrite !HD by lia.
  split.
  - unfold bounds; intros r; pattern r; apply (two_parties _ p).
    + rewrite set_cnt_same, set_cnt_other. cbn [bump]. proj. rewrite Tp. intuition (try discriminate; lia).
    + rewrite negb_involutive, set_cnt_same, set_cnt_other. cbn [bump]. proj. intuition lia.
  - unfold bounds; intros r; pattern r; apply (two_parties _ p).
    + rewrite set_party_other2, set_party_same. unfold canon. rewrite set_cnt_same, set_cnt_other. cbn [bump]. proj.
      apply pstate_eq; auto.
      * rewrite done_cond by lia. rewrite Nat.min_l by lia. reflexivity.
      * rewrite Tp. reflexivity.
      * rewrite <- flat_map_snoc. reflexivity.
    + rewrite set_party_same. unfold canon. rewrite negb_involutive, set_cnt_other, set_cnt_same.
      cbn [bump]. proj. rewrite Tp. reflexivity.
Qed.

Definition zero : bool -> counters := fun _ => mk_cnt 0 0 0 0.
Definition total (c : bool -> counters) : nat :=
  let t x := c_a x + c_b x + c_s x + c_d x in t (c true) + t (c false).

Lemma start_inv : Inv (start target prov) zero.
Proof.
  split.
  - intros p. unfold zero. simpl. lia.
  - intros p. unfold start, canon, zero. cbn [c_a c_b c_s c_d skipn Nat.min Nat.eqb seq flat_map map Nat.sub].
    apply pstate_eq; auto.
    + rewrite orb_false_r. reflexivity.
    + destruct (touch (negb p)); reflexivity.
Qed.

Lemma step_inv : forall c s p a s', Inv s c -> step' p a s = SNext s' -> Inv s' (set_cnt c p (bump a (c p))).
Proof.
  intros c s p a s' I H. destruct a; cbn [step] in H.
  - eapply mask_self_step in H; eauto. tauto.
  - eapply mask_peer_recv_step; eauto.
  - eapply mask_peer_send_step; eauto.
  - eapply recv_dual_step; eauto.
Qed.

Lemma step_no_fail : forall c s p a, Inv s c -> step' p a s <> SFail.
Proof.
  intros c s p a I. destruct a; cbn [step].
  - unfold step_mask_self. destruct (ms_done (s p)); [discriminate|].
    destruct (negb (window_open window (s p))); [discriminate|].
    destruct (match ms_rest (s p) with [] => _ | _ => _ end) as [[? ?] ?]. discriminate.
  - apply (mask_peer_recv_step c s p I).
  - unfold step_mask_peer_send. destruct (mp_hold (s p)); discriminate.
  - apply (recv_dual_step c s p I).
Qed.

Lemma total_bump : forall c p a, total (set_cnt c p (bump a (c p))) = S (total c).
Proof. intros c [] []; unfold total, set_cnt; cbn [Bool.eqb bump c_a c_b c_s c_d]; lia. Qed.

Lemma runs_inv : forall s0 tr s, runs' s0 tr s -> s0 = start target prov ->
  exists c, Inv s c /\ total c = length tr.
Proof.
  intros s0 tr s H E. induction H as [s|s tr s1 p a s2 R IH St].
  - subst. exists zero. split; [apply start_inv|reflexivity].
  - destruct (IH E) as (c & I & T). eexists. split; [eapply step_inv; eauto|].
    rewrite total_bump, app_length, T. simpl. lia.
Qed.

(** Counters of a finished state. *)
Definition final_cnt (p : bool) : counters :=
  mk_cnt (S (nb p)) (S (nb (negb p))) (S (nb (negb p))) (if touch p then S (nb p) else 0).

Lemma finished_counters : forall s c, Inv s c -> finished s ->
  forall p, c p = final_cnt p.
Proof.
  intros s c [B E] F p.
  destruct (F p) as (F1 & F2 & F3). rewrite (E p) in F1, F2, F3. unfold canon in F1, F2, F3. proj.
  apply Nat.eqb_eq in F1. apply Nat.eqb_eq in F2.
  pose proof (B p) as Bp. pose proof (B (negb p)) as Bq. rewrite negb_involutive in Bq.
  unfold final_cnt. destruct (c p) as [a b s0 d]. proj. subst a s0.
  assert (b = S (nb (negb p))) by lia. subst b. f_equal.
  destruct (touch p); cbn [negb orb] in F3; [apply Nat.eqb_eq in F3; auto|].
  destruct Bp as (_ & _ & _ & _ & Hd). auto.
Qed.

(** Progress: if not finished, some activity can move. *)
Lemma can_mask_peer : forall c s p, Inv s c -> c_b (c p) <> c_s (c p) ->
  exists s', step' p MaskPeerSend s = SNext s'.
Proof.
  intros c s p [B E] H. cbn [step]. unfold step_mask_peer_send. rewrite (E p). unfold canon. proj.
  destruct (Nat.eqb_spec (c_b (c p)) (c_s (c p))); [contradiction|]. eauto.
Qed.

Lemma blocked_cases : forall r : sresult, r <> SFail -> r = SBlocked \/ exists s', r = SNext s'.
Proof. intros [| |s'] H; eauto; contradiction. Qed.

Lemma can_recv_main : forall c s p, Inv s c -> c_b (c p) = c_s (c p) -> c_b (c p) < c_a (c (negb p)) ->
  exists s', step' p MaskPeerRecv s = SNext s'.
Proof.
  intros c s p I E1 H. destruct (blocked_cases _ (step_no_fail c s p MaskPeerRecv I)) as [Hb|?]; auto.
  exfalso. destruct I as [B E]. cbn [step] in Hb. unfold step_mask_peer_recv in Hb.
  rewrite (E p), (E (negb p)) in Hb. unfold canon in Hb. proj. rewrite ?negb_involutive in Hb.
  pose proof (bounds_le c B (negb p)) as (Ba & _). rewrite <- E1 in Hb. rewrite Nat.eqb_refl in Hb.
  destruct (Nat.eqb_spec (c_b (c p)) (S (nb (negb p)))); [lia|].
  destruct (c_a (c (negb p)) - c_b (c p)) as [|k] eqn:Ek; [lia|]. cbn [seq map] in Hb.
  destruct (negb (_ =? _)); [discriminate|]. destruct (recv_batch _). discriminate.
Qed.

Lemma can_recv_dual : forall c s p, Inv s c -> touch p = true -> c_d (c p) < c_s (c (negb p)) ->
  exists s', step' p RecvDual s = SNext s'.
Proof.
  intros c s p I T H. destruct (blocked_cases _ (step_no_fail c s p RecvDual I)) as [Hb|?]; auto.
  exfalso. destruct I as [B E]. cbn [step] in Hb. unfold step_recv_dual in Hb.
  rewrite (E p), (E (negb p)) in Hb. unfold canon in Hb. proj. rewrite ?negb_involutive in Hb.
  pose proof (bounds_le c B (negb p)) as (_ & _ & Bs & _). rewrite negb_involutive in *.
  rewrite T in Hb. cbn [negb orb] in Hb.
  destruct (Nat.eqb_spec (c_d (c p)) (S (nb p))); [lia|].
  destruct (c_s (c (negb p)) - c_d (c p)) as [|k] eqn:Ek; [lia|]. cbn [seq map] in Hb.
  destruct (negb (_ =? _)); discriminate.
Qed.

Lemma can_mask_self : forall c s p, Inv s c -> c_a (c p) <= nb p ->
  c_b (c (negb p)) = c_a (c p) -> (touch (negb p) = true -> c_d (c (negb p)) = c_s (c p)) ->
  exists s', step' p MaskSelf s = SNext s'.
Proof.
  intros c s p I Ha Hb Hd. destruct (blocked_cases _ (step_no_fail c s p MaskSelf I)) as [Hx|?]; auto.
  exfalso. destruct I as [B E]. cbn [step] in Hx. unfold step_mask_self, window_open in Hx.
  rewrite (E p) in Hx. unfold canon in Hx. proj.
  destruct (Nat.eqb_spec (c_a (c p)) (S (nb p))); [lia|].
  rewrite Hb, Nat.sub_diag in Hx. cbn [seq map length] in Hx.
  replace (length (if touch (negb p) then map (msg_dual p) (seq (c_d (c (negb p))) (c_s (c p) - c_d (c (negb p)))) else [])) with 0 in Hx
    by (destruct (touch (negb p)); auto; rewrite Hd, Nat.sub_diag; auto).
  assert (Hw : match window with Some w => 0 + 0 <? w | None => true end = true).
  { destruct window as [w|]; auto. apply Nat.ltb_lt. lia. }
  rewrite Hw in Hx. cbn [negb] in Hx.
  destruct (match skipn _ _ with [] => _ | _ => _ end) as [[? ?] ?]. discriminate.
Qed.

Lemma bool_cases : forall (P Q : bool -> Prop), (forall p, P p \/ Q p) -> (exists p, P p) \/ (forall p, Q p).
Proof.
  intros P Q H. destruct (H true) as [|Ht]; [eauto|]. destruct (H false) as [|Hf]; [eauto|].
  right. intros []; auto.
Qed.

Lemma progress : forall s c, Inv s c ->
  finished s \/ exists p a s', step' p a s = SNext s'.
Proof.
  intros s c I. pose proof I as [B E].
  destruct (bool_cases (fun p => c_b (c p) <> c_s (c p)) (fun p => c_b (c p) = c_s (c p))) as [[p H]|H1].
  { intros p. lia. }
  { right. destruct (can_mask_peer c s p I H) as (s' & Hs). eauto. }
  destruct (bool_cases (fun p => c_b (c p) < c_a (c (negb p))) (fun p => c_b (c p) = c_a (c (negb p)))) as [[p H]|H2].
  { intros p. pose proof (B (negb p)) as Bq. rewrite negb_involutive in Bq. lia. }
  { right. destruct (can_recv_main c s p I (H1 p) H) as (s' & Hs). eauto. }
  destruct (bool_cases (fun p => touch p = true /\ c_d (c p) < c_s (c (negb p)))
                       (fun p => touch p = true -> c_d (c p) = c_s (c (negb p)))) as [[p [T H]]|H3].
  { intros p. pose proof (B p) as Bp. destruct (touch p); [|right; discriminate].
    destruct (Nat.eq_dec (c_d (c p)) (c_s (c (negb p)))); [right; auto|left; split; [auto|lia]]. }
  { right. destruct (can_recv_dual c s p I T H) as (s' & Hs). eauto. }
  destruct (bool_cases (fun p => c_a (c p) <= nb p) (fun p => c_a (c p) = S (nb p))) as [[p H]|H4].
  { intros p. pose proof (B p) as Bp. lia. }
  { right. destruct (can_mask_self c s p I H) as (s' & Hs); eauto.
    - rewrite H2, negb_involutive. reflexivity.
    - intros T. rewrite (H3 _ T), negb_involutive. reflexivity. }
  left. intros p. rewrite (E p). unfold canon. proj. rewrite (H4 p), Nat.eqb_refl.
  rewrite <- (H1 p), (H2 p), (H4 (negb p)), Nat.eqb_refl. split; [auto|]. split; [auto|].
  destruct (touch p) eqn:T; [|reflexivity].
  rewrite (H3 p T), <- (H1 (negb p)), (H2 (negb p)), negb_involutive, (H4 p), Nat.eqb_refl. reflexivity.
Qed.

(** All runs are bounded. *)
Definition run_bound : nat := 8 + 4 * (nb true + nb false).

Lemma total_bound : forall c, bounds c -> total c <= run_bound.
Proof.
  intros c B. pose proof (bounds_le c B true). pose proof (bounds_le c B false). cbn [negb] in *.
  unfold total, run_bound. lia.
Qed.

(** ** Contents of the stores at the end *)
Definition final_self (p : bool) : list (bytes * N) :=
  if touch p then
    map (fun x => (lastb (ser (mask (negb p) (mask p (hash_point x)))), 0%N)) (concat (map fst (prov p)))
  else [].
Definition final_peer (p : bool) : list (bytes * N) :=
  if touch p then
    flat_map (fun b => map (fun ix => (lastb (ser (mask p (mask (negb p) (hash_point (snd ix))))), dup_at (snd b) (fst ix)))
                           (number 0 (fst b))) (prov (negb p))
  else [].

Lemma flat_map_seq_nth : forall (A B : Type) (g : option A -> list B) (l : list A),
  flat_map (fun k => g (nth_error l k)) (seq 0 (length l)) = flat_map (fun x => g (Some x)) l.
Proof.
  intros A B g l. induction l as [|x l IH]; auto. cbn [length seq flat_map nth_error]. f_equal.
  rewrite <- seq_shift, flat_map_map. exact IH.
Qed.

Lemma final_stores : forall s c, Inv s c -> finished s -> forall p,
  self_store (s p) = final_self p /\ peer_store (s p) = final_peer p /\
  out_main (s p) = [] /\ out_dual (s p) = [].
Proof.
  intros s c I F p. pose proof (finished_counters s c I F) as HC. destruct I as [B E].
  rewrite (E p). unfold canon. proj. rewrite !HC. unfold final_cnt. proj. rewrite !negb_involutive.
  split; [|split; [|split]].
  - unfold final_self. destruct (touch p); [|reflexivity].
    rewrite <- flat_map_snoc. unfold saved_self, dual_ciphers. rewrite !negb_involutive.
    rewrite (items_out p (nb p)) by lia. cbn [map]. rewrite app_nil_r.
    unfold nb, items_at.
    rewrite (flat_map_seq_nth _ _ (fun o => map (fun c0 => (c0, 0%N)) (map (fun it => lastb (ser (mask (negb p) (mask p (hash_point it)))))
       (match o with Some (i, _) => i | None => [] end)))).
    induction (prov p) as [|[i d] l IH]; auto. cbn [flat_map map concat fst].
    rewrite IH, map_app, map_map. reflexivity.
  - unfold final_peer. unfold saved_peer. destruct (touch p).
    2:{ generalize (seq 0 (S (nb (negb p)))). induction l; auto. }
    rewrite <- flat_map_snoc. unfold dual_ciphers at 2. rewrite (items_out (negb p) (nb (negb p))) by lia.
    cbn [map number]. rewrite app_nil_r.
    unfold nb, dual_ciphers, items_at, dups_at.
    rewrite (flat_map_seq_nth _ _ (fun o => map (fun ic => (snd ic, dup_at (match o with Some (_, d) => d | None => [] end) (fst ic)))
      (number 0 (map (fun it => lastb (ser (mask p (mask (negb p) (hash_point it)))))
       (match o with Some (i, _) => i | None => [] end))))).
    apply flat_map_ext. intros [i d]. rewrite number_map, map_map. reflexivity.
  - rewrite Nat.sub_diag. reflexivity.
  - destruct (touch (negb p)); [|reflexivity]. rewrite Nat.sub_diag. reflexivity.
Qed.

(** A party that may not touch the result. *)
Lemma outsider : forall s c p, Inv s c -> touch p = false ->
  self_store (s p) = [] /\ peer_store (s p) = [] /\ out_dual (s (negb p)) = [] /\
  Forall (fun m => m_dup m = []) (out_main (s (negb p))).
Proof.
  intros s c p [B E] T. rewrite (E p), (E (negb p)). unfold canon. proj. rewrite negb_involutive, T.
  destruct (B p) as (_ & _ & _ & _ & Hd). rewrite (Hd T). split; [reflexivity|]. split.
  - unfold saved_peer. rewrite T. generalize (seq 0 (c_b (c p))). induction l; auto.
  - split; [reflexivity|]. apply Forall_forall. intros m Hm. apply in_map_iff in Hm.
    destruct Hm as (k & <- & _). unfold msg_main. rewrite negb_involutive, T.
    destruct (map _ (items_at (negb p) k)); reflexivity.
Qed.

End Protocol.
