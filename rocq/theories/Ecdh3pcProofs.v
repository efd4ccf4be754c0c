(** Lemmas about three-party ECDH PSI. *)
From Coq Require Import List NArith Bool Arith Lia Sorting.Permutation Sorting.Sorted.
From Verif Require Import Base BaseProofs Text TextProofs StoreModel EcdhModel EcdhProofs Ecdh3pcModel.
Import ListNotations.

(** ** The byte order *)
Lemma bltb_irrefl : forall a, bltb a a = false.
Proof. induction a as [|x a IH]; [reflexivity|]. cbn [bltb]. rewrite N.ltb_irrefl, N.eqb_refl. exact IH. Qed.
Lemma bltb_total : forall a b, bltb a b = false -> bltb b a = false -> a = b.
Proof.
  induction a as [|x a IH]; intros [|y b] H1 H2; cbn [bltb] in *; try discriminate; [reflexivity|].
  destruct (N.ltb_spec x y); [discriminate|]. destruct (N.ltb_spec y x); [discriminate|].
  assert (x = y) by lia. subst y. rewrite N.eqb_refl in *. f_equal. apply IH; assumption.
Qed.
Lemma bltb_trans : forall a b c, bltb a b = true -> bltb b c = true -> bltb a c = true.
Proof.
  induction a as [|x a IH]; intros [|y b] [|z c] H1 H2; cbn [bltb] in *; try discriminate; [reflexivity|].
  destruct (N.ltb_spec x y) as [A|A]; destruct (N.ltb_spec y z) as [B|B].
  - destruct (N.ltb_spec x z); [reflexivity|lia].
  - destruct (N.eqb_spec y z); [|discriminate H2]. subst z. destruct (N.ltb_spec x y); [reflexivity|lia].
  - destruct (N.eqb_spec x y); [|discriminate H1]. subst y. destruct (N.ltb_spec x z); [reflexivity|lia].
  - destruct (N.eqb_spec x y); [|discriminate H1]. destruct (N.eqb_spec y z); [|discriminate H2]. subst.
    rewrite N.ltb_irrefl, N.eqb_refl. eapply IH; eassumption.
Qed.
Lemma bltb_asym : forall a b, bltb a b = true -> bltb b a = false.
Proof. intros a b H. apply not_true_is_false. intros H2. pose proof (bltb_trans _ _ _ H H2). rewrite bltb_irrefl in H0. discriminate. Qed.

Definition bsorted : list bytes -> Prop := StronglySorted (fun x y => bltb y x = false).

Lemma set_inter_cons : forall x a y b, set_inter (x :: a) (y :: b) =
  if bltb x y then set_inter a (y :: b) else if bltb y x then set_inter (x :: a) b else x :: set_inter a b.
Proof. reflexivity. Qed.

Lemma set_inter_spec : forall a b z, bsorted a -> bsorted b -> In z (set_inter a b) <-> In z a /\ In z b.
Proof.
  induction a as [|x a IHa]; intros b z Ha Hb; [cbn; tauto|].
  induction b as [|y b IHb]; [cbn; tauto|].
  rewrite set_inter_cons. inversion Ha as [|? ? Ha' Fa]; subst. inversion Hb as [|? ? Hb' Fb]; subst.
  rewrite Forall_forall in Fa, Fb.
  destruct (bltb x y) eqn:E1; [|destruct (bltb y x) eqn:E2].
  - rewrite IHa by assumption. split; [intros [A B]; split; [right; exact A|exact B]|].
    intros [[<-|A] B]; [|split; assumption]. exfalso. destruct B as [B|B]; [subst y; rewrite bltb_irrefl in E1; discriminate|].
    specialize (Fb x B). congruence.
  - rewrite IHb by assumption. split; [intros [A B]; split; [exact A|right; exact B]|].
    intros [A [<-|B]]; [|split; assumption]. exfalso. destruct A as [A|A]; [subst y; rewrite bltb_irrefl in E2; discriminate|].
    specialize (Fa y A). congruence.
  - pose proof (bltb_total _ _ E1 E2). subst y. cbn [In]. rewrite IHa by assumption. split.
    + intros [<-|[A B]]; [auto|auto].
    + intros [[<-|A] [B|B]]; auto.
Qed.

(** ** Streams of batches *)
Definition stream (k : nat) (bs : list (list bytes)) : list msg :=
  map (fun p => batch_data (snd p) [] (fst p)) (number k (bs ++ [[]])).

Lemma stream_cons : forall k b bs, stream k (b :: bs) = batch_data b [] k :: stream (S k) bs.
Proof. reflexivity. Qed.

Lemma recv_fst : forall (items : list bytes) dup k sz, Forall (fun x => length x = sz) items ->
  fst (recv_batch (batch_data items dup k)) = items.
Proof. intros. rewrite (recv_batch_data items dup k sz) by assumption. reflexivity. Qed.

Lemma recv_stream : forall sz (bs : list (list bytes)) k, Forall (fun b => b <> [] /\ Forall (fun x => length x = sz) b) bs ->
  recv_items (stream k bs) k = Ok (concat bs).
Proof.
  intros sz bs. induction bs as [|b bs IH]; intros k H.
  - cbn. rewrite Nat.eqb_refl. reflexivity.
  - rewrite stream_cons. cbn [recv_items]. rewrite batch_data_idx, Nat.eqb_refl. cbn [enforce].
    inversion H as [|? ? [H1 H2] H3]; subst. rewrite (recv_fst b [] k sz H2).
    destruct b as [|x b]; [contradiction|]. cbn [length Nat.eqb].
    rewrite IH by exact H3. reflexivity.
Qed.

Lemma send_loop_stream : forall bsz fuel items k, 0 < bsz -> length items < fuel ->
  exists bs, send_loop fuel bsz items k = stream k bs /\ concat bs = items /\ Forall (fun b => b <> []) bs.
Proof.
  intros bsz fuel. induction fuel as [|f IH]; intros items k Hb Hl; [lia|]. cbn [send_loop].
  set (cur := firstn (Nat.min bsz (length items)) items).
  assert (Lc : length cur = Nat.min bsz (length items)) by (unfold cur; rewrite firstn_length; lia).
  destruct (Nat.eqb_spec (length cur) 0) as [E|E].
  - exists []. assert (length items = 0) by lia. apply length_zero_iff_nil in H. apply length_zero_iff_nil in E. rewrite E, H.
    split; [reflexivity|]. split; [reflexivity|constructor].
  - destruct (IH (skipn (length cur) items) (S k) Hb) as (bs & E1 & E2 & E3); [unfold bytes in *; rewrite skipn_length; lia|].
    exists (cur :: bs). split; [rewrite stream_cons, E1; reflexivity|]. split.
    + cbn [concat]. rewrite E2, Lc. apply firstn_skipn.
    + constructor; [intros Z; rewrite Z in E; apply E; reflexivity|exact E3].
Qed.

Lemma recv_send : forall bsz sz (items : list bytes), 0 < bsz -> Forall (fun x => length x = sz) items ->
  recv_items (send_impl bsz items) 0 = Ok items.
Proof.
  intros bsz sz items Hb Hs. unfold send_impl.
  destruct (send_loop_stream bsz (S (length items)) items 0 Hb) as (bs & E1 & E2 & E3); [apply Nat.lt_succ_diag_r|].
  rewrite E1, <- E2. apply (recv_stream sz). rewrite Forall_forall in *. intros b Ib. split; [apply E3; exact Ib|].
  rewrite Forall_forall. intros x Ix. apply Hs. rewrite <- E2. apply in_concat. exists b. auto.
Qed.

Section S.
Variable Point : Type.
Variable hash_point : bytes -> Point.
Variable mask : nat -> Point -> Point.
Variable ser : Point -> bytes.
Variable deser : bytes -> Point.
Variable L : nat.
Hypothesis DS : forall x, deser (ser x) = x.
Hypothesis LS : forall x, length (ser x) = L.

Lemma last_bytes_len : forall n s, n <= length s -> length (last_bytes n s) = n.
Proof using. clear. intros n s H. unfold last_bytes. rewrite skipn_length. lia. Qed.
Lemma last_bytes_all : forall s, last_bytes (length s) s = s.
Proof using. clear. intros s. unfold last_bytes. rewrite Nat.sub_diag. reflexivity. Qed.

Lemma mask_send_stream : forall bsz r items,
  mask_send_self Point hash_point mask ser bsz r items =
  stream 0 (map (map (fun it => ser (mask r (hash_point it)))) (chunks bsz items)).
Proof using. clear DS LS. reflexivity. Qed.

Definition trunc_ok (t : option nat) : Prop := match t with Some n => n <= L | None => True end.

Lemma forward_stream : forall r t (ps : list (list Point)) k, Forall (fun b => b <> []) ps ->
  mask_forward Point mask ser deser r t (stream k (map (map ser) ps)) k =
  Ok (stream k (map (map (fun p => trunc_to t (ser (mask r p)))) ps)).
Proof using DS LS.
  intros r t ps. induction ps as [|b ps IH]; intros k H.
  - cbn. rewrite Nat.eqb_refl. reflexivity.
  - cbn [map]. rewrite !stream_cons. cbn [mask_forward]. rewrite batch_data_idx, Nat.eqb_refl. cbn [enforce].
    rewrite (recv_fst (map ser b) [] k L) by (apply Forall_forall; intros x Hx; apply in_map_iff in Hx; destruct Hx as (y & <- & _); apply LS).
    inversion H as [|? ? H1 H2]; subst.
    destruct b as [|p b]; [contradiction|]. cbn [map length Nat.eqb]. change (ser p :: map ser b) with (map ser (p :: b)).
    rewrite IH by exact H2. cbn [bind]. rewrite map_map. do 3 f_equal. rewrite DS. f_equal.
    apply map_ext. intros x. rewrite DS. reflexivity.
Qed.

Lemma recv_points : forall sz (f : Point -> bytes) (ps : list (list Point)), (forall p, length (f p) = sz) -> Forall (fun b => b <> []) ps ->
  recv_items (stream 0 (map (map f) ps)) 0 = Ok (map f (concat ps)).
Proof using.
  clear DS LS.
  intros sz f ps Hf H. rewrite (recv_stream sz).
  - rewrite concat_map. reflexivity.
  - rewrite Forall_forall in *. intros b Hb. apply in_map_iff in Hb. destruct Hb as (p & <- & Hp). split.
    + intros Z. apply (H p Hp). destruct p; [reflexivity|discriminate Z].
    + rewrite Forall_forall. intros x Hx. apply in_map_iff in Hx. destruct Hx as (y & <- & _). apply Hf.
Qed.

Definition pts (bsz r : nat) (items : list bytes) : list (list Point) := map (map (fun it => mask r (hash_point it))) (chunks bsz items).
Lemma pts_nonempty : forall bsz r items, 0 < bsz -> Forall (fun b => b <> []) (pts bsz r items).
Proof using.
  clear DS LS.
  intros bsz r items Hb. rewrite Forall_forall. intros b Ib. apply in_map_iff in Ib. destruct Ib as (c & <- & Ic).
  apply chunks_nonempty in Ic; [|exact Hb]. destruct Ic as [Ic _]. intros Z. apply Ic. destruct c; [reflexivity|discriminate Z].
Qed.
Lemma pts_concat : forall bsz r items, 0 < bsz -> concat (pts bsz r items) = map (fun it => mask r (hash_point it)) items.
Proof using. clear DS LS. intros bsz r items Hb. unfold pts. rewrite <- concat_map, chunks_concat by exact Hb. reflexivity. Qed.
Lemma send_pts : forall bsz r items, mask_send_self Point hash_point mask ser bsz r items = stream 0 (map (map ser) (pts bsz r items)).
Proof using.
  clear DS LS.
  intros. rewrite mask_send_stream. f_equal. unfold pts. rewrite map_map. apply map_ext. intros b. rewrite map_map. reflexivity.
Qed.
End S.

Lemma final_loop_spec : forall (f : bytes -> bytes) self l,
  final_loop self (map f self) l = Ok (filter (fun z => existsb (beqb (f z)) l) self).
Proof.
  intros f self l. induction self as [|z r IH]; [reflexivity|]. cbn [map final_loop filter].
  rewrite IH. cbn [bind]. destruct (existsb (beqb (f z)) l); reflexivity.
Qed.
