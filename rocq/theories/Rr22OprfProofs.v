From Coq Require Import List Arith NArith Bool Lia.
From Verif Require Import Base BaseProofs StoreModel GfModel GfSpec GfProofs GfProofs2 OkvsModel OkvsSpec OkvsProofs OkvsProofs2 OkvsProofs3 OkvsProofs4 Rr22OprfModel Rr22OprfSpec.
Import ListNotations.
Local Open Scope N_scope.

Lemma recv_chunked_all : forall size msgs got, (forall m, In m msgs -> m <> []) ->
  (length got + length (concat msgs) = size)%nat ->
  recv_chunked size got msgs = Ok (got ++ concat msgs, []).
Proof.
  intros size msgs. induction msgs as [|m r IH]; intros got Hn L; cbn [recv_chunked concat] in *.
  - cbn [length] in L. replace (Nat.leb size (length got)) with true by (symmetry; apply Nat.leb_le; lia).
    replace (Nat.eqb (length got) size) with true by (symmetry; apply Nat.eqb_eq; lia).
    rewrite app_nil_r. reflexivity.
  - rewrite app_length in L.
    assert (X : m <> []) by (apply Hn; left; reflexivity).
    assert (length m <> 0%nat) by (destruct m; [contradiction|discriminate]).
    destruct (Nat.leb_spec size (length got)); [lia|].
    destruct (Nat.ltb_spec size (length got + length m)); [lia|].
    rewrite IH; [rewrite app_assoc; reflexivity| |rewrite app_length; lia].
    intros m' I. apply Hn. right; assumption.
Qed.

(** Geometry for which the tables are defined. *)
Definition table_ok (t : oprf_table) : Prop :=
  let q := t_param t in
  (1 <= ok_weight q <= 20)%nat /\ N.of_nat (ok_weight q) <= ok_sparse q /\ ok_sparse q <= 2 ^ 63 /\
  (1 <= t_bins t)%nat /\
  match t_mode t with
  | FastMode => ok_dt q = DGF128 /\ (1 <= ok_dense q)%nat
  | LowCommMode => ok_dt q = DBinary /\ (ok_dense q <= 64)%nat /\ ok_sparse q <= 2 ^ 32
  end.

(** Value of one key in the whole table. *)
Definition key_slice (t : oprf_table) (p : list N) (h : N) : list N :=
  match t_mode t with
  | FastMode => bin_slice (t_param t) p (bno (t_bins t) h)
  | LowCommMode => p
  end.
Definition dec (t : oprf_table) (p : list N) (h : N) : N :=
  key_val (gf_mul true) (t_param t) (key_slice t p h) h.

Lemma slice_le : forall A (l : list A) k b x, In x (firstn k (skipn b l)) -> In x l.
Proof.
  intros A l k b x I. rewrite <- (firstn_skipn b l). apply in_or_app. right.
  rewrite <- (firstn_skipn k (skipn b l)). apply in_or_app. left; assumption.
Qed.
Lemma key_slice_below : forall t p h, all_below 128 p -> all_below 128 (key_slice t p h).
Proof.
  intros t p h H. unfold key_slice. destruct (t_mode t); [|assumption].
  unfold all_below, bin_slice in *. rewrite Forall_forall in *. intros x I. apply H. eapply slice_le; exact I.
Qed.

Lemma decode_table_ok : forall aes avx threads t p inputs, table_ok t -> (forall x, aes x < 2 ^ 128) ->
  all_below 128 p -> length p = t_size t ->
  decode_table aes avx threads t p inputs = Ok (map (fun x => dec t p (aes x)) inputs).
Proof.
  intros aes avx threads t p inputs (H1 & H2 & H3 & H4 & H5) Ha Hp Hl. unfold decode_table, t_size in *.
  assert (E : forall h, h < 2 ^ 128 -> dec t p h = key_val (gf_mul avx) (t_param t) (key_slice t p h) h).
  { intros h Hh. unfold dec. apply key_val_ext; try apply gf_is_mul; [apply key_slice_below|]; assumption. }
  destruct (t_mode t) eqn:M.
  - destruct H5 as [D D1]. rewrite baxos_decode_ok; try assumption.
    + f_equal. apply map_ext. intros x. rewrite E by apply Ha. unfold cv, key_slice. rewrite M. reflexivity.
    + unfold shape_ok. rewrite D. split; [reflexivity|assumption].
  - destruct H5 as (D & D1 & D2). unfold paxos_decode.
    replace (N.of_nat (length p) =? ok_sparse (t_param t) + N.of_nat (ok_dense (t_param t))) with true
      by (symmetry; apply N.eqb_eq; lia).
    cbn [enforce]. rewrite decode_hashed_ok; try assumption.
    + rewrite map_map. f_equal. apply map_ext. intros x. rewrite E by apply Ha. unfold key_slice. rewrite M. reflexivity.
    + repeat split; try assumption. lia.
    + unfold shape_ok. rewrite D. split; [lia|assumption].
    + apply Forall_forall. intros h I. apply in_map_iff in I. destruct I as (x & <- & _). apply Ha.
Qed.

Lemma firstn_vxor : forall k p p', firstn k (vxor p p') = vxor (firstn k p) (firstn k p').
Proof.
  induction k as [|k IH]; intros [|x p] [|y p']; try reflexivity.
  unfold vxor, zip_with in *. cbn [firstn combine map]. rewrite IH. reflexivity.
Qed.
Lemma skipn_vxor : forall k p p', length p = length p' -> skipn k (vxor p p') = vxor (skipn k p) (skipn k p').
Proof.
  induction k as [|k IH]; intros [|x p] [|y p'] L; try reflexivity; try discriminate.
  unfold vxor, zip_with in *. cbn [skipn combine map]. apply IH. injection L as L. assumption.
Qed.

Lemma key_slice_vxor : forall t p p' h, length p = length p' ->
  key_slice t (vxor p p') h = vxor (key_slice t p h) (key_slice t p' h).
Proof.
  intros t p p' h L. unfold key_slice. destruct (t_mode t); [|reflexivity].
  unfold bin_slice. rewrite skipn_vxor, firstn_vxor by assumption. reflexivity.
Qed.
Lemma key_slice_map : forall t f p h, key_slice t (map f p) h = map f (key_slice t p h).
Proof.
  intros t f p h. unfold key_slice. destruct (t_mode t); [|reflexivity].
  unfold bin_slice. rewrite skipn_map, firstn_map. reflexivity.
Qed.
Lemma key_slice_len : forall t p p' h, length p = length p' -> length (key_slice t p h) = length (key_slice t p' h).
Proof.
  intros t p p' h L. unfold key_slice. destruct (t_mode t); [|assumption].
  unfold bin_slice. rewrite !firstn_length, !skipn_length. lia.
Qed.

Lemma dec_add : forall t p p' h, length p = length p' -> all_below 128 p -> all_below 128 p' -> h < 2 ^ 128 ->
  dec t (vxor p p') h = N.lxor (dec t p h) (dec t p' h).
Proof.
  intros t p p' h L Hp Hp' Hh. unfold dec, key_val. rewrite key_slice_vxor by assumption.
  apply table_add; [apply gf_is_mul|apply key_slice_len; assumption|apply key_slice_below; assumption|apply key_slice_below; assumption|].
  apply coefs_below; [apply gf_is_mul|assumption].
Qed.
Lemma dec_scale : forall t d p h, d < 2 ^ 128 -> all_below 128 p -> h < 2 ^ 128 ->
  dec t (map (gf_mul true d) p) h = gf_mul true d (dec t p h).
Proof.
  intros t d p h Hd Hp Hh. unfold dec, key_val. rewrite key_slice_map.
  apply table_scale; [assumption|apply key_slice_below; assumption|].
  apply coefs_below; [apply gf_is_mul|assumption].
Qed.
Lemma dec_below : forall t p h, all_below 128 p -> h < 2 ^ 128 -> dec t p h < 2 ^ 128.
Proof.
  intros t p h Hp Hh. unfold dec, key_val. apply table_below; [apply gf_is_mul|apply key_slice_below; assumption|].
  apply coefs_below; [apply gf_is_mul|assumption].
Qed.

Lemma zip_map2 : forall A B C D (f : B -> C -> D) (g : A -> B) (k : A -> C) l,
  zip_with f (map g l) (map k l) = map (fun x => f (g x) (k x)) l.
Proof. intros. induction l as [|x l IH]; [reflexivity|]. cbn [map]. rewrite zip_cons, IH. reflexivity. Qed.
Lemma zip_id : forall A C D (f : A -> C -> D) (k : A -> C) l,
  zip_with f l (map k l) = map (fun x => f x (k x)) l.
Proof. intros. induction l as [|x l IH]; [reflexivity|]. cbn [map]. rewrite zip_cons, IH. reflexivity. Qed.

(** The table of the sender after the update is c + delta p. *)
Lemma vole_update : forall avx delta a b c p, delta < 2 ^ 128 -> vole delta a b c -> all_below 128 p ->
  (length p <= length b)%nat ->
  firstn (length p) (sender_update avx delta b (receiver_message a p)) =
  vxor (firstn (length p) c) (map (gf_mul true delta) p) /\
  all_below 128 (firstn (length p) c) /\ length (firstn (length p) c) = length p.
Proof.
  intros avx delta a b c p Hd (L1 & L2 & V) Hp HL.
  assert (X : forall p a b c, length a = length b -> length c = length b -> all_below 128 p -> (length p <= length b)%nat ->
    (forall i ai bi ci, nth_error a i = Some ai -> nth_error b i = Some bi -> nth_error c i = Some ci ->
      ai < 2 ^ 128 /\ ci < 2 ^ 128 /\ field_product delta ai (N.lxor bi ci)) ->
    zip_with (fun bi mi => N.lxor bi (gf_mul avx delta mi)) b (zip_with N.lxor p a) =
    vxor (firstn (length p) c) (map (gf_mul true delta) p) /\ all_below 128 (firstn (length p) c)).
  { clear - Hd. induction p as [|x p IH]; intros a b c L1 L2 Hp HL V.
    - destruct b; cbn; split; try reflexivity; constructor.
    - destruct b as [|y b]; cbn [length] in HL; [lia|].
      destruct a as [|u a]; [discriminate|]. destruct c as [|z c]; [discriminate|].
      inversion Hp; subst.
      destruct (V 0%nat u y z eq_refl eq_refl eq_refl) as (Hu & Hz & F).
      destruct (IH a b c) as (E & G); try assumption; try (cbn [length] in *; lia).
      { intros i ai bi ci A B C. apply (V (S i)); assumption. }
      cbn [length firstn map]. unfold vxor in *. rewrite !zip_cons, E. split; [|constructor; assumption]. f_equal.
      assert (Y : gf_mul true delta u = N.lxor y z).
      { apply (field_product_unique delta u); [apply gf_mul_correct; assumption|assumption]. }
      rewrite mul_any by (try assumption; apply lxor_below; assumption).
      rewrite mul_lxor_r by assumption. rewrite Y. xsolve. }
  destruct (X p a b c) as (E & G); try assumption.
  assert (ML : length (receiver_message a p) = length p).
  { unfold receiver_message, zip_with. rewrite map_length, combine_length. lia. }
  split; [|split; [assumption|]].
  - unfold sender_update. rewrite firstn_app.
    assert (Z : length (zip_with (fun bi mi => N.lxor bi (gf_mul avx delta mi)) b (receiver_message a p)) = length p).
    { unfold zip_with at 1. rewrite map_length, combine_length, ML. lia. }
    rewrite Z, Nat.sub_diag. cbn [firstn]. rewrite app_nil_r, firstn_all2 by lia. exact E.
  - rewrite firstn_length. lia.
Qed.

Lemma item_hash_below : forall crh t x, (forall x, crh x < 2 ^ 128) -> item_hash crh t x < 2 ^ 128.
Proof.
  intros crh t x H. unfold item_hash. destruct (t_mode t); [apply H|].
  apply N.lt_le_trans with (2 ^ 64); [apply N.mod_lt; discriminate|apply N.pow_le_mono_r; lia].
Qed.

Definition oprf_fun (aes crh : N -> N) (dm : N -> N -> N) (t : oprf_table) (malicious : bool) (w delta : N) (c p : list N) (x : N) : N :=
  final_hash crh dm malicious w x
    (N.lxor (dec t (firstn (length p) c) (aes x))
            (gf_mul true delta (N.lxor (dec t p (aes x)) (item_hash crh t x)))).

Lemma run_oprf_ok : forall aes crh dm ro solve t malicious wr ws delta a b c avxR threadsR xs avxS threadsS ys p,
  (forall x, aes x < 2 ^ 128) -> (forall x, crh x < 2 ^ 128) ->
  table_ok t -> delta < 2 ^ 128 -> vole delta a b c -> (t_size t <= length b)%nat ->
  solve t xs (map (item_hash crh t) xs) = Ok p ->
  length p = t_size t -> all_below 128 p ->
  (exists avx threads, decode_table aes avx threads t p xs = Ok (map (item_hash crh t) xs)) ->
  run_oprf aes crh dm ro solve t malicious wr ws delta a b c avxR threadsR xs avxS threadsS ys =
  Ok (map (oprf_fun aes crh dm t malicious (N.lxor wr ws) delta c p) xs,
      map (oprf_fun aes crh dm t malicious (N.lxor wr ws) delta c p) ys).
Proof.
  intros aes crh dm ro solve t malicious wr ws delta a b c avxR threadsR xs avxS threadsS ys p
    Ha Hc Ht Hd HV HL Hsolve Lp Bp (avx & threads & HD).
  unfold run_oprf. rewrite Hsolve. cbn [bind].
  destruct (vole_update avxS delta a b c p Hd HV Bp ltac:(lia)) as (EU & Bc & Lc).
  rewrite decode_table_ok in HD by assumption. injection HD as HD.
  assert (HX : forall x, In x xs -> dec t p (aes x) = item_hash crh t x).
  { intros x I. clear - HD I. induction xs as [|y r IH]; [destruct I|]. cbn [map] in HD. injection HD as A B.
    destruct I as [<-|I]; [assumption|apply IH; assumption]. }
  assert (W : (if malicious then receiver_w ro (ro ws) wr ws else Ok 0) = Ok (if malicious then N.lxor wr ws else 0)).
  { destruct malicious; [|reflexivity]. unfold receiver_w. rewrite N.eqb_refl. reflexivity. }
  rewrite W. cbn [bind].
  unfold receiver_outputs. rewrite Lp in *.
  rewrite decode_table_ok by assumption. cbn [bind].
  assert (ML : length (receiver_message a p) = t_size t).
  { unfold receiver_message, zip_with. rewrite map_length, combine_length. destruct HV as (L1 & _). lia. }
  assert (C0 : (0 < send_chunk_size)%nat) by (unfold send_chunk_size; lia).
  rewrite recv_chunked_all.
  2: { intros m I. apply (chunks_nonempty _ _ _ _ C0 I). }
  2: { unfold send_chunked. rewrite chunks_concat by assumption. cbn [length]. lia. }
  cbn [bind fst]. unfold send_chunked. rewrite chunks_concat by assumption. rewrite app_nil_l.
  unfold sender_outputs. rewrite EU.
  assert (Bd : all_below 128 (map (gf_mul true delta) p)).
  { unfold all_below. apply Forall_forall. intros y I. apply in_map_iff in I. destruct I as (x & <- & I).
    unfold all_below in Bp. rewrite Forall_forall in Bp. apply mul_red; [assumption|apply Bp; assumption]. }
  assert (Ld : length (map (gf_mul true delta) p) = t_size t) by (rewrite map_length; assumption).
  rewrite decode_table_ok; [|assumption|assumption|apply vxor_below; assumption|rewrite vxor_len; congruence].
  cbn [bind]. f_equal. f_equal.
  - rewrite zip_id. apply map_ext_in. intros x I. unfold oprf_fun. rewrite Lp.
    rewrite (HX x I), N.lxor_nilpotent.
    rewrite (mul_comm delta 0) by (try assumption; apply red0). rewrite mul_0_l, N.lxor_0_r by assumption.
    unfold final_hash. destruct malicious; reflexivity.
  - unfold sender_hashes. rewrite zip_map2, zip_id. apply map_ext. intros y. unfold oprf_fun. rewrite Lp.
    f_equal. rewrite dec_add by (try assumption; try apply Ha; congruence).
    rewrite dec_scale by (try assumption; apply Ha).
    rewrite (mul_any avxS) by (try assumption; apply item_hash_below; assumption).
    rewrite mul_lxor_r; [|assumption|apply dec_below; [assumption|apply Ha]|apply item_hash_below; assumption].
    apply N.lxor_assoc.
Qed.
