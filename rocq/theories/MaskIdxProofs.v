(** Lemmas for C106. *)
From Coq Require Import List NArith Bool Arith Lia.
From Verif Require Import Base BaseProofs Text TextProofs StoreModel EcdhModel ShufModel UbCacheModel UbCacheSpec UbCacheProofs
  UbCacheProps UbPsiModel UbPsiProofs MaskIdxModel MaskIdxSpec.
Import ListNotations.

Lemma mi_known_iff : forall set x, mi_known set x = true <-> In x set.
Proof.
  intros set x. unfold mi_known. rewrite existsb_exists. split.
  - intros (y & I & E). apply beqb_spec in E. subst y. exact I.
  - intros I. exists x. split; [exact I|]. apply beqb_spec. reflexivity.
Qed.

Definition mi_pick (set : list bytes) (recs : list crec) : list N :=
  flat_map (fun r => if mi_known set (cr_data r) then [cr_shuffle r] else []) recs.

Lemma mi_pick_rows : forall set recs, mi_pick set recs = rows_holding set recs.
Proof.
  intros set. unfold rows_holding. induction recs as [|r recs IH]; [reflexivity|].
  unfold mi_pick. cbn [flat_map filter]. fold (mi_pick set recs). rewrite IH.
  destruct (in_dec (list_eq_dec N.eq_dec) (cr_data r) set) as [I|I].
  - apply mi_known_iff in I. rewrite I. reflexivity.
  - destruct (mi_known set (cr_data r)) eqn:E; [apply mi_known_iff in E; contradiction|]. reflexivity.
Qed.

Lemma mi_pick_app : forall set a b, mi_pick set (a ++ b) = mi_pick set a ++ mi_pick set b.
Proof. intros. unfold mi_pick. apply flat_map_app. Qed.

Lemma slice_slice : forall (A : Type) (l : list A) a b, a <= b ->
  firstn a l ++ firstn (b - a) (skipn a l) = firstn b l.
Proof.
  intros A l a b H. revert b l H. induction a as [|a IH]; intros b l H.
  - cbn [firstn skipn app]. rewrite Nat.sub_0_r. reflexivity.
  - destruct b as [|b]; [lia|]. destruct l as [|x l]; [cbn [firstn skipn app]; apply firstn_nil|].
    cbn [firstn skipn app Nat.sub]. rewrite IH by lia. reflexivity.
Qed.

Lemma workers_prefix : forall set threads recs k,
  flat_map (mi_worker set threads recs) (seq 0 k)
  = mi_pick set (firstn (k * ((length recs + threads - 1) / threads)) recs).
Proof.
  intros set threads recs. induction k as [|k IH]; [reflexivity|].
  rewrite seq_S, flat_map_app, IH. cbn [plus flat_map]. rewrite app_nil_r. unfold mi_worker. fold (mi_pick set).
  set (s := (length recs + threads - 1) / threads). 
  change (flat_map (fun r => if mi_known set (cr_data r) then [cr_shuffle r] else [])
    (firstn (Nat.min (length recs) (k * s + s) - k * s) (skipn (k * s) recs)))
    with (mi_pick set (firstn (Nat.min (length recs) (k * s + s) - k * s) (skipn (k * s) recs))).
  rewrite <- mi_pick_app. f_equal. replace (S k * s) with (k * s + s) by lia.
  destruct (Nat.le_gt_cases (length recs) (k * s)) as [G|G].
  - rewrite (skipn_all2 recs) by lia. rewrite firstn_nil, app_nil_r, !firstn_all2 by lia. reflexivity.
  - rewrite slice_slice by lia. destruct (Nat.le_gt_cases (length recs) (k * s + s)) as [H|H].
    + rewrite Nat.min_l by lia. rewrite !firstn_all2 by lia. reflexivity.
    + rewrite Nat.min_r by lia. reflexivity.
Qed.

Lemma workers_all : forall set threads recs, 0 < threads ->
  flat_map (mi_worker set threads recs) (seq 0 threads) = mi_pick set recs.
Proof.
  intros set threads recs H. rewrite workers_prefix, firstn_all2; [reflexivity|].
  pose proof (Nat.div_mod (length recs + threads - 1) threads ltac:(lia)) as D.
  pose proof (Nat.mod_upper_bound (length recs + threads - 1) threads ltac:(lia)) as M. nia.
Qed.

Lemma lookup_all : forall set threads B, 0 < threads -> Forall (fun b : list crec => 0 < length b) B ->
  mi_lookup set threads B = (mi_pick set (concat B), length (concat B)).
Proof.
  intros set threads B H. induction B as [|b B IH]; intros F; [reflexivity|].
  inversion F as [|? ? F1 F2]; subst. destruct b as [|r b]; [cbn in F1; lia|].
  cbn [mi_lookup]. rewrite IH by exact F2. rewrite workers_all by exact H.
  cbn [concat]. rewrite mi_pick_app, app_length. reflexivity.
Qed.

Lemma cache_lookup : forall len recs c bs set threads,
  len < max_cipher -> 0 < bs -> 0 < threads -> Forall (rec_ok len) recs -> (N.of_nat (length recs) < max32)%N -> saved len recs c ->
  (do batches <- cache_batches bs c; Ok (mi_lookup set threads batches)) = Ok (rows_holding set recs, length recs).
Proof.
  intros len recs c bs set threads HL HB HT HR HC (priv & HS).
  destruct (C37_round_trip len priv recs bs HL HB HR HC) as (c' & p & B & E1 & E2 & _ & E4 & E5 & E6 & E7 & _).
  rewrite HS in E1. injection E1 as <-.
  unfold cache_batches. rewrite E2. cbn [bind].
  assert (EC : N.to_nat (ca_cnt c) = length recs).
  { unfold cache_open in HS. replace (Nat.ltb len max_cipher) with true in HS by (symmetry; apply Nat.ltb_lt; exact HL).
    cbn [enforce bind] in HS. rewrite save_all_spec in HS by exact HR. injection HS as <-. cbn [ca_cnt]. lia. }
  rewrite EC, E5. cbn [bind]. rewrite lookup_all, E6; [rewrite mi_pick_rows; reflexivity|exact HT|].
  eapply Forall_impl; [|exact E7]. intros b Hb. cbn in Hb. lia.
Qed.

Lemma dest_decoded : forall un b, concat (map (mi_dest un) b) = concat (decoded un b).
Proof.
  intros un. induction b as [|s b IH]; [reflexivity|]. cbn [map concat]. unfold decoded in *. cbn [flat_map].
  rewrite concat_app, <- IH. f_equal. unfold mi_dest. destruct (un s); cbn [concat]; [rewrite app_nil_r|]; reflexivity.
Qed.

Lemma recv_send : forall un len client, 0 < len -> Forall (fun b : list bytes => b <> []) client ->
  Forall (fun x : bytes => length x = len) (decoded un (concat client)) ->
  mi_recv len (mi_send un client) = Ok (decoded un (concat client)).
Proof.
  intros un len client HL. induction client as [|b r IH]; intros F D; [reflexivity|].
  inversion F as [|? ? F1 F2]; subst. cbn [concat] in D |- *.
  assert (E : decoded un (b ++ concat r) = decoded un b ++ decoded un (concat r)) by (unfold decoded; apply flat_map_app).
  rewrite E in *. apply Forall_app in D as (D1 & D2).
  destruct b as [|s b]; [contradiction|]. cbn [mi_send mi_recv]. rewrite dest_decoded, cut_concat by assumption.
  cbn [bind]. rewrite IH by assumption. reflexivity.
Qed.
