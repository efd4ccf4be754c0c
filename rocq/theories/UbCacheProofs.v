(** Lemmas for C36 and C37. *)
From Coq Require Import List NArith Bool Arith Lia.
From Verif Require Import Base BaseProofs Text Rr22MatchModel Rr22MatchProofs UbCacheModel UbCacheSpec.
Import ListNotations.

(** ** Records of fixed size *)
Section Fixed.
Variable A : Type.
Variable size : nat.
Hypothesis size_pos : 0 < size.

Lemma fixed_len : forall (L : list (list A)), Forall (fun x => length x = size) L -> length (concat L) = length L * size.
Proof using. clear. induction 1 as [|x L H F IH]; [reflexivity|]. cbn [concat length]. rewrite app_length, IH, H. lia. Qed.
Lemma fixed_firstn : forall (L : list (list A)) n, Forall (fun x => length x = size) L -> firstn (n * size) (concat L) = concat (firstn n L).
Proof using.
  clear. intros L n H. revert n. induction H as [|x L H F IH]; intros n; [cbn; rewrite !firstn_nil; reflexivity|].
  destruct n as [|n]; [reflexivity|]. cbn [concat firstn Nat.mul]. rewrite firstn_app, H.
  rewrite firstn_all2 by lia. f_equal. rewrite <- IH. f_equal. lia.
Qed.
Lemma fixed_skipn : forall (L : list (list A)) n, Forall (fun x => length x = size) L -> skipn (n * size) (concat L) = concat (skipn n L).
Proof using.
  clear. intros L n H. revert n. induction H as [|x L H F IH]; intros n; [cbn; rewrite !skipn_nil; reflexivity|].
  destruct n as [|n]; [reflexivity|]. cbn [concat skipn Nat.mul]. rewrite skipn_app, H.
  rewrite skipn_all2 by lia. cbn [app]. rewrite <- IH. f_equal. lia.
Qed.
Lemma chunks_fixed : forall (L : list (list A)), Forall (fun x => length x = size) L -> chunks size (concat L) = L.
Proof using size_pos.
  intros L H. unfold chunks.
  assert (G : forall fuel, length (concat L) <= fuel -> chunks_aux fuel size (concat L) = L); [|apply G; lia].
  induction H as [|x L H F IH]; intros fuel HF; [destruct fuel; reflexivity|].
  cbn [concat] in *. rewrite app_length in HF. destruct fuel as [|fuel]; [lia|]. cbn [chunks_aux].
  destruct (x ++ concat L) as [|y l] eqn:E; [apply (f_equal (@length A)) in E; rewrite app_length in E; cbn in E; lia|]. rewrite <- E.
  rewrite firstn_app, firstn_all2 by lia. rewrite H, Nat.sub_diag. cbn [firstn]. rewrite app_nil_r. f_equal.
  rewrite skipn_app, skipn_all2 by lia. rewrite H, Nat.sub_diag. cbn [skipn app]. apply IH. lia.
Qed.
End Fixed.

Lemma firstn_cons_ne : forall (A : Type) n (x : A) l, 0 < n -> firstn n (x :: l) <> [].
Proof. intros A [|n] x l H; [lia|discriminate]. Qed.

(** ** Server cache *)

Lemma enc_rec_len : forall len r, rec_ok len r -> len <= max_cipher -> length (enc_rec r) = rec_size.
Proof.
  intros len r (H & _) L. unfold enc_rec. rewrite !app_length, !to_bytes_len, repeat_length. unfold max_cipher, rec_size in *. lia.
Qed.
Lemma to4 : forall v, (v < max32)%N -> of_bytes (to_bytes 4 v) = v.
Proof. intros v H. rewrite of_to_bytes. apply N.mod_small. exact H. Qed.
Lemma take_app : forall (A : Type) (a b : list A) n, length a = n -> firstn n (a ++ b) = a.
Proof. intros A a b n <-. rewrite firstn_app, firstn_all, Nat.sub_diag. apply app_nil_r. Qed.
Lemma drop_app : forall (A : Type) (a b : list A) n, length a = n -> skipn n (a ++ b) = b.
Proof. intros A a b n <-. rewrite skipn_app, skipn_all, Nat.sub_diag. reflexivity. Qed.
Lemma drop_app2 : forall (A : Type) (a b c : list A) n, length a + length b = n -> skipn n (a ++ b ++ c) = c.
Proof. intros A a b c n H. rewrite app_assoc. apply drop_app. rewrite app_length. exact H. Qed.
Lemma drop_app3 : forall (A : Type) (a b c d : list A) n, length a + length b + length c = n -> skipn n (a ++ b ++ c ++ d) = d.
Proof. intros A a b c d n H. rewrite app_assoc. apply drop_app2. rewrite app_length. exact H. Qed.
Lemma dec_enc_rec : forall len r, rec_ok len r -> dec_rec len (enc_rec r) = r.
Proof.
  intros len [o s d x] (H & H1 & H2 & H3). cbn [cr_origin cr_shuffle cr_dup cr_data] in *. unfold dec_rec, enc_rec.
  cbn [cr_origin cr_shuffle cr_dup cr_data].
  assert (L := to_bytes_len 4).
  rewrite (take_app _ (to_bytes 4 o)) by apply L. rewrite (drop_app _ (to_bytes 4 o)) by apply L.
  rewrite (take_app _ (to_bytes 4 s)) by apply L.
  rewrite (drop_app2 _ (to_bytes 4 o) (to_bytes 4 s)) by (rewrite !L; reflexivity).
  rewrite (take_app _ (to_bytes 4 d)) by apply L.
  rewrite (drop_app3 _ (to_bytes 4 o) (to_bytes 4 s)) by (rewrite !L; reflexivity).
  rewrite (take_app _ x) by exact H. rewrite !to4 by assumption. reflexivity.
Qed.

Lemma save_all_spec : forall rs c, Forall (rec_ok (ca_len c)) rs ->
  cache_save_all c rs = Ok (mk_cache (ca_file c ++ concat (map enc_rec rs)) (ca_len c) (ca_cnt c + N.of_nat (length rs)) (ca_priv c)).
Proof.
  induction rs as [|r rs IH]; intros c H; cbn [cache_save_all map concat length].
  - rewrite app_nil_r, N.add_0_r. destruct c; reflexivity.
  - inversion H as [|? ? H1 H2]; subst. unfold cache_save. rewrite (proj1 H1), Nat.eqb_refl. cbn [enforce bind].
    rewrite IH by exact H2. cbn [ca_file ca_len ca_cnt ca_priv]. rewrite <- app_assoc. do 2 f_equal. lia.
Qed.

Lemma map_dec_chunks : forall len rs, Forall (rec_ok len) rs -> len <= max_cipher ->
  map (dec_rec len) (chunks rec_size (concat (map enc_rec rs))) = rs.
Proof.
  intros len rs H L. rewrite chunks_fixed; [|unfold rec_size; lia|].
  - rewrite map_map. rewrite <- (map_id rs) at 2. apply map_ext_in. intros r I. apply dec_enc_rec. rewrite Forall_forall in H. apply H. exact I.
  - apply Forall_map. eapply Forall_impl; [|exact H]. intros r Hr. eapply enc_rec_len; eassumption.
Qed.
Lemma Forall_skipn : forall (A : Type) (P : A -> Prop) n l, Forall P l -> Forall P (skipn n l).
Proof. intros A P n l H. rewrite <- (firstn_skipn n l) in H. apply Forall_app in H. tauto. Qed.
Lemma Forall_firstn' : forall (A : Type) (P : A -> Prop) n l, Forall P l -> Forall P (firstn n l).
Proof. intros A P n l H. rewrite <- (firstn_skipn n l) in H. apply Forall_app in H. tauto. Qed.

Lemma prov_drain_spec : forall bs fuel len cnt priv rs k, 0 < bs -> len <= max_cipher -> Forall (rec_ok len) rs ->
  N.to_nat cnt = length rs -> k <= length rs -> length rs - k < fuel ->
  exists B, prov_drain fuel bs (mk_cprov (concat (map enc_rec rs)) (mk_cmeta len cnt priv) k) = Ok B /\
    concat B = skipn k rs /\ Forall (fun b => 0 < length b <= bs) B /\ Forall (fun b => length b = bs) (removelast B).
Proof.
  intros bs. induction fuel as [|fuel IH]; intros len cnt priv rs k HB HL HR HC HK HF; [lia|].
  cbn [prov_drain]. unfold prov_read. cbn [cp_meta cp_read cp_data cm_item_count cm_item_len]. rewrite HC.
  destruct (Nat.leb_spec (length rs) k) as [G|G].
  - exists []. rewrite skipn_all2 by lia. repeat split; constructor.
  - assert (FE : Forall (fun x => length x = rec_size) (map enc_rec rs)).
    { apply Forall_map. eapply Forall_impl; [|exact HR]. intros r Hr. eapply enc_rec_len; eassumption. }
    set (c := Nat.min bs (length rs - k)). rewrite fixed_skipn by exact FE.
    rewrite fixed_firstn by (apply Forall_skipn; exact FE). rewrite skipn_map, firstn_map, map_dec_chunks;
      [|apply Forall_firstn'; apply Forall_skipn; exact HR|exact HL].
    destruct (skipn k rs) as [|r rest] eqn:ES; [apply (f_equal (@length crec)) in ES; rewrite skipn_length in ES; cbn in ES; lia|].
    destruct (firstn c (r :: rest)) as [|r0 b] eqn:EF; [exfalso; revert EF; apply firstn_cons_ne; unfold c; lia|].
    destruct (IH len cnt priv rs (k + c) HB HL HR HC ltac:(unfold c; lia) ltac:(unfold c; lia)) as (B & A1 & A2 & A3 & A4).
    rewrite A1. cbn [omap bind]. eexists. split; [reflexivity|]. cbn [concat]. rewrite A2.
    assert (LS : length (r :: rest) = length rs - k) by (rewrite <- ES, skipn_length; reflexivity).
    assert (LF : length (r0 :: b) = c) by (rewrite <- EF, firstn_length, LS; unfold c; lia).
    split; [|split].
    + rewrite Nat.add_comm, <- skipn_skipn', ES, <- EF. apply firstn_skipn.
    + constructor; [rewrite LF; unfold c; lia|exact A3].
    + destruct B as [|b0 B]; [constructor|]. change (removelast ((r0 :: b) :: b0 :: B)) with ((r0 :: b) :: removelast (b0 :: B)).
      constructor; [|exact A4]. rewrite LF. inversion A3 as [|? ? G0 _]; subst.
      apply (f_equal (@length crec)) in A2. cbn [concat] in A2. rewrite app_length, skipn_length in A2. unfold c in *. lia.
Qed.

(** ** Client store *)
Definition stored (its : list (bytes * N)) : bytes := concat (map enc_item its).

Lemma enc_item_len : forall len it, item_ok len it -> len <= max_cipher -> length (enc_item it) = item_size.
Proof. intros len it (H & _) L. unfold enc_item. rewrite !app_length, to_bytes_len, repeat_length. unfold max_cipher, item_size in *. lia. Qed.
Lemma dec_enc_item : forall len it, item_ok len it -> len <= max_cipher -> dec_item len (enc_item it) = it.
Proof.
  intros len [x d] (H & H1) L. cbn [fst snd] in *. unfold dec_item, enc_item. cbn [fst snd]. rewrite take_app by exact H.
  rewrite app_assoc, drop_app, to4 by (try exact H1; rewrite app_length, repeat_length; unfold max_cipher in *; lia). reflexivity.
Qed.
Lemma stored_len : forall len its, Forall (item_ok len) its -> len <= max_cipher -> length (stored its) = length its * item_size.
Proof.
  intros len its H L. unfold stored. rewrite (fixed_len _ item_size), map_length; [reflexivity|].
  apply Forall_map. eapply Forall_impl; [|exact H]. intros r Hr. eapply enc_item_len; eassumption.
Qed.

Lemma u32_small : forall x, (x < max32)%N -> u32 x = x.
Proof. intros x H. apply N.mod_small. exact H. Qed.
Lemma u32_u32_add : forall a b, u32 (u32 a + b) = u32 (a + b).
Proof. intros a b. unfold u32. apply N.add_mod_idemp_l. discriminate. Qed.
Lemma u32_lt : forall x, (u32 x < max32)%N.
Proof. intros x. apply N.mod_lt. discriminate. Qed.

Lemma peer_rows_app : forall a b, peer_rows (a ++ b) = u32 (peer_rows a + peer_rows b).
Proof.
  intros a b. unfold peer_rows. rewrite u32_u32_add, N.add_comm, u32_u32_add, N.add_comm. f_equal.
  induction a as [|x a IH]; cbn [app fold_right]; [reflexivity|]. rewrite IH. lia.
Qed.

Lemma save_all_store : forall its s, Forall (item_ok (cs_len s)) its -> (cs_peer s < max32)%N -> (cs_items s < max32)%N ->
  store_save_all s its = Ok (mk_cstore (cs_len s) (u32 (cs_items s + N.of_nat (length its)))
     (u32 (cs_peer s + peer_rows its)) (cs_pending s ++ stored its)).
Proof.
  induction its as [|it its IH]; intros s H HP HI; cbn [store_save_all].
  - unfold stored, peer_rows. cbn. rewrite !N.add_0_r, app_nil_r, !u32_small by assumption. destruct s; reflexivity.
  - inversion H as [|? ? H1 H2]; subst. unfold store_save. rewrite (proj1 H1), Nat.eqb_refl. cbn [enforce bind].
    rewrite IH; cbn [cs_len cs_items cs_peer cs_pending]; try apply u32_lt; [|exact H2].
    rewrite !u32_u32_add. unfold stored. cbn [map concat length]. rewrite <- app_assoc.
    change (it :: its) with ([it] ++ its). rewrite peer_rows_app.
    do 2 f_equal; [f_equal; lia|].
    assert (E : peer_rows [it] = u32 (snd it + 1)) by (unfold peer_rows; cbn [fold_right]; rewrite N.add_0_r; reflexivity).
    rewrite E, u32_u32_add. rewrite (N.add_comm (cs_peer s) (u32 _)), u32_u32_add. f_equal. lia.
Qed.

(** A disk holding exactly [its], flushed. *)
Definition holds_items (len : nat) (its : list (bytes * N)) (d : cdisk) : Prop :=
  d = mk_cdisk (Some (stored its)) (Some (enc_meta (u32 (N.of_nat (length its))) (peer_rows its) (N.of_nat len))).

Lemma enc_meta_parts : forall a b c, (a < max32)%N -> (b < max32)%N -> (c < max32)%N ->
  length (enc_meta a b c) = 12 /\ of_bytes (firstn 4 (enc_meta a b c)) = a /\
  of_bytes (firstn 4 (skipn 4 (enc_meta a b c))) = b /\ of_bytes (firstn 4 (skipn 8 (enc_meta a b c))) = c.
Proof.
  intros a b c Ha Hb Hc. unfold enc_meta. assert (L := to_bytes_len 4). split; [rewrite !app_length, !L; reflexivity|].
  rewrite (take_app _ (to_bytes 4 a)) by apply L. rewrite (drop_app _ (to_bytes 4 a)) by apply L.
  rewrite (take_app _ (to_bytes 4 b)) by apply L.
  rewrite (drop_app2 _ (to_bytes 4 a) (to_bytes 4 b)) by (rewrite !L; reflexivity). rewrite firstn_all2 by (rewrite L; lia).
  rewrite !to4 by assumption. auto.
Qed.
Lemma len_small : forall len, len <= max_cipher -> (N.of_nat len < max32)%N.
Proof. intros len H. unfold max_cipher, max32 in *. lia. Qed.

Lemma open_holds : forall len its d, len <= max_cipher -> Forall (item_ok len) its -> holds_items len its d ->
  store_open len d = Ok (d, mk_cstore len (u32 (N.of_nat (length its))) (peer_rows its) []).
Proof.
  intros len its d L H ->. unfold store_open. replace (Nat.leb len max_cipher) with true by (symmetry; apply Nat.leb_le; exact L).
  cbn [enforce cd_data cd_meta file_bytes]. rewrite (stored_len len) by assumption. rewrite Nat.div_mul by discriminate.
  destruct (enc_meta_parts (u32 (N.of_nat (length its))) (peer_rows its) (N.of_nat len)) as (A & B & C & D);
    [apply u32_lt|apply u32_lt|apply len_small; exact L|].
  rewrite A. cbn [Nat.ltb Nat.leb]. rewrite B, C, D, !N.eqb_refl. reflexivity.
Qed.
Lemma open_fresh : forall len, len <= max_cipher ->
  store_open len no_cache = Ok (mk_cdisk (Some []) (Some (enc_meta 0 0 (N.of_nat len))), mk_cstore len 0 0 []).
Proof.
  intros len L. unfold store_open. replace (Nat.leb len max_cipher) with true by (symmetry; apply Nat.leb_le; exact L). reflexivity.
Qed.
Lemma session_gen : forall len old new d s, len <= max_cipher -> Forall (item_ok len) old -> Forall (item_ok len) new ->
  holds_items len old d -> s = mk_cstore len (u32 (N.of_nat (length old))) (peer_rows old) [] ->
  exists s1, store_save_all s new = Ok s1 /\ cs_pending s1 = stored new /\ holds_items len (old ++ new) (fst (store_flush d s1)).
Proof.
  intros len old new d s L Ho Hn -> ->. rewrite save_all_store; cbn [cs_len cs_items cs_peer cs_pending]; [|exact Hn|apply u32_lt|apply u32_lt].
  eexists. split; [reflexivity|]. split; [reflexivity|].
  unfold holds_items, store_flush, dump_meta. cbn. rewrite u32_u32_add, app_length, peer_rows_app.
  unfold stored. rewrite map_app, concat_app. rewrite Nat2N.inj_add. reflexivity.
Qed.
Lemma session_holds : forall len old new d, len <= max_cipher -> Forall (item_ok len) old -> Forall (item_ok len) new ->
  holds_items len old d -> exists d', store_session len d new = Ok d' /\ holds_items len (old ++ new) d'.
Proof.
  intros len old new d L Ho Hn Hd. unfold store_session. rewrite (open_holds len old d L Ho Hd). cbn [bind].
  destruct (session_gen len old new d _ L Ho Hn Hd eq_refl) as (s1 & A & _ & B). rewrite A. cbn [bind]. eauto.
Qed.
Lemma session_fresh : forall len new, len <= max_cipher -> Forall (item_ok len) new ->
  exists d', store_session len no_cache new = Ok d' /\ holds_items len new d'.
Proof.
  intros len new L Hn. unfold store_session. rewrite open_fresh by exact L. cbn [bind].
  destruct (session_gen len [] new (mk_cdisk (Some []) (Some (enc_meta 0 0 (N.of_nat len)))) (mk_cstore len 0 0 []) L (Forall_nil _) Hn eq_refl eq_refl) as (s1 & A & _ & B).
  rewrite A. cbn [bind]. eauto.
Qed.

Lemma read_spec : forall bs fuel len its tail, 0 < bs -> len <= max_cipher -> Forall (item_ok len) its -> length its < fuel ->
  exists B, store_read fuel bs len (length its) (stored its ++ tail) = Ok B /\ concat B = its /\ Forall (fun b => 0 < length b <= bs) B.
Proof.
  intros bs. induction fuel as [|fuel IH]; intros len its tail HB HL HI HF; [lia|].
  cbn [store_read]. set (c := Nat.min bs (length its)).
  assert (FE : Forall (fun x => length x = item_size) (map enc_item its)).
  { apply Forall_map. eapply Forall_impl; [|exact HI]. intros r Hr. eapply enc_item_len; eassumption. }
  assert (LS : length (stored its) = length its * item_size) by (eapply stored_len; eassumption).
  assert (F1 : firstn (c * item_size) (stored its ++ tail) = concat (map enc_item (firstn c its))).
  { rewrite firstn_app. replace (c * item_size - length (stored its)) with 0 by (rewrite LS; unfold c, item_size; lia).
    cbn [firstn]. rewrite app_nil_r. unfold stored. rewrite fixed_firstn by exact FE. rewrite firstn_map. reflexivity. }
  assert (F2 : skipn (c * item_size) (stored its ++ tail) = stored (skipn c its) ++ tail).
  { rewrite skipn_app. replace (c * item_size - length (stored its)) with 0 by (rewrite LS; unfold c, item_size; lia).
    cbn [skipn]. unfold stored. rewrite fixed_skipn by exact FE. rewrite skipn_map. reflexivity. }
  rewrite F1, F2. rewrite chunks_fixed; [|unfold item_size; lia|].
  2: { rewrite <- firstn_map. apply Forall_firstn'. exact FE. }
  rewrite map_map. rewrite (map_ext_in _ (fun x => x)).
  2: { intros it I. apply dec_enc_item; [|exact HL]. rewrite Forall_forall in HI. apply HI. rewrite <- (firstn_skipn c its). apply in_or_app. left. exact I. }
  rewrite map_id. destruct its as [|it its].
  - unfold c. cbn [length]. rewrite Nat.min_0_r. cbn. exists []. repeat split; constructor.
  - destruct (firstn c (it :: its)) as [|i0 b] eqn:EF; [exfalso; revert EF; apply firstn_cons_ne; unfold c; cbn [length]; lia|].
    replace (length (it :: its) - c) with (length (skipn c (it :: its))) by (rewrite skipn_length; reflexivity).
    destruct (IH len (skipn c (it :: its)) tail HB HL (Forall_skipn _ _ _ _ HI)) as (B & A1 & A2 & A3).
    { rewrite skipn_length. unfold c. cbn [length] in *. lia. }
    rewrite A1. cbn [omap bind]. eexists. split; [reflexivity|]. cbn [concat]. rewrite A2, <- EF.
    split; [apply firstn_skipn|]. constructor; [|exact A3]. rewrite firstn_length. unfold c. cbn [length]. lia.
Qed.

Fixpoint run_sessions_from (len : nat) (d : cdisk) (ss : list (list (bytes * N))) : outcome cdisk :=
  match ss with [] => Ok d | s :: r => do d' <- store_session len d s; run_sessions_from len d' r end.
Lemma sessions_hold : forall len ss old d, len <= max_cipher -> Forall (item_ok len) old -> Forall (Forall (item_ok len)) ss ->
  holds_items len old d -> exists d', run_sessions_from len d ss = Ok d' /\ holds_items len (old ++ concat ss) d'.
Proof.
  intros len. induction ss as [|s ss IH]; intros old d L Ho Hs Hd; cbn [run_sessions_from concat].
  - rewrite app_nil_r. eauto.
  - inversion Hs as [|? ? H1 H2]; subst. destruct (session_holds len old s d L Ho H1 Hd) as (d1 & A & B). rewrite A. cbn [bind].
    rewrite app_assoc. apply IH; [exact L| |exact H2|exact B]. apply Forall_app. split; assumption.
Qed.
Lemma contents_holds : forall len bs its d, 0 < bs -> len <= max_cipher -> Forall (item_ok len) its -> holds_items len its d ->
  exists B, open_and_read len bs d = Ok (peer_rows its, B) /\ concat B = its /\ Forall (fun b => 0 < length b <= bs) B.
Proof.
  intros len bs its d HB L H Hd. unfold open_and_read. rewrite (open_holds len its d L H Hd). cbn [bind].
  rewrite Hd. unfold store_flush, dump_meta, store_contents. cbn [cs_len cs_items cs_peer cs_pending cd_data cd_meta file_bytes].
  rewrite app_nil_r, (stored_len len) by assumption. rewrite Nat.div_mul by discriminate.
  destruct (read_spec bs (S (length its)) len its [] HB L H ltac:(lia)) as (B & A1 & A2 & A3). rewrite app_nil_r in A1.
  rewrite A1. cbn [omap bind]. eauto.
Qed.

Lemma torn_read : forall len bs its tail, 0 < bs -> len <= max_cipher -> Forall (item_ok len) its ->
  (N.of_nat (length its + Nat.div (length tail) item_size) < max32)%N ->
  let d := mk_cdisk (Some (stored its ++ tail)) (Some (enc_meta (u32 (N.of_nat (length its))) (peer_rows its) (N.of_nat len))) in
  (length tail < item_size ->
    exists B, open_and_read len bs d = Ok (peer_rows its, B) /\ concat B = its /\ Forall (fun b => 0 < length b <= bs) B) /\
  (item_size <= length tail -> open_and_read len bs d = Throw).
Proof.
  intros len bs its tail HB L H HC d.
  assert (LD : Nat.div (length (stored its ++ tail)) item_size = length its + Nat.div (length tail) item_size).
  { rewrite app_length, (stored_len len) by assumption. rewrite Nat.add_comm, Nat.div_add by discriminate. apply Nat.add_comm. }
  destruct (enc_meta_parts (u32 (N.of_nat (length its))) (peer_rows its) (N.of_nat len)) as (A & B & C & D);
    [apply u32_lt|apply u32_lt|apply len_small; exact L|].
  assert (LL : Nat.leb len max_cipher = true) by (apply Nat.leb_le; exact L).
  split; intros HT.
  - rewrite (Nat.div_small (length tail)) in LD by exact HT. rewrite Nat.add_0_r in LD.
    unfold open_and_read, store_open, d. rewrite LL. cbn [enforce cd_data cd_meta file_bytes]. rewrite LD, A.
    cbn [Nat.ltb Nat.leb]. rewrite B, C, D, !N.eqb_refl. cbn [enforce bind].
    unfold store_flush, dump_meta, store_contents. cbn [cs_len cs_items cs_peer cs_pending cd_data cd_meta file_bytes].
    rewrite app_nil_r, LD.
    destruct (read_spec bs (S (length its)) len its tail HB L H ltac:(lia)) as (R & A1 & A2 & A3). rewrite A1. cbn [omap bind]. eauto.
  - unfold open_and_read, store_open, d. rewrite LL. cbn [enforce cd_data cd_meta file_bytes]. rewrite LD, A.
    cbn [Nat.ltb Nat.leb]. rewrite B, D, N.eqb_refl. cbn [enforce].
    assert (Q : 1 <= Nat.div (length tail) item_size) by (apply Nat.div_le_lower_bound; [discriminate|lia]).
    rewrite (u32_small (N.of_nat (_ + _))) by exact HC. rewrite u32_small by lia.
    replace (N.of_nat (length its + Nat.div (length tail) item_size) =? N.of_nat (length its))%N with false; [reflexivity|].
    symmetry. apply N.eqb_neq. lia.
Qed.
