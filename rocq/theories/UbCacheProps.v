(** C36, C37, C57: the cache files of unbalanced PSI. *)
From Coq Require Import List NArith Bool Arith Lia.
From Verif Require Import Base BaseProofs Text Rr22MatchModel UbCacheModel UbCacheSpec UbCacheProofs.
Import ListNotations.

(** Saved and flushed, a server cache opens, gives the same key, and reads back record by record in
    order, for every batch size; only the last batch may be short. *)
Theorem C37_round_trip :
  forall len priv rs bs,
  len < max_cipher -> 0 < bs -> Forall (rec_ok len) rs -> (N.of_nat (length rs) < max32)%N ->
  exists c p B, (do c0 <- cache_open len priv; cache_save_all c0 rs) = Ok c /\
    prov_open (Some (ca_file c)) (Some (cache_meta c)) = Ok p /\
    cm_priv (cp_meta p) = priv /\ cm_item_count (cp_meta p) = N.of_nat (length rs) /\
    prov_drain (S (length rs)) bs p = Ok B /\ concat B = rs /\
    Forall (fun b => 0 < length b <= bs) B /\ Forall (fun b => length b = bs) (removelast B).
Proof.
  intros len priv rs bs HL HB HR HC. unfold cache_open.
  replace (Nat.ltb len max_cipher) with true by (symmetry; apply Nat.ltb_lt; exact HL). cbn [enforce bind].
  rewrite save_all_spec by exact HR. cbn [ca_file ca_len ca_cnt ca_priv app]. rewrite N.add_0_l.
  eexists _, _. assert (LF : length (concat (map enc_rec rs)) = length rs * rec_size).
  { rewrite (fixed_len _ rec_size), map_length; [reflexivity|]. apply Forall_map. eapply Forall_impl; [|exact HR].
    intros r Hr. eapply enc_rec_len; [exact Hr|lia]. }
  destruct (prov_drain_spec bs (S (length rs)) len (N.of_nat (length rs)) priv rs 0 HB ltac:(lia) HR ltac:(apply Nat2N.id) ltac:(lia) ltac:(lia))
    as (B & A1 & A2 & A3 & A4).
  exists B. split; [reflexivity|]. split.
  { unfold prov_open, cache_meta. cbn [ca_file ca_len ca_cnt ca_priv cm_item_count]. rewrite LF, Nat.div_mul by discriminate.
    rewrite u32_small by exact HC. rewrite N.eqb_refl. reflexivity. }
  cbn [cp_meta cm_priv cm_item_count]. auto 8.
Qed.
Print Assumptions C37_round_trip.

(** The meta file is written before the data is flushed; a data file that did not get all of its
    records is refused. *)
Theorem C37_truncated_rejected :
  forall len priv rs c k,
  len < max_cipher -> Forall (rec_ok len) rs -> (N.of_nat (length rs) < max32)%N ->
  (do c0 <- cache_open len priv; cache_save_all c0 rs) = Ok c ->
  k < length (ca_file c) ->
  prov_open (Some (firstn k (ca_file c))) (Some (cache_meta c)) = Throw.
Proof.
  intros len priv rs c k HL HR HC HS HK. unfold cache_open in HS.
  replace (Nat.ltb len max_cipher) with true in HS by (symmetry; apply Nat.ltb_lt; exact HL). cbn [enforce bind] in HS.
  rewrite save_all_spec in HS by exact HR. cbn [ca_file ca_len ca_cnt ca_priv app] in HS. rewrite N.add_0_l in HS.
  inversion HS; subst c. clear HS. unfold prov_open, cache_meta. cbn [ca_file ca_len ca_cnt ca_priv cm_item_count] in *.
  assert (LF : length (concat (map enc_rec rs)) = length rs * rec_size).
  { rewrite (fixed_len _ rec_size), map_length; [reflexivity|]. apply Forall_map. eapply Forall_impl; [|exact HR].
    intros r Hr. eapply enc_rec_len; [exact Hr|lia]. }
  rewrite LF in HK. rewrite firstn_length, LF, Nat.min_l by lia. rewrite u32_small by exact HC.
  assert (Q : Nat.div k rec_size < length rs) by (apply Nat.div_lt_upper_bound; [discriminate|lia]).
  replace (N.of_nat (Nat.div k rec_size) =? N.of_nat (length rs))%N with false; [reflexivity|]. symmetry. apply N.eqb_neq. lia.
Qed.
Print Assumptions C37_truncated_rejected.

Definition c37_recs : list crec := [mk_crec 0 2 0 [1; 2; 3]; mk_crec 1 0 5 [4; 5; 6]; mk_crec 2 1 0 [7; 8; 9]]%N.
Example C37_example :
  Forall (rec_ok 3) c37_recs /\
  (do c <- (do c0 <- cache_open 3 [42%N]; cache_save_all c0 c37_recs);
   do p <- prov_open (Some (ca_file c)) (Some (cache_meta c)); prov_drain 4 2 p)
  = Ok [[mk_crec 0 2 0 [1; 2; 3]; mk_crec 1 0 5 [4; 5; 6]]; [mk_crec 2 1 0 [7; 8; 9]]]%N /\
  (do c <- (do c0 <- cache_open 3 [42%N]; cache_save_all c0 c37_recs);
   prov_open (Some (firstn 131 (ca_file c))) (Some (cache_meta c))) = Throw.
Proof. split; [|split; vm_compute; reflexivity]. repeat constructor. Qed.

(** Any number of sessions on a fresh cache path: reading returns every item saved, in order, and
    the number of rows of the peer's table. *)
Theorem C36_round_trip :
  forall len bs (sessions : list (list (bytes * N))),
  len <= max_cipher -> 0 < bs -> Forall (Forall (item_ok len)) sessions ->
  exists d B, run_sessions_from len no_cache sessions = Ok d /\
    open_and_read len bs d = Ok (peer_rows (concat sessions), B) /\
    concat B = concat sessions /\ Forall (fun b => 0 < length b <= bs) B.
Proof.
  intros len bs sessions L HB H. destruct sessions as [|s ss].
  - exists no_cache, []. cbn [run_sessions_from concat]. split; [reflexivity|]. split; [|split; [reflexivity|constructor]].
    unfold open_and_read. rewrite open_fresh by exact L. cbn. destruct bs; [lia|]. reflexivity.
  - inversion H as [|? ? H1 H2]; subst. cbn [run_sessions_from concat].
    destruct (session_fresh len s L H1) as (d1 & A & B1). rewrite A. cbn [bind].
    destruct (sessions_hold len ss s d1 L H1 H2 B1) as (d2 & A2 & B2). rewrite A2.
    assert (HF : Forall (item_ok len) (s ++ concat ss)).
    { apply Forall_app. split; [exact H1|]. apply Forall_concat. exact H2. }
    destruct (contents_holds len bs _ d2 HB L HF B2) as (B & R1 & R2 & R3). eauto 6.
Qed.
Print Assumptions C36_round_trip.

(** A session that dies after any [k] bytes of its data reached the file, its meta file not yet
    written: if no whole item got out the store still reads as before the session, otherwise opening
    it throws.  Partial: a death while the meta file is rewritten is excluded, and so is saving more
    into the store after the death (see the refutations). *)
Theorem C36_consistent_or_rejected_partial :
  forall len bs (sessions : list (list (bytes * N))) s d new k d',
  len <= max_cipher -> 0 < bs -> Forall (Forall (item_ok len)) (s :: sessions) -> Forall (item_ok len) new ->
  (N.of_nat (length (concat (s :: sessions)) + length new) < max32)%N ->
  run_sessions_from len no_cache (s :: sessions) = Ok d ->
  crash_in_data len d new k = Ok d' ->
  (Nat.min k (length new * item_size) < item_size ->
     exists B, open_and_read len bs d' = Ok (peer_rows (concat (s :: sessions)), B) /\ concat B = concat (s :: sessions)) /\
  (item_size <= Nat.min k (length new * item_size) -> open_and_read len bs d' = Throw).
Proof.
  intros len bs sessions s d new k d' L HB H Hn HC HR HD.
  inversion H as [|? ? H1 H2]; subst. cbn [run_sessions_from] in HR.
  destruct (session_fresh len s L H1) as (d1 & A & B1). rewrite A in HR. cbn [bind] in HR.
  destruct (sessions_hold len sessions s d1 L H1 H2 B1) as (d2 & A2 & B2). rewrite A2 in HR. inversion HR; subst d2. clear HR.
  assert (HF : Forall (item_ok len) (s ++ concat sessions)).
  { apply Forall_app. split; [exact H1|]. apply Forall_concat. exact H2. }
  cbn [concat] in *. set (old := s ++ concat sessions) in *.
  unfold crash_in_data in HD. rewrite (open_holds len old d L HF B2) in HD. cbn [bind] in HD.
  destruct (session_gen len old new d _ L HF Hn B2 eq_refl) as (s1 & E1 & E2 & _). rewrite E1 in HD. cbn [bind] in HD.
  inversion HD; subst d'. clear HD. rewrite E2. unfold holds_items in B2. subst d. cbn [cd_data cd_meta file_bytes].
  assert (LT : length (firstn k (stored new)) = Nat.min k (length new * item_size)).
  { rewrite firstn_length, (stored_len len) by assumption. reflexivity. }
  destruct (torn_read len bs old (firstn k (stored new)) HB L HF) as (T1 & T2).
  - rewrite LT. assert (Nat.div (Nat.min k (length new * item_size)) item_size <= length new); [|lia].
    apply Nat.div_le_upper_bound; [discriminate|]. lia.
  - rewrite LT in T1, T2. split; [|exact T2]. intros Q. destruct (T1 Q) as (B & R1 & R2 & _). eauto.
Qed.
Print Assumptions C36_consistent_or_rejected_partial.

(** Dying between truncating and completing the meta file: the next opening reads uninitialised
    members. *)
Theorem C36_torn_meta_refuted :
  exists len (its : list (bytes * N)) j d,
    Forall (item_ok len) its /\ crash_in_meta len no_cache its j = Ok d /\ open_and_read len 10 d = UB.
Proof. exists 2, [([1; 2]%N, 0%N)], 5. eexists. split; [repeat constructor|]. split; reflexivity. Qed.
Print Assumptions C36_torn_meta_refuted.

(** Dying inside the first item of a session is not noticed, and the next complete session's items
    are appended after the torn bytes: the store then opens and returns ciphertexts never saved. *)
Theorem C36_append_after_tear_refuted :
  exists len (s new later : list (bytes * N)) k d1 d2 d3 n B,
    Forall (item_ok len) (s ++ new ++ later) /\
    store_session len no_cache s = Ok d1 /\ crash_in_data len d1 new k = Ok d2 /\
    store_session len d2 later = Ok d3 /\ open_and_read len 10 d3 = Ok (n, B) /\
    exists it, In it (concat B) /\ ~ In it (s ++ new ++ later).
Proof.
  exists 2, [([1; 2], 0)]%N, [([3; 4], 0)]%N, [([5; 6], 0)]%N, 1.
  eexists _, _, _, _, _. split; [repeat constructor|]. split; [reflexivity|]. split; [reflexivity|]. split; [reflexivity|].
  split; [vm_compute; reflexivity|]. eexists. split; [right; left; reflexivity|].
  intros [E|[E|[E|[]]]]; discriminate E.
Qed.
Print Assumptions C36_append_after_tear_refuted.

Definition c36_a : list (bytes * N) := [([1; 2], 0); ([3; 4], 3)]%N.
Definition c36_b : list (bytes * N) := [([5; 6], 1)]%N.
Example C36_example :
  Forall (Forall (item_ok 2)) [c36_a; c36_b] /\
  (do d <- run_sessions_from 2 no_cache [c36_a; c36_b]; open_and_read 2 2 d)
    = Ok (7%N, [[([1; 2], 0); ([3; 4], 3)]; [([5; 6], 1)]]%N) /\
  (do d <- run_sessions_from 2 no_cache [c36_a]; do d' <- crash_in_data 2 d c36_b 35; open_and_read 2 2 d')
    = Ok (5%N, [c36_a]) /\
  (do d <- run_sessions_from 2 no_cache [c36_a]; do d' <- crash_in_data 2 d c36_b 36; open_and_read 2 2 d') = Throw.
Proof. split; [repeat constructor|]. repeat split; vm_compute; reflexivity. Qed.

(** C57 (full claim): opening a cache that was never transferred completely fails.  False: without
    any cache file, and after a transfer that died before its first item was out, the store opens,
    and it is empty. *)
Theorem C57_missing_cache_refuted :
  exists len (its : list (bytes * N)) d,
    Forall (item_ok len) its /\ its <> [] /\
    crash_in_data len no_cache its 0 = Ok d /\
    open_and_read len 10 d = Ok (0%N, []) /\
    open_and_read len 10 no_cache = Ok (0%N, []).
Proof. exists 2, c36_a. eexists. split; [repeat constructor|]. split; [discriminate|]. repeat split. Qed.
Print Assumptions C57_missing_cache_refuted.

(** What holds of it: a first transfer that died after some whole item was out is refused. *)
Theorem C57_incomplete_transfer_partial :
  forall len bs (new : list (bytes * N)) k d',
  len <= max_cipher -> 0 < bs -> Forall (item_ok len) new -> (N.of_nat (length new) < max32)%N ->
  item_size <= k -> new <> [] -> crash_in_data len no_cache new k = Ok d' -> open_and_read len bs d' = Throw.
Proof.
  intros len bs new k d' L HB Hn HC HK NE HD. unfold crash_in_data in HD. rewrite open_fresh in HD by exact L. cbn [bind] in HD.
  destruct (session_gen len [] new (mk_cdisk (Some []) (Some (enc_meta 0 0 (N.of_nat len)))) (mk_cstore len 0 0 []) L (Forall_nil _) Hn eq_refl eq_refl) as (s1 & A & E & _).
  rewrite A in HD. cbn [bind] in HD. inversion HD; subst d'. rewrite E. cbn [cd_data cd_meta file_bytes app].
  assert (LT : length (firstn k (stored new)) = Nat.min k (length new * item_size)).
  { rewrite firstn_length, (stored_len len) by assumption. reflexivity. }
  destruct (torn_read len bs [] (firstn k (stored new)) HB L (Forall_nil _)) as (_ & T2).
  - rewrite LT. assert (Nat.div (Nat.min k (length new * item_size)) item_size <= length new); [|cbn [length]; lia].
    apply Nat.div_le_upper_bound; [discriminate|]. lia.
  - apply T2. rewrite LT. destruct new; [congruence|]. cbn [length]. unfold item_size in *. lia.
Qed.
Print Assumptions C57_incomplete_transfer_partial.
Example C57_example :
  (do d <- crash_in_data 2 no_cache c36_a 40; open_and_read 2 2 d) = Throw.
Proof. reflexivity. Qed.
