(** Proofs about PpsWireModel. *)
From Coq Require Import List NArith Bool Arith Lia Permutation Sorted.
From Verif Require Import Base BaseProofs StoreModel KkrtProofs PpsModel PpsSpec PpsProofs PpsProofs2 PpsProofs3 PpsProofs4 PpsProofs5 PpsProofs6 PpsWireModel.
Import ListNotations.

Lemma le_length : forall w v, length (pw_le w v) = w.
Proof. induction w; intro v; [reflexivity|]. cbn [pw_le length]. f_equal. apply IHw. Qed.
Lemma un_le : forall w v, (v < 256 ^ N.of_nat w)%N -> pw_un (pw_le w v) = v.
Proof.
  induction w; intros v H.
  - change (256 ^ N.of_nat 0)%N with 1%N in H. cbn. lia.
  - rewrite Nat2N.inj_succ, N.pow_succ_r' in H. cbn [pw_le pw_un]. rewrite IHw by (apply N.div_lt_upper_bound; [discriminate|exact H]).
    pose proof (N.div_mod v 256 ltac:(discriminate)). lia.
Qed.
Lemma rd_app : forall w v r, (v < 256 ^ N.of_nat w)%N -> pw_rd w (pw_le w v ++ r) = Ok (v, r).
Proof.
  intros w v r H. unfold pw_rd. rewrite app_length, le_length. rewrite (proj2 (Nat.leb_le w (w + length r))) by lia.
  pose proof (le_length w v) as L. rewrite firstn_app, skipn_app, L, Nat.sub_diag. cbn [firstn skipn]. rewrite app_nil_r.
  rewrite firstn_all2, skipn_all2 by (rewrite L; apply le_n). rewrite un_le by exact H. reflexivity.
Qed.
Lemma rd8 : forall v r, (v < max64)%N -> pw_rd 8 (pw_le 8 v ++ r) = Ok (v, r).
Proof. intros. apply rd_app. exact H. Qed.
Lemma rd16 : forall v r, (v < max64 * max64)%N -> pw_rd 16 (pw_le 16 v ++ r) = Ok (v, r).
Proof. intros. apply rd_app. exact H. Qed.
Lemma rd_short : forall w b, length b < w -> pw_rd w b = UB.
Proof. intros w b H. unfold pw_rd. rewrite (proj2 (Nat.leb_gt w (length b))) by exact H. reflexivity. Qed.

(** ** A sorted set *)
Lemma insert_last : forall x l, Forall (fun y => (y < x)%N) l -> pp_insert x l = l ++ [x].
Proof.
  induction 1 as [|y l H F IH]; [reflexivity|]. cbn [pp_insert app].
  destruct (N.ltb_spec x y); [lia|]. destruct (N.eqb_spec x y); [lia|]. rewrite IH. reflexivity.
Qed.
Lemma insert_in : forall x y l, In y (pp_insert x l) -> y = x \/ In y l.
Proof.
  induction l as [|z l IH]; cbn [pp_insert]; [intros [<-|[]]; left; reflexivity|].
  destruct (x <? z)%N; [intros [<-|J]; [left; reflexivity|right; exact J]|]. destruct (x =? z)%N; [intro J; right; exact J|].
  intros [<-|J]; [right; left; reflexivity|]. destruct (IH J) as [->|K]; [left; reflexivity|right; right; exact K].
Qed.
Lemma insert_sorted : forall x l, StronglySorted N.lt l -> StronglySorted N.lt (pp_insert x l).
Proof.
  intros x. induction 1 as [|y l S IH F]; cbn [pp_insert]; [repeat constructor|].
  destruct (N.ltb_spec x y) as [H|H].
  - constructor; [constructor; assumption|]. constructor; [exact H|]. rewrite Forall_forall in *. intros z J. specialize (F z J). lia.
  - destruct (N.eqb_spec x y) as [E|E]; [constructor; assumption|]. constructor; [exact IH|].
    rewrite Forall_forall in *. intros z J. destruct (insert_in _ _ _ J) as [->|K]; [lia|exact (F z K)].
Qed.
Lemma rd_shifts : forall ds acc r, StronglySorted N.lt (acc ++ ds) -> Forall (fun d => (d < max64)%N) ds ->
  pw_rd_shifts (length ds) (flat_map (pw_le 8) ds ++ r) acc = Ok (acc ++ ds).
Proof.
  induction ds as [|d ds IH]; intros acc r S F; cbn [length pw_rd_shifts flat_map]; [rewrite app_nil_r; reflexivity|].
  inversion F; subst. rewrite <- app_assoc, rd8 by assumption. cbn [bind].
  assert (L : Forall (fun y => (y < d)%N) acc).
  { clear - S. rewrite Forall_forall. intros y J. induction acc as [|z acc IH]; [destruct J|]. cbn [app] in S. inversion S as [|? ? S' F]; subst.
    destruct J as [->|J]; [|exact (IH S' J)]. rewrite Forall_forall in F. apply F. apply in_elt. }
  rewrite insert_last by exact L. rewrite IH; [rewrite <- app_assoc; reflexivity| |assumption].
  rewrite <- app_assoc. exact S.
Qed.

Lemma offline_rt : forall k ds, (k < max64 * max64)%N -> (N.of_nat (length ds) < max64)%N -> StronglySorted N.lt ds -> Forall (fun d => (d < max64)%N) ds ->
  pw_rd_offline (pw_offline k ds) = Ok (k, ds).
Proof.
  intros k ds Hk HL S F. unfold pw_rd_offline, pw_offline.
  rewrite rd8 by (apply N.div_lt_upper_bound; [discriminate|exact Hk]). cbn [bind].
  rewrite rd8 by (apply N.mod_lt; discriminate). cbn [bind]. rewrite rd8 by exact HL. cbn [bind].
  rewrite Nat2N.id. rewrite <- (app_nil_r (flat_map (pw_le 8) ds)). rewrite rd_shifts by assumption. cbn [bind app].
  f_equal. f_equal. pose proof (N.div_mod k max64 ltac:(discriminate)). lia.
Qed.
Lemma rd_keys : forall ks r, Forall (fun k => (k < max64 * max64)%N) ks ->
  pw_rd_keys (length ks) (flat_map (pw_le 16) ks ++ r) = Ok (ks, r).
Proof.
  intros ks r. induction 1 as [|k ks H F IH]; cbn [length pw_rd_keys flat_map app]; [reflexivity|].
  rewrite <- app_assoc, rd16 by exact H. cbn [bind]. rewrite IH. reflexivity.
Qed.
Lemma online_rt : forall pk, Forall (fun k => (k < max64 * max64)%N) (pk_ks pk) -> (N.of_nat (length (pk_ks pk)) <= pw_max)%N ->
  (pk_pos pk < max64)%N -> (pk_delta pk < max64)%N -> pw_rd_online (pw_online pk) = Ok pk.
Proof.
  intros [ks pos d] F L Hp Hd. cbn [pk_ks pk_pos pk_delta] in *. unfold pw_rd_online, pw_online. cbn [pk_ks pk_pos pk_delta].
  rewrite rd8 by (unfold pw_max, max64 in *; lia). cbn [bind]. destruct (N.ltb_spec pw_max (N.of_nat (length ks))); [lia|].
  rewrite Nat2N.id, rd_keys by exact F. cbn [bind]. rewrite rd8 by exact Hp. cbn [bind].
  rewrite <- (app_nil_r (pw_le 8 d)), rd8 by exact Hd. reflexivity.
Qed.
Lemma rd_pairs : forall ck r, Forall (fun c => (fst c < max64 * max64)%N /\ (snd c < max64)%N) ck ->
  pw_rd_pairs (length ck) (flat_map (fun c => pw_le 16 (fst c) ++ pw_le 8 (snd c)) ck ++ r) = Ok ck.
Proof.
  intros ck r. induction 1 as [|[k d] ck [H1 H2] F IH]; cbn [length pw_rd_pairs flat_map app fst snd]; [reflexivity|].
  rewrite <- !app_assoc, rd16 by exact H1. cbn [bind]. rewrite rd8 by exact H2. cbn [bind]. rewrite IH. reflexivity.
Qed.
Lemma offline_m_rt : forall ck, Forall (fun c => (fst c < max64 * max64)%N /\ (snd c < max64)%N) ck -> (N.of_nat (length ck) <= pw_max_m)%N ->
  pw_rd_offline_m (pw_offline_m ck) = Ok ck.
Proof.
  intros ck F L. unfold pw_rd_offline_m, pw_offline_m. rewrite rd8 by (unfold pw_max_m, max64 in *; lia). cbn [bind].
  destruct (N.ltb_spec pw_max_m (N.of_nat (length ck))); [lia|]. rewrite Nat2N.id.
  rewrite <- (app_nil_r (flat_map _ ck)). apply rd_pairs. exact F.
Qed.
Lemma hints_rt : forall h, pw_rd_hints (pw_hints h) = h.
Proof.
  intro h. unfold pw_rd_hints, pw_hints. rewrite map_map. rewrite <- map_rev, rev_involutive.
  induction h as [|b h IH]; [reflexivity|]. cbn [map]. rewrite IH. destruct b; reflexivity.
Qed.
Lemma bit_rt : forall a, pw_rd_bit (pw_bit a) = a. Proof. destruct a; reflexivity. Qed.

(** ** Cut messages *)
Lemma rd_split : forall w b, pw_rd w b = if length b <? w then UB else Ok (pw_un (firstn w b), skipn w b).
Proof. intros. unfold pw_rd. rewrite Nat.ltb_antisym. destruct (w <=? length b); reflexivity. Qed.
Lemma cut_first : forall c (a b : list N), firstn c (a ++ b) = firstn (min c (length a)) a ++ firstn (c - length a) b.
Proof.
  intros c a b. rewrite firstn_app. f_equal. destruct (Nat.le_gt_cases c (length a)); [rewrite Nat.min_l by assumption; reflexivity|].
  rewrite Nat.min_r by lia. rewrite !firstn_all2 by lia. reflexivity.
Qed.
Lemma rd_cut : forall w v r c, (v < 256 ^ N.of_nat w)%N ->
  pw_rd w (firstn c (pw_le w v ++ r)) = if c <? w then UB else Ok (v, firstn (c - w) r).
Proof.
  intros w v r c H. destruct (Nat.ltb_spec c w) as [L|L].
  - apply rd_short. rewrite firstn_length. lia.
  - rewrite firstn_app, le_length, firstn_all2 by (rewrite le_length; exact L). apply rd_app. exact H.
Qed.
Lemma shifts_cut : forall ds acc c, Forall (fun d => (d < max64)%N) ds -> c < 8 * length ds ->
  pw_rd_shifts (length ds) (firstn c (flat_map (pw_le 8) ds)) acc = UB.
Proof.
  induction ds as [|d ds IH]; intros acc c F H; [cbn in H; lia|]. inversion F; subst. cbn [length pw_rd_shifts flat_map].
  rewrite rd_cut by assumption. destruct (Nat.ltb_spec c 8) as [L|L]; [reflexivity|]. cbn [bind]. apply IH; [assumption|]. cbn [length] in H. lia.
Qed.
Lemma keys_cut : forall ks r c, Forall (fun d => (d < max64 * max64)%N) ks ->
  pw_rd_keys (length ks) (firstn c (flat_map (pw_le 16) ks ++ r)) = if c <? 16 * length ks then UB else Ok (ks, firstn (c - 16 * length ks) r).
Proof.
  induction ks as [|k ks IH]; intros r c F; [cbn [length Nat.mul Nat.ltb Nat.leb pw_rd_keys flat_map app]; rewrite Nat.sub_0_r; reflexivity|].
  inversion F; subst. cbn [length pw_rd_keys flat_map]. rewrite <- app_assoc, rd_cut by assumption.
  destruct (Nat.ltb_spec c 16) as [L|L].
  - destruct (Nat.ltb_spec c (16 * S (length ks))); [reflexivity|lia].
  - cbn [bind]. rewrite IH by assumption. destruct (Nat.ltb_spec (c - 16) (16 * length ks)); destruct (Nat.ltb_spec c (16 * S (length ks))); try lia; [reflexivity|].
    cbn [bind]. f_equal. f_equal. f_equal. lia.
Qed.
Lemma flat_length : forall w ds, length (flat_map (pw_le w) ds) = w * length ds.
Proof. induction ds; cbn [flat_map length]; [lia|]. rewrite app_length, le_length, IHds. lia. Qed.
Lemma offline_cut : forall k ds c, (k < max64 * max64)%N -> (N.of_nat (length ds) < max64)%N -> Forall (fun d => (d < max64)%N) ds ->
  c < length (pw_offline k ds) -> pw_rd_offline (firstn c (pw_offline k ds)) = UB.
Proof.
  intros k ds c Hk HL F H. unfold pw_offline in *. rewrite !app_length, !le_length, flat_length in H. unfold pw_rd_offline.
  rewrite rd_cut by (apply N.div_lt_upper_bound; [discriminate|exact Hk]). destruct (Nat.ltb_spec c 8); [reflexivity|]. cbn [bind].
  rewrite rd_cut by (apply N.mod_lt; discriminate). destruct (Nat.ltb_spec (c - 8) 8); [reflexivity|]. cbn [bind].
  rewrite rd_cut by exact HL. destruct (Nat.ltb_spec (c - 8 - 8) 8); [reflexivity|]. cbn [bind].
  rewrite Nat2N.id, shifts_cut by (assumption || lia). reflexivity.
Qed.
Lemma online_cut : forall pk c, Forall (fun k => (k < max64 * max64)%N) (pk_ks pk) -> (N.of_nat (length (pk_ks pk)) <= pw_max)%N ->
  (pk_pos pk < max64)%N -> (pk_delta pk < max64)%N -> c < length (pw_online pk) -> pw_rd_online (firstn c (pw_online pk)) = UB.
Proof.
  intros [ks pos d] c F L Hp Hd H. unfold pw_rd_online, pw_online in *. cbn [pk_ks pk_pos pk_delta] in *.
  rewrite !app_length, !le_length, flat_length in H.
  rewrite rd_cut by (change (256 ^ N.of_nat 8)%N with max64; unfold pw_max, max64 in *; lia).
  destruct (Nat.ltb_spec c 8); [reflexivity|]. cbn [bind]. destruct (N.ltb_spec pw_max (N.of_nat (length ks))); [lia|].
  rewrite Nat2N.id, keys_cut by exact F. destruct (Nat.ltb_spec (c - 8) (16 * length ks)); [reflexivity|]. cbn [bind].
  rewrite rd_cut by exact Hp. destruct (Nat.ltb_spec (c - 8 - 16 * length ks) 8); [reflexivity|]. cbn [bind].
  rewrite rd_short; [reflexivity|]. rewrite firstn_length, le_length. lia.
Qed.

(** ** Runs *)
Lemma draw_set : forall n words fuel need pos ds out, (0 < n < max64)%N -> (forall c, (words c < max64)%N) ->
  StronglySorted N.lt ds -> Forall (fun d => (d < n)%N) ds -> pp_draw n words fuel need pos ds = Ok out ->
  StronglySorted N.lt out /\ Forall (fun d => (d < n)%N) out.
Proof.
  intros n words fuel. induction fuel as [|f IH]; intros need pos ds out Hn HW S F E; cbn [pp_draw] in E; [discriminate|].
  destruct need as [|e]; [injection E as <-; split; assumption|].
  destruct (pp_mem (pp_lemire64 (words pos) n) ds); [exact (IH _ _ _ _ Hn HW S F E)|].
  apply (IH _ _ _ _ Hn HW (insert_sorted _ _ S)) in E; [exact E|]. rewrite Forall_forall in *. intros y J.
  destruct (insert_in _ _ _ J) as [->|K]; [apply pp_lemire64_lt; [apply HW|exact Hn]|exact (F y K)].
Qed.
Lemma sorted_nodup : forall l, StronglySorted N.lt l -> NoDup l.
Proof.
  induction 1 as [|x l S IH F]; constructor; [|exact IH]. intro J. rewrite Forall_forall in F. specialize (F x J). lia.
Qed.
Lemma nodup_bound : forall n l, NoDup l -> Forall (fun d => (d < n)%N) l -> length l <= N.to_nat n.
Proof.
  intros n l ND F. rewrite <- (map_length N.to_nat), <- (seq_length (N.to_nat n) 0). apply NoDup_incl_length.
  - apply FinFun.Injective_map_NoDup; [intros x y; apply N2Nat.inj|exact ND].
  - intros y J. apply in_map_iff in J. destruct J as (x & <- & Jx). rewrite Forall_forall in F. specialize (F x Jx). apply in_seq. lia.
Qed.
Lemma copath_ok : forall prg h pos k, (forall x, (fst (prg x) < max64 * max64)%N /\ (snd (prg x) < max64 * max64)%N) ->
  Forall (fun k => (k < max64 * max64)%N) (pp_copath prg h pos k) /\ length (pp_copath prg h pos k) = h.
Proof.
  intros prg h pos. induction h as [|h IH]; intros k H; cbn [pp_copath]; [split; [constructor|reflexivity]|].
  pose proof (H k) as HK. destruct (prg k) as [l r]. cbn [fst snd] in HK. destruct (N.testbit pos (N.of_nat h)).
  - destruct (IH r H) as [A B]. split; [constructor; [apply HK|exact A]|cbn [length]; f_equal; exact B].
  - destruct (IH l H) as [A B]. split; [constructor; [apply HK|exact A]|cbn [length]; f_equal; exact B].
Qed.
Lemma emplace_snd : forall s l m, Forall (fun p => snd p < s) m -> Forall (fun p : N * nat => snd p < s) l -> Forall (fun p => snd p < s) (fold_left pp_emplace l m).
Proof.
  intros s. induction l as [|p l IH]; intros m FM FL; [exact FM|]. inversion FL; subst. cbn [fold_left]. apply IH; [|assumption].
  unfold pp_emplace. destruct (existsb _ m); [exact FM|]. apply Forall_app. split; [exact FM|]. constructor; [assumption|constructor].
Qed.
Lemma number_bound : forall (A : Type) (l : list A) q, Forall (fun p => q <= fst p < q + length l) (number q l).
Proof.
  induction l as [|x l IH]; intro q; cbn [number]; constructor; [cbn; lia|].
  specialize (IH (S q)). rewrite Forall_forall in *. intros p J. specialize (IH p J). cbn [length]. lia.
Qed.
Lemma map_snd : forall prg n s k, Forall (fun p => snd p < s) (pp_map prg n s k).
Proof.
  intros. unfold pp_map. apply emplace_snd; [constructor|]. rewrite Forall_map, Forall_forall. intros p J. cbn [snd].
  pose proof (number_bound _ (firstn s (pp_leaves prg s k)) 0) as B. rewrite Forall_forall in B. specialize (B p J).
  pose proof (firstn_le_length s (pp_leaves prg s k)). lia.
Qed.
Lemma punc_wire : forall prg n s k0 m i k pk pk', (forall x, (fst (prg x) < max64 * max64)%N /\ (snd (prg x) < max64 * max64)%N) ->
  (N.of_nat s <= pw_max)%N -> m = pp_map prg n s k0 -> pk_ks pk = [] -> pp_punc prg s m i k pk = Ok pk' ->
  Forall (fun k => (k < max64 * max64)%N) (pk_ks pk') /\ (N.of_nat (length (pk_ks pk')) <= pw_max)%N /\ (pk_pos pk' < max64)%N /\ pk_delta pk' = pk_delta pk.
Proof.
  intros prg n s k0 m i k pk pk' Hprg Hs -> EK E. unfold pp_punc, pp_find in E.
  destruct (filter (fun q : N * nat => (fst q =? i)%N) (pp_map prg n s k0)) as [|q r] eqn:EF; [discriminate|]. injection E as <-. cbn [pk_ks pk_pos pk_delta].
  assert (J : In q (pp_map prg n s k0)) by (apply (proj1 (filter_In (fun q : N * nat => (fst q =? i)%N) q (pp_map prg n s k0))); rewrite EF; left; reflexivity).
  pose proof (map_snd prg n s k0) as MS. rewrite Forall_forall in MS. specialize (MS q J).
  destruct (copath_ok prg (pp_depth s) (N.of_nat (snd q)) k Hprg) as [A B]. rewrite EK. cbn [app]. split; [exact A|]. rewrite B.
  assert (D : pp_depth s <= s). { unfold pp_depth. destruct s as [|[|t]]; [apply le_n|cbn; lia|]. apply Nat.lt_le_incl, Nat.log2_up_lt_lin. lia. }
  unfold pw_max, max64 in *. split; [lia|]. split; [lia|reflexivity].
Qed.
Lemma sub_lt64 : forall i d n, (i < max64)%N -> (pp_sub i d n < max64)%N.
Proof. intros i d n H. unfold pp_sub. destruct (N.leb_spec d i); [lia|]. unfold u64. change 18446744073709551616%N with max64. apply N.mod_lt. discriminate. Qed.
Lemma gen_map : forall prg n s keys fuel pos k m p, pp_gen prg n s keys fuel pos = Ok (k, m, p) -> m = pp_map prg n s k /\ exists c, k = keys c.
Proof.
  intros prg n s keys. induction fuel as [|f IH]; intros pos k m p E; cbn [pp_gen] in E; [discriminate|].
  destruct (length (pp_map prg n s (keys pos)) =? s); [|exact (IH _ _ _ _ E)]. injection E as <- <- <-. split; [reflexivity|]. exists pos. reflexivity.
Qed.

Lemma single_wire : forall prg n s walk keys lambda lnc bits words i r1 r2 b,
  (forall x, (fst (prg x) < max64 * max64)%N /\ (snd (prg x) < max64 * max64)%N) -> (0 < n < max64)%N -> (N.of_nat s <= pw_max)%N ->
  (forall c, (keys c < max64 * max64)%N) -> (forall c, (words c < max64)%N) -> (i < max64)%N ->
  pw_single prg n s walk keys lambda lnc bits words i r1 r2 b = pp_single prg n s walk keys lambda lnc bits words i r1 r2 b.
Proof.
  intros prg n s walk keys lambda lnc bits words i r1 r2 b Hprg Hn Hs HK HW Hi. unfold pw_single, pp_single.
  destruct (pp_ctor n s); cbn [bind]; try reflexivity.
  destruct (pp_setup prg n s keys lambda lnc words) as [[[k m] ds]| | |] eqn:ES; cbn [bind]; try reflexivity.
  unfold pp_setup in ES. destruct (pp_gen prg n s keys lambda 0) as [[[k0 m0] p0]| | |] eqn:EG; try discriminate. cbn [bind] in ES.
  destruct (pp_draw n words _ _ 0 []) as [ds0| | |] eqn:ED; try discriminate. injection ES as <- <- <-.
  destruct (gen_map _ _ _ _ _ _ _ _ _ EG) as [EM (c & Ec)].
  destruct (draw_set n words _ _ _ _ _ Hn HW (SSorted_nil _) (Forall_nil _) ED) as [S F].
  pose proof (nodup_bound n ds0 (sorted_nodup _ S) F) as LB.
  assert (F64 : Forall (fun d => (d < max64)%N) ds0) by (rewrite Forall_forall in *; intros y J; specialize (F y J); lia).
  rewrite offline_rt; [| rewrite Ec; apply HK|lia|exact S|exact F64]. cbn [bind].
  destruct (pp_hint prg n s bits k0 ds0) as [h| | |]; cbn [bind]; try reflexivity. rewrite hints_rt.
  destruct (pp_query prg n s walk i k0 m0 ds0 r1 r2 b pk_new) as [[j pk]| | |] eqn:EQ; cbn [bind]; try reflexivity.
  assert (P : pw_rd_online (pw_online pk) = Ok pk).
  { unfold pp_query in EQ.
    match type of EQ with bind ?X _ = _ => destruct X as [[j0 d]| | |] eqn:EX end; try discriminate. cbn [bind] in EQ.
    match type of EQ with bind ?X _ = _ => destruct X as [ip| | |] end; try discriminate. cbn [bind] in EQ.
    destruct (pp_punc prg s m0 ip k0 _) as [pk'| | |] eqn:EP; try discriminate. injection EQ as _ <-.
    destruct (punc_wire prg n s k0 m0 ip k0 (mk_ppk [] 0 d) pk' Hprg Hs EM eq_refl EP) as (A & B & C & D). cbn [pk_delta] in D.
    apply online_rt; [exact A|exact B|exact C|]. rewrite D.
    assert (SR : forall ds q, Forall (fun d => (d < max64)%N) ds -> match pp_search n m0 i q ds with Some (_, d) => (d < max64)%N | None => True end).
    { clear. induction ds as [|y ds IH]; intros q F; cbn [pp_search]; [exact I|]. inversion F; subst. destruct (pp_find m0 (pp_sub i y n)); [assumption|apply IH; assumption]. }
    specialize (SR ds0 0 F64). destruct (pp_search n m0 i 0 ds0) as [[j1 d1]|].
    - injection EX as _ <-. exact SR.
    - destruct (pp_pick s walk m0 r1); try discriminate. injection EX as _ <-. apply sub_lt64. exact Hi. }
  rewrite P. cbn [bind]. destruct (pp_answer prg n s bits pk); cbn [bind]; try reflexivity. rewrite bit_rt. reflexivity.
Qed.

Definition ck_ok (ck : list (N * N)) : Prop := Forall (fun c => (snd c < max64)%N) ck.
Lemma search2_in : forall n i ck q v j c, pp_search2 n i q ck v = Ok (Some (j, c)) -> In c ck.
Proof.
  induction ck as [|y ck IH]; intros q v j c E; cbn [pp_search2] in E; [discriminate|]. destruct v as [|t v]; [discriminate|].
  destruct (pp_mem (pp_sub i (snd y) n) t); [injection E as _ ->; left; reflexivity|right; exact (IH _ _ _ _ E)].
Qed.
Lemma upd_ok : forall j (c : N * N) ck, ck_ok ck -> (snd c < max64)%N -> ck_ok (upd j (fun _ => c) ck).
Proof.
  intros j c ck F H. unfold ck_ok in *. rewrite Forall_forall in *. intros y J. apply In_nth_error in J. destruct J as (q & E). rewrite nth_upd in E.
  destruct (nth_error ck q) as [z|] eqn:EZ; [|destruct (j =? q); discriminate].
  destruct (j =? q); injection E as <-; [exact H|]. apply F. exact (nth_error_In _ _ EZ).
Qed.
Lemma query2_wire : forall prg n s walk keys lambda i ck v pos r1 r2 b q,
  (forall x, (fst (prg x) < max64 * max64)%N /\ (snd (prg x) < max64 * max64)%N) -> (N.of_nat s <= pw_max)%N -> (i < max64)%N -> ck_ok ck ->
  pp_query2 prg n s walk keys lambda i ck v pos r1 r2 b = Ok q ->
  pw_rd_online (pw_online (q_l q)) = Ok (q_l q) /\ pw_rd_online (pw_online (q_r q)) = Ok (q_r q) /\ ck_ok (q_ck q).
Proof.
  intros prg n s walk keys lambda i ck v pos r1 r2 b q Hprg Hs Hi F E. unfold pp_query2 in E.
  destruct (pp_gen prg n s keys lambda pos) as [[[k m] p]| | |] eqn:EG; try discriminate. cbn [bind] in E.
  destruct (gen_map _ _ _ _ _ _ _ _ _ EG) as [EM _].
  destruct (pp_pick s walk m r1) as [v1| | |]; try discriminate. cbn [bind] in E.
  match type of E with bind ?X _ = _ => destruct X as [[ip fnd]| | |] eqn:EX end; try discriminate. cbn [bind] in E.
  destruct (pp_punc prg s m _ k _) as [pl| | |] eqn:EP; try discriminate. cbn [bind] in E.
  destruct (punc_wire prg n s k m _ k (mk_ppk [] 0 (pp_sub i v1 n)) pl Hprg Hs EM eq_refl EP) as (A & B & C & D). cbn [pk_delta] in D.
  pose proof (sub_lt64 i v1 n Hi) as DL.
  assert (RL : pw_rd_online (pw_online pl) = Ok pl) by (apply online_rt; [exact A|exact B|exact C|rewrite D; exact DL]).
  destruct fnd as [[j [kr dr]]|]; [|injection E as <-; cbn [q_l q_r q_ck]; repeat split; assumption].
  destruct (pp_punc prg s (pp_map prg n s kr) _ kr pk_new) as [pr| | |] eqn:EP2; try discriminate. injection E as <-. cbn [q_l q_r q_ck].
  destruct (punc_wire prg n s kr _ _ kr pk_new pr Hprg Hs eq_refl eq_refl EP2) as (A2 & B2 & C2 & _).
  assert (DR : (dr < max64)%N).
  { destruct b; [destruct (pp_pick s walk m r2); discriminate|]. destruct (pp_search2 n i 0 ck v) as [f| | |] eqn:E2; try discriminate.
    injection EX as _ ->. apply search2_in in E2. unfold ck_ok in F. rewrite Forall_forall in F. exact (F _ E2). }
  split; [exact RL|]. split; [apply online_rt; assumption|]. apply upd_ok; assumption.
Qed.
Lemma round_wire : forall prg n s walk keys lambda bits st i coin,
  (forall x, (fst (prg x) < max64 * max64)%N /\ (snd (prg x) < max64 * max64)%N) -> (N.of_nat s <= pw_max)%N -> (i < max64)%N -> ck_ok (c_ck st) ->
  pw_round prg n s walk keys lambda bits st i coin = pp_round prg n s walk keys lambda bits st i coin /\
  forall x st' w, pp_round prg n s walk keys lambda bits st i coin = Ok (x, st', w) -> ck_ok (c_ck st').
Proof.
  intros prg n s walk keys lambda bits st i [[r1 r2] b] Hprg Hs Hi F. unfold pw_round, pp_round.
  destruct (pp_query2 prg n s walk keys lambda i (c_ck st) (c_v st) (c_pos st) r1 r2 b) as [q| | |] eqn:EQ; cbn [bind]; try (split; [reflexivity|intros; discriminate]).
  destruct (query2_wire _ _ _ _ _ _ _ _ _ _ _ _ _ _ Hprg Hs Hi F EQ) as (A & B & C). rewrite A, B. cbn [bind].
  destruct (pp_answer2 prg n s bits (q_l q) (q_r q)) as [[al ar]| | |]; cbn [bind]; try (split; [reflexivity|intros; discriminate]).
  rewrite !bit_rt. destruct (pp_recon2 (q_j q) (c_h st) al ar) as [[x h]| | |]; cbn [bind]; try (split; [reflexivity|intros; discriminate]).
  split; [destruct q; reflexivity|]. intros x' st' w E. injection E as _ <- _. exact C.
Qed.
Lemma rounds_wire : forall prg n s walk keys lambda bits,
  (forall x, (fst (prg x) < max64 * max64)%N /\ (snd (prg x) < max64 * max64)%N) -> (N.of_nat s <= pw_max)%N ->
  forall qs st, Forall (fun q => (fst q < max64)%N) qs -> ck_ok (c_ck st) ->
  pw_rounds prg n s walk keys lambda bits st qs = pp_rounds prg n s walk keys lambda bits st qs.
Proof.
  intros prg n s walk keys lambda bits Hprg Hs. induction qs as [|[i c] qs IH]; intros st FQ F; [reflexivity|]. inversion FQ; subst.
  cbn [pw_rounds pp_rounds]. destruct (round_wire prg n s walk keys lambda bits st i c Hprg Hs H1 F) as [A B]. rewrite A.
  destruct (pp_round prg n s walk keys lambda bits st i c) as [[[x st1] w]| | |]; cbn [bind]; try reflexivity.
  rewrite (IH st1 H2 (B x st1 w eq_refl)). reflexivity.
Qed.
Lemma setups_wire : forall prg n s keys, (forall c, (keys c < max64 * max64)%N) ->
  forall fuel need pos ck v p, pp_setups prg n s keys fuel need pos = Ok (ck, v, p) ->
  Forall (fun c => (fst c < max64 * max64)%N /\ (snd c < max64)%N) ck /\ length ck = need.
Proof.
  intros prg n s keys HK. induction fuel as [|f IH]; intros need pos ck v p E; cbn [pp_setups] in E; [discriminate|].
  destruct need as [|e]; [injection E as <- _ _; split; [constructor|reflexivity]|].
  destruct (length (pp_eval prg n s (keys pos)) =? s); [|exact (IH _ _ _ _ _ E)].
  destruct (pp_setups prg n s keys f e (S pos)) as [[[ck1 v1] p1]| | |] eqn:E1; try discriminate. injection E as <- _ _.
  destruct (IH _ _ _ _ _ E1) as [A B]. split; [constructor; [split; [apply HK|reflexivity]|exact A]|cbn [length]; f_equal; exact B].
Qed.
Lemma multi_wire : forall prg n s walk keys lambda lnc bits qs,
  (forall x, (fst (prg x) < max64 * max64)%N /\ (snd (prg x) < max64 * max64)%N) -> (N.of_nat s <= pw_max)%N ->
  (forall c, (keys c < max64 * max64)%N) -> (pp_MM n s lnc <= pw_max_m)%N -> Forall (fun q => (fst q < max64)%N) qs ->
  pw_multi prg n s walk keys lambda lnc bits qs = pp_multi prg n s walk keys lambda lnc bits qs.
Proof.
  intros prg n s walk keys lambda lnc bits qs Hprg Hs HK HM FQ. unfold pw_multi, pp_multi.
  destruct (pp_ctor n s); cbn [bind]; try reflexivity.
  destruct (pp_setups prg n s keys _ _ 0) as [[[ck v] p]| | |] eqn:ES; cbn [bind]; try reflexivity.
  destruct (setups_wire prg n s keys HK _ _ _ _ _ _ ES) as [A B].
  rewrite offline_m_rt; [|exact A|rewrite B; lia]. cbn [bind].
  destruct (pp_hints prg n s bits ck) as [h| | |]; cbn [bind]; try reflexivity. rewrite hints_rt.
  apply rounds_wire; try assumption. cbn [c_ck]. unfold ck_ok. rewrite Forall_forall in *. intros c J. apply A. exact J.
Qed.
