(** Lemmas for C35: the whole run. *)
From Coq Require Import List NArith Bool Arith Lia Permutation.
From Verif Require Import Base BaseProofs Text TextProofs StoreModel StoreSpec StoreProofs2 EcdhModel BucketProofs
  ShufModel ShufSpec ShufProofs UbCacheModel UbCacheSpec UbCacheProofs UbCacheProps UbPsiModel UbPsiSpec UbPsiProofs.
Import ListNotations.

Lemma map_nth_seq : forall (A : Type) (l : list A) d, map (fun i => nth i l d) (seq 0 (length l)) = l.
Proof.
  intros A l d. apply nth_ext with (d := d) (d' := d); [rewrite map_length, seq_length; reflexivity|].
  intros i Hi. rewrite map_length, seq_length in Hi.
  rewrite nth_indep with (d' := nth 0 l d) by (rewrite map_length, seq_length; exact Hi).
  rewrite (map_nth (fun i => nth i l d)), seq_nth by exact Hi. reflexivity.
Qed.
Lemma save_all_app : forall a b c, cache_save_all c (a ++ b) = (do c' <- cache_save_all c a; cache_save_all c' b).
Proof.
  induction a as [|r a IH]; intros b c; [reflexivity|]. cbn [app cache_save_all]. destruct (cache_save c r); cbn [bind]; auto.
Qed.

(** The elements of [l] at the positions [perm]. *)
Definition pick {A : Type} (l : list A) (perm : list nat) : list A :=
  flat_map (fun i => match nth_error l i with Some e => [e] | None => [] end) perm.
Lemma pick_nth : forall (A : Type) (l : list A) perm j, Forall (fun i => i < length l) perm ->
  nth_error (pick l perm) j = match nth_error perm j with Some i => nth_error l i | None => None end.
Proof.
  intros A l perm j H. revert j. induction H as [|i perm H F IH]; intros j; [destruct j; reflexivity|].
  unfold pick in *. cbn [flat_map]. destruct (nth_error l i) as [e|] eqn:E; [|apply nth_error_None in E; lia].
  destruct j as [|j]; cbn [app nth_error]; [congruence|apply IH].
Qed.
Lemma pick_map : forall (A B : Type) (g : A -> B) (l : list A) d perm, Forall (fun i => i < length l) perm ->
  map (fun i => nth i (map g l) d) perm = map g (pick l perm).
Proof.
  intros A B g l d perm H. induction H as [|i perm H F IH]; [reflexivity|]. unfold pick in *. cbn [map flat_map].
  destruct (nth_error l i) as [e|] eqn:E; [|apply nth_error_None in E; lia]. cbn [app map]. rewrite <- IH. f_equal.
  apply nth_error_nth. rewrite nth_error_map, E. reflexivity.
Qed.
Lemma pick_all : forall (A : Type) (l : list A), pick l (seq 0 (length l)) = l.
Proof.
  intros A l. apply nth_error_ext. intros j. rewrite pick_nth; [|apply Forall_forall; intros i I; apply in_seq in I; lia].
  destruct (Nat.ltb_spec j (length l)) as [G|G].
  - rewrite (nth_error_nth' _ 0) by (rewrite seq_length; exact G). rewrite seq_nth by exact G. reflexivity.
  - replace (nth_error (seq 0 (length l)) j) with (@None nat) by (symmetry; apply nth_error_None; rewrite seq_length; exact G).
    symmetry. apply nth_error_None. exact G.
Qed.

Lemma nth_lt : forall (A : Type) (l : list A) k x, nth_error l k = Some x -> k < length l.
Proof. intros A l k x E. apply nth_error_Some. rewrite E. discriminate. Qed.

Section Run.
Variable Item : Type.
Variable eqb : Item -> Item -> bool.
Variables (simple_eval blind : Item -> bytes) (evaluate finalize : bytes -> bytes) (cl pl : nat).
Hypothesis eqb_spec : forall x y, eqb x y = true <-> x = y.
Hypothesis cl_pos : 0 < cl.
Hypothesis cl_max : cl < max_cipher.
Hypothesis pl_pos : 0 < pl.
Hypothesis eval_len : forall x, length (simple_eval x) = cl.
Hypothesis blind_len : forall x, length (blind x) = pl.
Hypothesis evaluate_len : forall x, length (evaluate (blind x)) = pl.
Hypothesis oprf : forall x, finalize (evaluate (blind x)) = simple_eval x.

Definition rec_of (e : sentry Item) : crec :=
  mk_crec (N.of_nat (snd (fst e))) (N.of_nat (snd e)) (snd (fst (fst e))) (simple_eval (fst (fst (fst e)))).
Lemma batch_recs_spec : forall b, batch_recs Item simple_eval cl b = map rec_of b.
Proof using eval_len.
  clear - eval_len. intros b. unfold batch_recs. apply nth_error_ext. intros i. rewrite !nth_error_map, number_nth_err.
  destruct (nth_error b i) as [e|] eqn:E; [|reflexivity]. cbn [option_map fst snd Nat.add]. unfold rec_of. do 2 f_equal.
  set (F := map (fun e : sentry Item => simple_eval (fst (fst (fst e)))) b).
  assert (HF : Forall (fun x => length x = cl) F) by (apply Forall_map; apply Forall_forall; intros; apply eval_len).
  rewrite fixed_skipn by exact HF. replace cl with (1 * cl) at 1 by lia. rewrite fixed_firstn by (apply Forall_skipn; exact HF).
  assert (EF : nth_error F i = Some (simple_eval (fst (fst (fst e))))) by (unfold F; rewrite nth_error_map, E; reflexivity).
  apply nth_error_split in EF. destruct EF as (l1 & l2 & EF & <-). rewrite EF.
  rewrite skipn_app, skipn_all, Nat.sub_diag. cbn [skipn app firstn concat]. apply app_nil_r.
Qed.
Lemma gen_cache_spec : forall priv (B : list (list (sentry Item))),
  gen_cache Item simple_eval cl priv B = (do c <- cache_open cl priv; cache_save_all c (map rec_of (concat B))).
Proof using eval_len.
  clear - eval_len. intros priv B. unfold gen_cache. destruct (cache_open cl priv) as [c| | |]; try reflexivity. cbn [bind].
  assert (G : forall oc, fold_left (fun oc b => do c' <- oc; cache_save_all c' (batch_recs Item simple_eval cl b)) B oc =
              (do c' <- oc; cache_save_all c' (map rec_of (concat B)))); [|apply G].
  induction B as [|b B IH]; intros oc.
  - cbn. destruct oc; reflexivity.
  - cbn [fold_left concat]. rewrite IH. rewrite batch_recs_spec, map_app. destruct oc as [c'| | |]; cbn [bind]; try reflexivity.
    rewrite save_all_app. reflexivity.
Qed.

Lemma blinded_cut : forall (b : list (Item * N)),
  cut pl (concat (map (fun e => blind (fst e)) b)) = Ok (map (fun e => blind (fst e)) b).
Proof using pl_pos blind_len.
  clear - pl_pos blind_len. intros b. apply cut_concat; [exact pl_pos|]. apply Forall_map. apply Forall_forall. intros. apply blind_len.
Qed.
Lemma serve_plain_spec : forall sg (client : list (list (Item * N))) pre c,
  exists c', serve_plain evaluate pl c (map (blind_msg Item blind sg) client) =
      Ok (count_end c', map (fun b => (concat b, [])) (map (map (fun e => evaluate (blind (fst e)))) client)) /\
    (sg = true -> counted Item pre c -> (N.of_nat (length (pre ++ concat client)) < max32)%N -> counted Item (pre ++ concat client) c').
Proof using pl_pos blind_len.
  clear - pl_pos blind_len. intros sg. induction client as [|b client IH]; intros pre c.
  - exists c. split; [reflexivity|]. intros _ H _. cbn [concat]. rewrite app_nil_r. exact H.
  - cbn [map serve_plain]. unfold blind_msg at 1. rewrite blinded_cut. cbn [bind]. rewrite map_length.
    destruct (IH (pre ++ b) (count_batch c (length b) (if sg then dups_of b else []))) as (c' & E & HC). rewrite E. cbn [bind].
    exists c'. split; [cbn [map]; rewrite map_map; reflexivity|]. intros -> H HL. cbn [concat] in *. rewrite app_assoc in *. apply HC; [reflexivity| |exact HL].
    apply count_batch_spec; [exact H|]. rewrite app_length in *. rewrite app_length in HL. lia.
Qed.
Lemma serve_collect_spec : forall sg (client : list (list (Item * N))) pre c,
  exists c', serve_collect evaluate pl c (map (blind_msg Item blind sg) client) =
      Ok (count_end c', map (fun e => evaluate (blind (fst e))) (concat client)) /\
    (sg = true -> counted Item pre c -> (N.of_nat (length (pre ++ concat client)) < max32)%N -> counted Item (pre ++ concat client) c').
Proof using pl_pos blind_len.
  clear - pl_pos blind_len. intros sg. induction client as [|b client IH]; intros pre c.
  - exists c. split; [reflexivity|]. intros _ H _. cbn [concat]. rewrite app_nil_r. exact H.
  - cbn [map serve_collect]. unfold blind_msg at 1. rewrite blinded_cut. cbn [bind]. rewrite map_length.
    destruct (IH (pre ++ b) (count_batch c (length b) (if sg then dups_of b else []))) as (c' & E & HC). rewrite E. cbn [bind].
    exists c'. split; [cbn [concat]; rewrite map_app, map_map; reflexivity|]. intros -> H HL. cbn [concat] in *. rewrite app_assoc in *. apply HC; [reflexivity| |exact HL].
    apply count_batch_spec; [exact H|]. rewrite app_length in *. rewrite app_length in HL. lia.
Qed.
Lemma counted_start : counted Item [] (mk_pinfo 0 0 []).
Proof using. clear. split; [reflexivity|]. split; [reflexivity|]. intros k v. split; [intros []|]. intros (_ & i & x & _ & E). destruct i; discriminate. Qed.

(** What the client saves, and the server's counters, in both modes. *)
Definition good_shuffle (n : nat) (shuffle : option (list nat)) : Prop :=
  match shuffle with None => True | Some perm => Permutation perm (seq 0 n) end.
Lemma served : forall bs shuffle sg (client : list (list (Item * N))),
  0 < bs -> good_shuffle (length (concat client)) shuffle -> (N.of_nat (length (concat client)) < max32)%N ->
  exists info ev cli',
    match shuffle with
    | None => serve_plain evaluate pl (mk_pinfo 0 0 []) (map (blind_msg Item blind sg) client)
    | Some perm => serve_shuffled evaluate pl bs perm (map (blind_msg Item blind sg) client)
    end = Ok (info, ev) /\
    recv_into pl finalize ev = Ok (map (fun e => (simple_eval (fst e), 0%N)) cli') /\
    Permutation cli' (concat client) /\ (shuffle = None -> cli' = concat client) /\
    (sg = true -> pi_total info = total_rows Item (concat client) /\
       forall i e, nth_error cli' i = Some e -> map_at (pi_dup info) (N.of_nat i) = snd e).
Proof using pl_pos blind_len evaluate_len oprf.
  clear - pl_pos blind_len evaluate_len oprf. intros bs shuffle sg client HB HS HL. destruct shuffle as [perm|].
  - unfold serve_shuffled. destruct (serve_collect_spec sg client [] (mk_pinfo 0 0 [])) as (c' & E & HC). cbn [app] in HC.
    rewrite E. cbn [bind].
    set (cli := concat client) in *. cbn [good_shuffle] in HS.
    assert (HP : Forall (fun i => i < length cli) perm).
    { apply Forall_forall. intros i I. apply (Permutation_in _ HS) in I. apply in_seq in I. lia. }
    eexists _, _, (pick cli perm). split; [reflexivity|]. split; [|split; [|split]].
    + rewrite (pick_map _ _ _ cli) by exact HP. rewrite recv_plain.
      * rewrite chunks_concat by exact HB. rewrite map_map. f_equal. apply map_ext. intros e. rewrite oprf. reflexivity.
      * exact pl_pos.
      * apply Forall_forall. intros b Ib. apply Forall_forall. intros x Ix.
        assert (I : In x (concat (chunks bs (map (fun e => evaluate (blind (fst e))) (pick cli perm))))) by (apply in_concat; eauto).
        rewrite chunks_concat in I by exact HB. apply in_map_iff in I. destruct I as (e & <- & _). apply evaluate_len.
    + rewrite <- (pick_all _ cli) at 2. unfold pick. apply Permutation_flat_map. exact HS.
    + discriminate.
    + intros ->. specialize (HC eq_refl counted_start HL). cbn [pi_total pi_dup]. split; [apply total_end; exact HC|].
      intros i e Ei. rewrite pick_nth in Ei by exact HP. destruct (nth_error perm i) as [j|] eqn:Ej; [|discriminate].
      assert (Hj : j < length cli) by (apply nth_error_Some; congruence).
      assert (Hi : i < length cli). { rewrite <- (seq_length (length cli) 0), <- (Permutation_length HS). apply nth_error_Some. congruence. }
      assert (EJ : map_at (pi_dup (count_end c')) (u32 (N.of_nat j)) = snd e).
      { rewrite u32_small by lia. cbn [count_end pi_dup]. destruct e as [x d]. apply (counted_at Item cli c' j x d HC Ei). }
      unfold map_at at 1. rewrite (map_find_in _ (snd e)); [reflexivity| |].
      * intros w I. apply in_rev in I. apply in_map_iff in I. destruct I as ([i' j'] & Q & I). cbn [fst snd] in Q.
        apply number_in in I. destruct I as (_ & I). rewrite Nat.sub_0_r in I.
        assert (i' < length cli). { rewrite <- (seq_length (length cli) 0), <- (Permutation_length HS). apply nth_error_Some. congruence. }
        inversion Q as [[Q1 Q2]]. rewrite u32_small in Q1 by lia. apply Nat2N.inj in Q1. subst i'. rewrite Ej in I. inversion I; subst j'. exact EJ.
      * apply -> in_rev. apply in_map_iff. exists (i, j). cbn [fst snd]. split; [rewrite EJ, u32_small by lia; reflexivity|].
        apply number_in. split; [lia|]. rewrite Nat.sub_0_r. exact Ej.
  - destruct (serve_plain_spec sg client [] (mk_pinfo 0 0 [])) as (c' & E & HC). cbn [app] in HC. rewrite E.
    eexists _, _, (concat client). split; [reflexivity|]. split; [|split; [reflexivity|split; [reflexivity|]]].
    + rewrite recv_plain; [|exact pl_pos|].
      * f_equal. rewrite <- concat_map, map_map. apply map_ext. intros e. rewrite oprf. reflexivity.
      * apply Forall_map. apply Forall_forall. intros b _. apply Forall_map. apply Forall_forall. intros e _. apply evaluate_len.
    + intros ->. specialize (HC eq_refl counted_start HL). split; [apply total_end; exact HC|].
      intros i [x d] Ei. cbn [count_end pi_dup]. apply (counted_at Item _ c' i x d HC Ei).
Qed.

(** ** Offline *)
Section Tables.
Variable src : list (raw_batch Item).
Let srv := concat (map (rb_items Item) src).
Hypothesis src_ok : Forall (fun b => rb_items Item b <> [] /\ Permutation (rb_left Item b) (seq 0 (length (rb_items Item b)))) src.
Hypothesis srv_cnt : (N.of_nat (length srv) < max32)%N.
Hypothesis srv_dup : Forall (fun e => (snd e < max32)%N) srv.

Lemma pass_recs_ok : forall es, shuffled_pass srv es -> Forall (rec_ok cl) (map rec_of es) /\ length es = length srv.
Proof using srv_cnt srv_dup eval_len.
  clear - srv_cnt srv_dup eval_len. intros es (A & B & C).
  assert (LE : length es = length srv) by (apply (f_equal (@length nat)) in A; rewrite map_length, seq_length in A; exact A).
  split; [|exact LE]. apply Forall_map. apply Forall_forall. intros e I. unfold rec_ok, rec_of. cbn [cr_data cr_origin cr_shuffle cr_dup].
  rewrite Forall_forall in C. specialize (C e I). split; [apply eval_len|].
  assert (K : In (snd (fst e)) (seq 0 (length srv))) by (rewrite <- A; apply (in_map (fun e : sentry Item => snd (fst e))); exact I).
  apply in_seq in K. assert (O : snd e < length srv) by (apply nth_error_Some; congruence).
  split; [lia|]. split; [lia|]. rewrite Forall_forall in srv_dup. apply srv_dup. apply nth_error_In in C. exact C.
Qed.

Lemma offline_spec : forall priv moved bsg bst, 0 < bsg -> 0 < bst ->
  exists es c d, shuffled_pass srv es /\
    offline_server Item simple_eval cl priv bsg moved src = Ok c /\
    offline_transfer cl bst c = Ok d /\
    (forall bs, 0 < bs -> exists B, cache_batches bs c = Ok B /\ concat B = map rec_of es) /\
    (forall bs, 0 < bs -> exists B, open_and_read cl bs d = Ok (peer_rows (map (fun r => (cr_data r, cr_dup r)) (map rec_of es)), B) /\
       concat B = map (fun r => (cr_data r, cr_dup r)) (map rec_of es) /\ Forall (fun b => b <> []) B).
Proof using src_ok srv_cnt srv_dup eval_len cl_max cl_pos. clear - src_ok srv_cnt srv_dup eval_len cl_max cl_pos.
  intros priv moved bsg bst HG HT.
  destruct (full_pass Item moved src bsg HG src_ok) as (B & EB & PB & _ & _). fold srv in PB.
  destruct (pass_recs_ok _ PB) as (OK & LE). set (rs := map rec_of (concat B)) in *.
  assert (LR : length rs = length srv) by (unfold rs; rewrite map_length; exact LE).
  assert (CR : forall bs, 0 < bs -> exists c Bs, (do c0 <- cache_open cl priv; cache_save_all c0 rs) = Ok c /\ cache_batches bs c = Ok Bs /\ concat Bs = rs).
  { intros bs Hbs. destruct (C37_round_trip cl priv rs bs cl_max Hbs OK ltac:(rewrite LR; exact srv_cnt)) as (c & p & Bs & E1 & E2 & _ & _ & E3 & E4 & _).
    exists c, Bs. split; [exact E1|]. split; [|exact E4]. unfold cache_batches. rewrite E2. cbn [bind].
    replace (S (N.to_nat (ca_cnt c))) with (S (length rs)); [exact E3|]. f_equal.
    unfold cache_open in E1. destruct (Nat.ltb cl max_cipher); [|discriminate]. cbn [enforce bind] in E1.
    rewrite save_all_spec in E1 by exact OK. inversion E1. cbn [ca_cnt]. lia. }
  destruct (CR 1 ltac:(lia)) as (c & _ & EC & _). exists (concat B), c.
  assert (CR' : forall bs, 0 < bs -> exists Bs, cache_batches bs c = Ok Bs /\ concat Bs = rs).
  { intros bs Hbs. destruct (CR bs Hbs) as (c' & Bs & E1 & E2 & E3). rewrite EC in E1. inversion E1; subst c'. eauto. }
  destruct (CR' bst HT) as (Bt & ET & CT).
  set (its := map (fun r => (cr_data r, cr_dup r)) rs).
  assert (IO : Forall (item_ok cl) its).
  { apply Forall_map. eapply Forall_impl; [|exact OK]. intros r (H1 & _ & _ & H2). split; assumption. }
  destruct (session_fresh cl its ltac:(lia) IO) as (d & ED & HD).
  exists d. split; [exact PB|]. split; [|split; [|split]].
  - unfold offline_server. rewrite EB. cbn [bind]. rewrite gen_cache_spec. exact EC.
  - unfold offline_transfer. rewrite ET. cbn [bind]. rewrite recv_cache_msgs; [|exact cl_pos|].
    + cbn [bind]. rewrite CT. exact ED.
    + apply Forall_forall. intros b Ib. apply Forall_forall. intros r Ir.
      assert (I : In r rs) by (rewrite <- CT; apply in_concat; eauto). rewrite Forall_forall in OK. apply (OK r I).
  - exact CR'.
  - intros bs Hbs. destruct (contents_holds cl bs its d Hbs ltac:(lia) IO HD) as (Bc & R1 & R2 & R3). exists Bc.
    split; [exact R1|]. split; [exact R2|]. eapply Forall_impl; [|exact R3]. intros [|x b] [H _]; [cbn in H; lia|discriminate].
Qed.

(** ** Matching *)
Variable cli cli' : list (Item * N).
Variable es : list (sentry Item).
Hypothesis pass : shuffled_pass srv es.
Hypothesis perm' : Permutation cli' cli.
Hypothesis srv_nodup : NoDup (map fst srv).
Hypothesis cli_nodup : NoDup (map fst cli).
Hypothesis inj : forall x y, In x (map fst srv ++ map fst cli) -> In y (map fst srv ++ map fst cli) -> simple_eval x = simple_eval y -> x = y.
Let saved := map (fun e => (simple_eval (fst e), 0%N)) cli'.
Let peer := map (fun r => (cr_data r, cr_dup r)) (map rec_of es).

Lemma in_cli' : forall e, In e cli' -> In (fst e) (map fst srv ++ map fst cli).
Proof using perm'. clear - perm'. intros e I. apply in_or_app. right. apply in_map. exact (Permutation_in _ perm' I). Qed.
Lemma in_srv' : forall e, In e srv -> In (fst e) (map fst srv ++ map fst cli).
Proof using. intros e I. apply in_or_app. left. apply in_map. exact I. Qed.
Lemma es_srv : forall e, In e es -> nth_error srv (snd e) = Some (fst (fst e)).
Proof using pass. clear - pass. destruct pass as (_ & _ & C). rewrite Forall_forall in C. exact C. Qed.
Lemma es_all : forall o x, nth_error srv o = Some x -> exists k e, nth_error es k = Some e /\ snd e = o /\ snd (fst e) = k /\ fst (fst e) = x.
Proof using pass. clear - pass.
  intros o x E. destruct pass as (A & B & C).
  assert (I : In o (map snd es)).
  { apply (Permutation_in _ (Permutation_sym B)). apply in_seq. split; [lia|]. cbn. apply nth_error_Some. congruence. }
  apply in_map_iff in I. destruct I as (e & <- & I). apply In_nth_error in I. destruct I as (k & I). change (nth_error es k = Some e) in I. exists k, e. split; [exact I|].
  split; [reflexivity|].
  assert (LE : length es = length srv) by (apply (f_equal (@length nat)) in A; rewrite map_length, seq_length in A; exact A).
  assert (HK := nth_lt _ _ _ _ I).
  split.
  - assert (Q : nth_error (map (fun e : sentry Item => snd (fst e)) es) k = nth_error (seq 0 (length srv)) k) by exact (f_equal (fun l => nth_error l k) A).
    rewrite nth_error_map, I in Q. cbn in Q. rewrite (nth_error_nth' _ 0) in Q by (rewrite seq_length; lia). rewrite seq_nth in Q by lia. inversion Q. reflexivity.
  - rewrite Forall_forall in C. assert (Q := C e (nth_error_In _ _ I)). cbv beta in Q. rewrite E in Q. inversion Q. reflexivity.
Qed.
Lemma es_index : forall k e, nth_error es k = Some e -> snd (fst e) = k.
Proof using pass. clear - pass.
  intros k e I. destruct pass as (A & _ & _).
  assert (LE : length es = length srv) by (apply (f_equal (@length nat)) in A; rewrite map_length, seq_length in A; exact A).
  assert (HK := nth_lt _ _ _ _ I).
  assert (Q : nth_error (map (fun e : sentry Item => snd (fst e)) es) k = nth_error (seq 0 (length srv)) k) by exact (f_equal (fun l => nth_error l k) A).
  rewrite nth_error_map, I in Q. cbn in Q. rewrite (nth_error_nth' _ 0) in Q by (rewrite seq_length; lia). rewrite seq_nth in Q by lia. inversion Q. reflexivity.
Qed.
Lemma nodup_pos : forall (l : list (Item * N)) i j x a b, NoDup (map fst l) -> nth_error l i = Some (x, a) -> nth_error l j = Some (x, b) -> i = j.
Proof using.
  clear. intros l i j x a b N E F. eapply (proj1 (NoDup_nth_error (map fst l)) N); [apply nth_error_Some|]; rewrite !nth_error_map, ?E, ?F; cbn; congruence.
Qed.
Lemma es_same : forall k l e f, nth_error es k = Some e -> nth_error es l = Some f -> fst (fst (fst e)) = fst (fst (fst f)) -> k = l.
Proof using pass srv_nodup. clear - pass srv_nodup.
  intros k l e f E F H.
  assert (SE := es_srv e (nth_error_In _ _ E)). assert (SF := es_srv f (nth_error_In _ _ F)).
  destruct (fst (fst e)) as [x a] eqn:Xe. destruct (fst (fst f)) as [y b] eqn:Xf. cbn [fst] in H. subst y.
  assert (O := nodup_pos srv _ _ x a b srv_nodup SE SF).
  destruct pass as (_ & B & _).
  assert (N : NoDup (map (fun e : sentry Item => snd e) es)) by (apply (Permutation_NoDup (Permutation_sym B)); apply seq_NoDup).
  apply (proj1 (NoDup_nth_error _) N); [rewrite map_length; exact (nth_lt _ _ _ _ E)|]. rewrite !nth_error_map, E, F. cbn [option_map]. rewrite O. reflexivity.
Qed.
Lemma cli'_nodup : NoDup (map fst cli').
Proof using cli_nodup perm'. clear - cli_nodup perm'. apply (Permutation_NoDup (Permutation_map fst (Permutation_sym perm'))). exact cli_nodup. Qed.
Lemma saved_nodup : NoDup (map fst saved).
Proof using cli_nodup perm' inj. clear - cli_nodup perm' inj.
  unfold saved. rewrite map_map. cbn [fst]. rewrite <- (map_map fst simple_eval). apply nodup_map_inj; [|exact cli'_nodup].
  intros a b Ia Ib. apply in_map_iff in Ia. apply in_map_iff in Ib. destruct Ia as (ea & <- & Ia). destruct Ib as (eb & <- & Ib).
  apply inj; apply in_cli'; assumption.
Qed.

(** The quadruples: client position, cache position. *)
Lemma pairs_in : forall i k sd d, In (i, k, sd, d) (all_pairs saved peer) <->
  sd = 0%N /\ exists j l x c e, i = N.of_nat j /\ k = N.of_nat l /\ nth_error cli' j = Some (x, c) /\ nth_error es l = Some e /\ fst (fst e) = (x, d).
Proof using cli_nodup perm' inj pass. clear - cli_nodup perm' inj pass.
  intros i k sd d. rewrite all_pairs_in by exact saved_nodup. split.
  - intros (j & l & ct & -> & -> & E & F). unfold saved in E. rewrite nth_error_map in E. unfold peer in F. rewrite !nth_error_map in F.
    destruct (nth_error cli' j) as [[x c]|] eqn:EJ; [|discriminate]. destruct (nth_error es l) as [e|] eqn:EL; [|discriminate].
    cbn in E, F. inversion E; subst. inversion F as [[F1 F2]]. split; [reflexivity|]. exists j, l, x, c, e. repeat split; auto.
    assert (Q : fst (fst (fst e)) = x).
    { apply inj; [|apply (in_cli' (x, c)); eapply nth_error_In; eassumption|exact F1].
      apply (in_srv' (fst (fst e))). eapply nth_error_In. apply es_srv. eapply nth_error_In. eassumption. }
    destruct (fst (fst e)) as [y b]. cbn in *. subst. reflexivity.
  - intros (-> & j & l & x & c & e & -> & -> & E & F & G). exists j, l, (simple_eval x). split; [reflexivity|]. split; [reflexivity|].
    unfold saved, peer. rewrite !nth_error_map, E, F. cbn. rewrite G. split; reflexivity.
Qed.

Lemma joined_in : forall (self other : list (Item * N)) o d, NoDup (map fst other) ->
  (In (o, d) (joined Item eqb self other) <-> exists j x a, o = N.of_nat j /\ nth_error self j = Some (x, a) /\ In (x, d) other).
Proof using eqb_spec.
  clear - eqb_spec. intros self other o d N. unfold joined. rewrite in_flat_map. split.
  - intros ([j [x a]] & I & J). apply number_in in I. destruct I as (_ & I). rewrite Nat.sub_0_r in I. cbn [fst snd] in J.
    destruct (find _ other) as [[y b]|] eqn:E; [|destruct J]. destruct J as [J|[]]. inversion J; subst. apply find_some in E.
    destruct E as (E1 & E2). apply eqb_spec in E2. cbn in E2. subst y. cbn. exists j, x, a. auto.
  - intros (j & x & a & -> & E & I). exists (j, (x, a)). split; [apply number_in; split; [lia|rewrite Nat.sub_0_r; exact E]|]. cbn [fst snd].
    destruct (find _ other) as [[y b]|] eqn:F.
    + apply find_some in F. destruct F as (F1 & F2). apply eqb_spec in F2. cbn in F2. subst y. left. cbn. f_equal.
      apply In_nth_error in F1. apply In_nth_error in I. destruct F1 as (p & F1). destruct I as (q & I).
      assert (p = q) by (eapply nodup_pos; eassumption). subst q. congruence.
    + exfalso. apply (find_none _ _ F) in I. cbn in I. assert (eqb x x = true) by (apply eqb_spec; reflexivity). congruence.
Qed.
Lemma joined_keys : forall (self other : list (Item * N)), NoDup (map fst (joined Item eqb self other)).
Proof using.
  clear. intros self other. unfold joined. apply (nodup_flat_key _ _ _ (fun p => N.of_nat (fst p))); [apply number_nodup| |].
  - intros p y I. destruct (find _ other); [|destruct I]. destruct I as [<-|[]]. reflexivity.
  - intros p. destruct (find _ other); cbn; lia.
Qed.

Lemma quads_nodup : NoDup (all_pairs saved peer).
Proof using. eapply NoDup_map_inv. apply all_pairs_keys. Qed.
Lemma client_result : forall quads, Permutation quads (all_pairs saved peer) -> cli' = cli ->
  Permutation (combine (map (fun q : quad => fst (fst (fst q))) quads) (map snd quads)) (joined Item eqb cli srv).
Proof using eqb_spec cli_nodup perm' inj pass srv_nodup. clear - eqb_spec cli_nodup perm' inj pass srv_nodup.
  intros quads PQ EC0. assert (EC : forall j, nth_error cli' j = nth_error cli j) by (rewrite EC0; reflexivity). clear EC0.
  assert (EQ : combine (map (fun q : quad => fst (fst (fst q))) quads) (map snd quads) = map (fun q : quad => (fst (fst (fst q)), snd q)) quads).
  { clear. induction quads as [|q r IH]; [reflexivity|]. cbn. rewrite IH. reflexivity. }
  rewrite EQ. clear EQ.
  transitivity (map (fun q : quad => (fst (fst (fst q)), snd q)) (all_pairs saved peer)); [apply Permutation_map; exact PQ|].
  apply NoDup_Permutation.
  - apply nodup_map_inj; [|apply quads_nodup]. intros [[[i k] sd] d] [[[i' k'] sd'] d'] I I' Q. cbn in Q. inversion Q; subst.
    apply pairs_in in I. apply pairs_in in I'. destruct I as (-> & j & l & x & c & e & E1 & -> & E3 & E4 & E5).
    destruct I' as (-> & j' & l' & x' & c' & e' & E1' & -> & E3' & E4' & E5'). rewrite E1 in E1'. apply Nat2N.inj in E1'. subst j'.
    rewrite E3 in E3'. inversion E3'; subst x' c'. assert (l = l') by (eapply es_same; [exact E4|exact E4'|rewrite E5, E5'; reflexivity]).
    subst l'. reflexivity.
  - eapply NoDup_map_inv. apply joined_keys.
  - intros [i d]. rewrite in_map_iff, joined_in by exact srv_nodup. split.
    + intros ([[[i' k] sd] d'] & Q & I). cbn in Q. inversion Q; subst. apply pairs_in in I.
      destruct I as (-> & j & l & x & c & e & E1 & -> & E3 & E4 & E5). exists j, x, c. split; [exact E1|]. rewrite <- EC. split; [exact E3|].
      rewrite <- E5. eapply nth_error_In. apply es_srv. eapply nth_error_In. exact E4.
    + intros (j & x & a & -> & E & I). apply In_nth_error in I. destruct I as (o & I). destruct (es_all o _ I) as (k & e & F1 & _ & _ & F4).
      exists (N.of_nat j, N.of_nat k, 0%N, d). split; [reflexivity|]. apply pairs_in. split; [reflexivity|].
      exists j, k, x, a, e. rewrite EC. auto.
Qed.

Lemma server_result : forall quads info, Permutation quads (all_pairs saved peer) ->
  (forall i e, nth_error cli' i = Some e -> map_at (pi_dup info) (N.of_nat i) = snd e) ->
  Permutation (rows_of_cache (index_map info (map (fun q : quad => snd (fst (fst q))) quads) (map (fun q : quad => fst (fst (fst q))) quads)) (map rec_of es))
              (joined Item eqb srv cli).
Proof using eqb_spec cli_nodup perm' inj pass srv_nodup. clear - eqb_spec cli_nodup perm' inj pass srv_nodup.
  intros quads info PQ HI. set (m := index_map _ _ _).
  assert (EQ : combine (map (fun q : quad => snd (fst (fst q))) quads) (map (fun q : quad => fst (fst (fst q))) quads) =
               map (fun q : quad => (snd (fst (fst q)), fst (fst (fst q)))) quads).
  { clear. induction quads as [|q r IH]; [reflexivity|]. cbn. rewrite IH. reflexivity. }
  assert (HM : forall l v, In (N.of_nat l, v) m <-> exists x d e, nth_error es l = Some e /\ fst (fst e) = (x, d) /\ In (x, v) cli').
  { intros l v. unfold m, index_map. rewrite <- in_rev, EQ, map_map, in_map_iff. cbn [fst snd]. split.
    - intros ([[[i k] sd] d] & Q & I). cbn [fst snd] in Q. apply (Permutation_in _ PQ) in I. apply pairs_in in I.
      destruct I as (-> & j & l' & x & c & e & -> & -> & E3 & E4 & E5). rewrite (HI _ _ E3) in Q. cbn in Q. inversion Q as [[Q1 Q2]].
      apply Nat2N.inj in Q1. subst l'. exists x, d, e. split; [exact E4|]. split; [exact E5|]. subst v. eapply nth_error_In. exact E3.
    - intros (x & d & e & E & F & I). apply In_nth_error in I. destruct I as (j & I).
      exists (N.of_nat j, N.of_nat l, 0%N, d). cbn [fst snd]. split; [rewrite (HI _ _ I); reflexivity|].
      apply (Permutation_in _ (Permutation_sym PQ)). apply pairs_in. split; [reflexivity|]. exists j, l, x, v, e. auto. }
  assert (HF : forall l v, map_find (N.of_nat l) m = Some v <-> exists x d e, nth_error es l = Some e /\ fst (fst e) = (x, d) /\ In (x, v) cli').
  { intros l v. split; [intros H; apply HM; apply map_find_some; exact H|]. intros H. apply map_find_in; [|apply HM; exact H].
    intros w I. apply HM in I. destruct H as (x & d & e & E & F & I1). destruct I as (x' & d' & e' & E' & F' & I2).
    rewrite E in E'. inversion E'; subst e'. rewrite F in F'. inversion F'; subst x' d'.
    apply In_nth_error in I1. apply In_nth_error in I2. destruct I1 as (p & I1). destruct I2 as (q & I2).
    assert (p = q) by (eapply nodup_pos; [exact cli'_nodup|exact I1|exact I2]). subst q. congruence. }
  unfold rows_of_cache. apply NoDup_Permutation.
  - apply (NoDup_map_inv fst). apply (nodup_flat_key _ _ _ cr_shuffle).
    + rewrite map_map. cbn [rec_of cr_shuffle]. rewrite <- (map_map (fun e : sentry Item => snd e) N.of_nat). apply nodup_map_inj; [intros a b _ _; lia|].
      destruct pass as (_ & B & _). apply (Permutation_NoDup (Permutation_sym B)). apply seq_NoDup.
    + intros r y I. destruct (map_find (cr_origin r) m); [|destruct I]. destruct I as [<-|[]]. reflexivity.
    + intros r. destruct (map_find (cr_origin r) m); cbn; lia.
  - eapply NoDup_map_inv. apply joined_keys.
  - intros [o v]. rewrite in_flat_map, joined_in by exact cli_nodup. split.
    + intros (r & I & J). apply in_map_iff in I. destruct I as (e & <- & I). cbn [rec_of cr_origin cr_shuffle] in J.
      destruct (map_find (N.of_nat (snd (fst e))) m) as [w|] eqn:E; [|destruct J]. destruct J as [J|[]]. inversion J; subst.
      apply HF in E. destruct E as (x & d & e' & E1 & E2 & E3).
      apply In_nth_error in I. destruct I as (k & I). assert (K := es_index _ _ I). rewrite K in E1. rewrite I in E1. inversion E1; subst e'.
      exists (snd e), x, d. split; [reflexivity|]. split; [rewrite <- E2; apply es_srv; eapply nth_error_In; exact I|].
      exact (Permutation_in _ perm' E3).
    + intros (j & x & a & -> & E & I). destruct (es_all j _ E) as (k & e & F1 & F2 & F3 & F4).
      exists (rec_of e). split; [apply in_map; eapply nth_error_In; exact F1|]. cbn [rec_of cr_origin cr_shuffle]. rewrite F3.
      assert (Q : map_find (N.of_nat k) m = Some v).
      { apply HF. exists x, a, e. split; [exact F1|]. split; [exact F4|]. exact (Permutation_in _ (Permutation_sym perm') I). }
      rewrite Q, F2. left. reflexivity.
Qed.
Lemma peer_rows_srv : peer_rows peer = total_rows Item srv.
Proof using pass. clear - pass.
  unfold peer_rows, total_rows. f_equal. unfold peer. rewrite map_map. cbn [rec_of cr_data cr_dup].
  assert (P : Permutation (map (fun e : sentry Item => fst (fst e)) es) srv).
  { destruct pass as (_ & B & C). transitivity (pick srv (map snd es)).
    - assert (Q : map (fun e : sentry Item => fst (fst e)) es = pick srv (map snd es)); [|rewrite Q; reflexivity].
      clear - C. unfold pick. induction C as [|e r H F IH]; [reflexivity|]. cbn [map flat_map]. rewrite H, IH. reflexivity.
    - rewrite <- (pick_all _ srv) at 2. apply Permutation_flat_map. exact B. }
  transitivity (fold_right (fun e a => snd e + 1 + a)%N 0%N (map (fun e : sentry Item => fst (fst e)) es)).
  - clear. induction es as [|e r IH]; [reflexivity|]. cbn [map fold_right snd]. rewrite IH. reflexivity.
  - clear - P. induction P; cbn [fold_right]; lia.
Qed.
End Tables.

Lemma whole_run : forall src (client : list (list (Item * N))) priv moved bsg bst bso bsc threads sched shuffle sg,
  let srv := concat (map (rb_items Item) src) in
  let cli := concat client in
  Forall (fun b => rb_items Item b <> [] /\ Permutation (rb_left Item b) (seq 0 (length (rb_items Item b)))) src ->
  (N.of_nat (length srv) < max32)%N -> Forall (fun e => (snd e < max32)%N) srv -> (N.of_nat (length cli) < max32)%N ->
  NoDup (map fst srv) -> NoDup (map fst cli) ->
  (forall x y, In x (map fst srv ++ map fst cli) -> In y (map fst srv ++ map fst cli) -> simple_eval x = simple_eval y -> x = y) ->
  0 < bsg -> 0 < bst -> 0 < bso -> 0 < bsc -> 0 < threads -> (forall i n, valid_schedule n threads (sched i n)) ->
  good_shuffle (length cli) shuffle ->
  exists c d rc rs nc ns,
    offline_server Item simple_eval cl priv bsg moved src = Ok c /\ offline_transfer cl bst c = Ok d /\
    online Item blind evaluate finalize cl pl bso bsc threads sched shuffle sg c d client = Ok ((rc, nc), (rs, ns)) /\
    nc = total_rows Item srv /\ (shuffle = None -> Permutation rc (joined Item eqb cli srv)) /\
    (sg = true -> Permutation rs (joined Item eqb srv cli) /\ ns = total_rows Item cli).
Proof using All.
  intros src client priv moved bsg bst bso bsc threads sched shuffle sg srv cli H1 H2 H3 H4 H5 H6 H7 G1 G2 G3 G4 HT HV HS.
  destruct (offline_spec src H1 H2 H3 priv moved bsg bst G1 G2) as (es & c & d & HP & E1 & E2 & E3 & E4).
  destruct (served bso shuffle sg client G3 HS H4) as (info & ev & cli' & F1 & F2 & F3 & F4 & F5).
  destruct (E3 bso G3) as (Br & R1 & R2). destruct (E4 bsc G4) as (Bc & P1 & P2 & P3).
  set (saved := map (fun e => (simple_eval (fst e), 0%N)) cli') in *.
  set (bs := map (fun p => (snd p, sched (fst p) (length (snd p)))) (number 0 Bc)).
  assert (EB : map fst bs = Bc).
  { unfold bs. rewrite map_map. cbn [fst]. apply nth_error_ext. intros i. rewrite nth_error_map, number_nth_err. destruct (nth_error Bc i); reflexivity. }
  destruct (compute_exact saved threads bs HT) as (quads & Q1 & Q2).
  { rewrite <- EB in P3. rewrite Forall_map in P3. exact P3. }
  { unfold bs. apply Forall_map. apply Forall_forall. intros p _. cbn [fst snd]. apply HV. }
  rewrite EB, P2 in Q2.
  exists c, d. eexists _, _, _, _. split; [exact E1|]. split; [exact E2|]. split.
  { unfold online. rewrite F1. cbn [bind]. rewrite F2. cbn [bind]. rewrite P1. cbn [bind]. fold saved bs. rewrite Q1. cbn [bind]. rewrite R1. cbn [bind]. rewrite R2. reflexivity. }
  split; [apply (peer_rows_srv src es HP)|]. split.
  - intros EN. apply (client_result src cli cli' es HP F3 H5 H6 H7 quads Q2 (F4 EN)).
  - intros Esg. destruct (F5 Esg) as (T1 & T2). split; [|exact T1].
    apply (server_result src cli cli' es HP F3 H5 H6 H7 quads info Q2 T2).
Qed.
End Run.
