(** Lemmas for C79: the whole run. *)
From Coq Require Import List NArith Bool Arith Lia Permutation.
From Verif Require Import Base BaseProofs Text TextProofs StoreModel StoreSpec StoreProofs2 EcdhModel BucketProofs
  ShufModel ShufSpec ShufProofs UbCacheModel UbCacheSpec UbCacheProofs UbCacheProps UbPsiModel UbPsiSpec UbPsiProofs UbPsiProofs2.
From Verif Require Import UbThrModel UbThrSpec UbThrProofs.
Import ListNotations.

Lemma filter_le : forall (A : Type) (f : A -> bool) l, length (filter f l) <= length l.
Proof. intros A f l. induction l as [|x l IH]; cbn; [lia|]. destruct (f x); cbn; lia. Qed.

Lemma forall2_len : forall (A B : Type) (R : A -> B -> Prop) l m, Forall2 R l m -> length l = length m.
Proof. intros A B R l m F. induction F; cbn; congruence. Qed.

Section Run.
Variable Item : Type.
Variable eqb : Item -> Item -> bool.
Variables (simple_eval blind : Item -> bytes) (evaluate finalize : bytes -> bytes) (cl pl : nat).
Hypothesis eqb_spec : forall x y, eqb x y = true <-> x = y.
Hypothesis cl_pos : 0 < cl.
Hypothesis cl_max : cl < max_cipher.
Hypothesis pl_pos : 0 < pl.
Hypothesis eval_len : forall x, length (simple_eval x) = cl.
Hypothesis blind_len : forall x, length (blind x) = pl.
Hypothesis evaluate_len : forall x, length (evaluate (blind x)) = pl.
Hypothesis oprf : forall x, finalize (evaluate (blind x)) = simple_eval x.

(** Client rows: restored positions with the server's counts. *)
Lemma client_rows : forall (srv cli cli' : list (Item * N)) (es : list (sentry Item)) perm (q : list quad) (ks : list Item) r,
  cli' = pick cli perm -> Forall (fun i => i < length cli) perm -> (N.of_nat (length cli) < max32)%N ->
  Forall (fun e => nth_error srv (snd e) = Some (fst (fst e))) es ->
  Forall2 (quad_key Item cli' es) q ks ->
  Forall2 (fun i x => exists j, nth_error perm (N.to_nat i) = Some j /\ x = u32 (N.of_nat j)) (map (fun q : quad => fst (fst (fst q))) q) r ->
  Forall2 (fun x e => stands_at Item cli x (fst e) /\ In (x, snd e) srv) ks (combine r (map snd q)).
Proof.
  clear. intros srv cli cli' es perm q ks r EC HP HL HE FK. revert r. induction FK as [|a x q ks K FK IH]; intros r FR.
  - inversion FR. constructor.
  - cbn [map] in FR. inversion FR as [|? y ? r' (j & Ej & Ey) FR']; subst. cbn [map combine]. constructor; [|apply IH; exact FR'].
    cbn [fst snd]. destruct K as (p & l & c & d & e & -> & E & F & G). cbn [fst snd] in *. rewrite Nat2N.id in Ej. split.
    + rewrite pick_nth in E by exact HP. rewrite Ej in E. exists c.
      assert (j < length cli) by (apply nth_error_Some; congruence).
      rewrite u32_small by lia. rewrite Nat2N.id. exact E.
    + rewrite Forall_forall in HE. assert (H := HE e (nth_error_In _ _ F)). cbv beta in H. rewrite G in H. exact (nth_error_In _ _ H).
Qed.

Lemma thr_run : forall src (client : list (list (Item * N))) priv moved bsg bst bso bsc threads sched shuf cg sg th,
  let srv := concat (map (rb_items Item) src) in
  let cli := concat client in
  let common := map fst (rows_with Item eqb (map fst srv) cli) in
  Forall (fun b => rb_items Item b <> [] /\ Permutation (rb_left Item b) (seq 0 (length (rb_items Item b)))) src ->
  (N.of_nat (length srv) < max32)%N -> Forall (fun e => (snd e < max32)%N) srv -> (N.of_nat (length cli) < max32)%N ->
  NoDup (map fst srv) -> NoDup (map fst cli) ->
  (forall x y, In x (map fst srv ++ map fst cli) -> In y (map fst srv ++ map fst cli) -> simple_eval x = simple_eval y -> x = y) ->
  0 < bsg -> 0 < bst -> 0 < bso -> 0 < bsc -> 0 < threads -> (forall i n, valid_schedule n threads (sched i n)) ->
  good_shuf shuf ->
  exists c d sel,
    offline_server Item simple_eval cl priv bsg moved src = Ok c /\ offline_transfer cl bst c = Ok d /\
    NoDup sel /\ incl sel common /\ N.of_nat (length sel) = N.min th (N.of_nat (length common)) /\
    (exists rc rs nc ns,
    (forall th_s, sg = true -> N.min th_s (N.of_nat (length common)) = N.of_nat (length sel) ->
      ubt_online Item blind evaluate finalize cl pl bso bsc threads sched shuf cg sg th_s th c d client =
      Ok (if cg then Some (mk_ubtr rc nc (N.of_nat (length common)) (N.of_nat (length sel))) else None,
          Some (mk_ubtr rs ns (N.of_nat (length common)) (N.of_nat (length sel))))) /\
    (forall th_s, sg = true -> N.min th_s (N.of_nat (length common)) <> N.of_nat (length sel) ->
      ubt_online Item blind evaluate finalize cl pl bso bsc threads sched shuf cg sg th_s th c d client = Throw) /\
    (forall th_s, sg = false ->
      ubt_online Item blind evaluate finalize cl pl bso bsc threads sched shuf cg sg th_s th c d client =
      Ok (if cg then Some (mk_ubtr rc nc (N.of_nat (length common)) (N.of_nat (length sel))) else None, None)) /\
    (cg = true -> nc = total_rows Item srv /\ Forall2 (fun x e => stands_at Item cli x (fst e) /\ In (x, snd e) srv) sel rc) /\
    (sg = true -> ns = total_rows Item cli /\ Permutation rs (joined Item eqb srv (rows_with Item eqb sel cli)))).
Proof using All.
  intros src client priv moved bsg bst bso bsc threads sched shuf cg sg th srv cli common H1 H2 H3 H4 H5 H6 H7 G1 G2 G3 G4 HT HV HS.
  destruct (offline_spec Item simple_eval cl cl_pos cl_max eval_len src H1 H2 H3 priv moved bsg bst G1 G2) as (es & c & d & HP & E1 & E2 & E3 & E4).
  destruct (served_shuf Item simple_eval blind evaluate finalize pl pl_pos blind_len evaluate_len oprf bso shuf sg client G3 HS H4) as (info & F1 & F2 & F3 & FU & F5).
  fold cli in F1, F2, F3, FU, F5. set (cli' := pick cli (shuf (length cli))) in *. set (ev := map (fun b => (concat b, [])) _) in *.
  destruct (E3 bso G3) as (Br & R1 & R2). destruct (E4 bsc G4) as (Bc & P1 & P2 & P3).
  set (saved := map (fun e => (simple_eval (fst e), 0%N)) cli') in *.
  set (bs := map (fun p => (snd p, sched (fst p) (length (snd p)))) (number 0 Bc)).
  assert (EB : map fst bs = Bc).
  { unfold bs. rewrite map_map. cbn [fst]. apply nth_error_ext. intros i. rewrite nth_error_map, number_nth_err. destruct (nth_error Bc i); reflexivity. }
  destruct (compute_exact saved threads bs HT) as (quads & Q1 & Q2).
  { rewrite <- EB in P3. rewrite Forall_map in P3. exact P3. }
  { unfold bs. apply Forall_map. apply Forall_forall. intros p _. cbn [fst snd]. apply HV. }
  rewrite EB, P2 in Q2.
  destruct (full_selection Item eqb simple_eval eqb_spec src cli cli' es HP F3 H5 H6 H7 quads Q2) as (ks & FK & NQ & NK & PK).
  fold srv common in PK.
  assert (LQ : length quads = length common) by (rewrite (forall2_len _ _ _ _ _ FK); apply Permutation_length; exact PK).
  assert (LC : length common <= length cli).
  { unfold common, rows_with. rewrite map_length. apply filter_le. }
  assert (ER : u32 (N.of_nat (length quads)) = N.of_nat (length common)) by (rewrite LQ; apply u32_small; lia).
  set (n := N.to_nat (N.min th (N.of_nat (length common)))).
  assert (HN : n <= length common) by (unfold n; lia).
  set (q := firstn n quads). set (sel := firstn n ks).
  assert (LS : length sel = n) by (unfold sel; rewrite firstn_length, <- (forall2_len _ _ _ _ _ FK), LQ; lia).
  assert (Lq : length q = n) by (unfold q; rewrite firstn_length, LQ; lia).
  assert (FQ : Forall2 (quad_key Item cli' es) q sel) by (apply forall2_firstn; exact FK).
  assert (LP : length (shuf (length cli)) = length cli) by (rewrite (Permutation_length (HS _)), seq_length; reflexivity).
  assert (HPm : Forall (fun i => i < length cli) (shuf (length cli))).
  { apply Forall_forall. intros i I. apply (Permutation_in _ (HS _)) in I. apply in_seq in I. lia. }
  assert (EN : N.of_nat n = N.min th (N.of_nat (length common))) by (unfold n; lia).
  assert (LC' : length cli' = length cli) by (apply Permutation_length; exact F3).
  destruct (restore_spec (shuf (length cli)) (map (fun q : quad => fst (fst (fst q))) q)) as (r & ER1 & ER2).
  { intros i I. apply in_map_iff in I. destruct I as (a & <- & I). destruct (forall2_in_l _ _ _ _ _ _ FQ I) as (x & _ & j & l & c0 & d0 & e & -> & E & _).
    cbn [fst snd]. rewrite Nat2N.id, LP, <- LC'. exact (nth_lt _ _ _ _ E). }
  assert (LR : length r = n) by (rewrite <- (forall2_len _ _ _ _ _ ER2), map_length; exact Lq).
  assert (EX : ubt_exchange Item blind evaluate finalize cl pl bso bsc threads sched shuf cg sg th d client =
    Ok (info, ev, (peer_rows (map (fun r => (cr_data r, cr_dup r)) (map (rec_of Item simple_eval) es)), N.of_nat (length common), q), if cg then r else [])).
  { unfold ubt_exchange. rewrite F1. cbn [bind]. unfold ubt_match. rewrite F2. cbn [bind]. rewrite P1. cbn [bind]. fold saved bs. rewrite Q1. cbn [bind].
    rewrite ER, FU, Nat2N.id. fold n q. destruct cg; cbn [bind]; [rewrite ER1|]; reflexivity. }
  exists c, d, sel. split; [exact E1|]. split; [exact E2|]. split; [apply nodup_firstn; exact NK|]. split.
  { intros x I. apply (Permutation_in _ PK). exact (in_firstn' _ _ _ _ I). }
  split; [rewrite LS; exact EN|].
  exists (combine r (map snd q)), (rows_of_cache (index_map info (map (fun q : quad => snd (fst (fst q))) q) (map (fun q : quad => fst (fst (fst q))) q)) (map (rec_of Item simple_eval) es)),
    (total_rows Item srv), (pi_total info).
  assert (EE : negb cg || (N.of_nat (length (if cg then r else [])) =? N.min th (N.of_nat (length common)))%N = true).
  { destruct cg; [|reflexivity]. cbn [negb orb]. apply N.eqb_eq. rewrite LR. exact EN. }
  assert (EP : peer_rows (map (fun r => (cr_data r, cr_dup r)) (map (rec_of Item simple_eval) es)) = total_rows Item srv) by (apply (peer_rows_srv Item simple_eval src es HP)).
  assert (L32 : u32 (N.of_nat (length (map (fun q : quad => fst (fst (fst q))) q))) = N.of_nat n).
  { rewrite map_length, Lq. apply u32_small. lia. }
  split; [|split; [|split; [|split]]].
  - intros th_s -> Hth. unfold ubt_online. rewrite EX. cbn [bind]. rewrite EE. cbn [enforce bind]. rewrite L32.
    rewrite (proj2 (N.eqb_eq _ _)) by (rewrite Hth, LS; reflexivity). cbn [enforce]. rewrite R1. cbn [bind]. rewrite R2, EP, LS, <- EN. destruct cg; reflexivity.
  - intros th_s -> Hth. unfold ubt_online. rewrite EX. cbn [bind]. rewrite EE. cbn [enforce bind]. rewrite L32.
    rewrite (proj2 (N.eqb_neq _ _)) by (rewrite LS in Hth; congruence). reflexivity.
  - intros th_s ->. unfold ubt_online. rewrite EX. cbn [bind]. rewrite EE. cbn [enforce bind]. rewrite EP, LS, <- EN. destruct cg; reflexivity.
  - intros _. split; [reflexivity|].
    apply (client_rows srv cli cli' es (shuf (length cli))); try assumption; [reflexivity|]. destruct HP as (_ & _ & C). exact C.
  - intros Esg. destruct (F5 Esg) as (T1 & T2). split; [exact T1|].
    apply (server_rows Item eqb simple_eval eqb_spec src cli cli' es HP F3 H5 H6 H7 q sel info FQ T2).
Qed.
End Run.
