(** The database of several partitions, and the relation to SpSrvSpec. *)
From Coq Require Import List Arith NArith ZArith Bool Lia.
From Verif Require Import Base StoreModel StoreProofs PirPackModel PirPackProofs2 SpArithModel SpArithProofs SpArithProofs2 SpLoopModel SpLoopProofs
  SpGadgetModel SpGadgetSpec SpGadgetProofs SpDecodeModel SpDecodeSpec SpDecodeProofs2 SpRingModel SpRingSpec SpRingProofs SpRingProofs2
  SpSelModel NttModel NttSpec NttProofs NttProofs2 NttProofs3 NttProofs4 NttProofs5 SpSrvModel SpSrvSpec SpSrvProofs1 SpSrvProofs2 SpSrvProofs3 SpSrvProofs4 SpSrvProofs5
  SpSrvProofs6.
Import ListNotations.
Local Open Scope N_scope.
Local Notation zN := Z.of_N.

Lemma get_app_l : forall (A : Type) k (a b : list A), (k < length a)%nat -> get k (a ++ b) = get k a.
Proof. intros A k a b H. unfold get. rewrite nth_error_app1 by exact H. reflexivity. Qed.
Lemma get_app_r : forall (A : Type) k (a b : list A), get (length a + k) (a ++ b) = get k b.
Proof. intros A k a b. unfold get. rewrite nth_error_app2 by lia. replace (length a + k - length a)%nat with k by lia. reflexivity. Qed.
Lemma get_some : forall (A : Type) k (l : list A) x, get k l = Ok x -> (k < length l)%nat.
Proof.
  intros A k l x H. destruct (Nat.lt_ge_cases k (length l)) as [C|C]; [exact C|].
  unfold get in H. rewrite (proj2 (nth_error_None l k) C) in H. discriminate.
Qed.

Section Db.
Variables (avx : bool) (L : nat) (psi : nat -> Z) (NP : ntt_params) (P : sel_params) (inv : N -> N -> N).
Hypothesis HW : srv_ok L psi NP P inv.
Hypothesis Hml : (sp_ml P <= 62)%nat.
Set Default Proof Using "L psi NP P inv HW Hml".
Local Notation n := (2 ^ L)%nat.
Local Notation q := (sp_q P).
Local Notation dbm := (dbm L psi NP P).
Local Notation dim0 := (2 ^ sp_v1 P)%nat.
Local Notation num_per := (2 ^ sp_v2 P)%nat.
Local Notation size := (sp_n P * sp_n P * (dim0 * num_per) * n)%nat.
Hypothesis Hp : (0 < sp_p P <= q)%Z.

Lemma dbm_app_l : forall a b start pol, dbm a start pol -> dbm (a ++ b) start pol.
Proof.
  intros a b start pol H z i j Hz Hi Hj. destruct (H z i j Hz Hi Hj) as (x & E & R). exists x. split; [|exact R].
  rewrite get_app_l by exact (get_some _ _ _ _ E). exact E.
Qed.
Lemma dbm_app_r : forall a b start pol, dbm b start pol -> dbm (a ++ b) (length a + start) pol.
Proof.
  intros a b start pol H z i j Hz Hi Hj. destruct (H z i j Hz Hi Hj) as (x & E & R). exists x. split; [|exact R].
  replace (length a + start + z * (num_per * dim0) + i * dim0 + j)%nat with (length a + (start + z * (num_per * dim0) + i * dim0 + j))%nat by lia.
  rewrite get_app_r. exact E.
Qed.

(** What follows [old] in the words after loading. *)
Lemma set_many_r : forall old parts, Forall (db_ok L P) parts ->
  exists db single, loop (length parts) 0 (fun j '(dbs, single) =>
      do part <- get j parts;
      do tmp <- reorient_database avx NP P part;
      let single := if (j =? 0)%nat then length tmp else single in
      enforce (single =? length tmp)%nat (Ok (dbs ++ tmp, single))) (old, 0%nat) = Ok (old ++ db, single)
    /\ (parts = [] \/ single = size) /\ length db = (length parts * size)%nat
    /\ forall pidx trial, (pidx < length parts)%nat -> (trial < sp_n P * sp_n P)%nat ->
         dbm db (pidx * size + trial * (dim0 * num_per * n)) (db_poly P (pt_of L (nth pidx parts [])) trial).
Proof using HW Hml Hp.
  intros old parts HF.
  destruct (loop_rule (list N * nat) (length parts) 0 (fun j '(dbs, single) =>
      do part <- get j parts;
      do tmp <- reorient_database avx NP P part;
      let single := if (j =? 0)%nat then length tmp else single in
      enforce (single =? length tmp)%nat (Ok (dbs ++ tmp, single)))
    (fun k st => exists db, fst st = old ++ db /\ (k = 0%nat \/ snd st = size) /\ length db = (k * size)%nat
      /\ forall pidx trial, (pidx < k)%nat -> (trial < sp_n P * sp_n P)%nat ->
         dbm db (pidx * size + trial * (dim0 * num_per * n)) (db_poly P (pt_of L (nth pidx parts [])) trial)) (old, 0%nat))
    as ([dbs single] & E & db & E1 & E2 & E3 & E4).
  - exists []. split; [symmetry; apply app_nil_r|]. split; [left; reflexivity|]. split; [reflexivity|]. intros; lia.
  - intros i [dbs single] Hi (db & F1 & F2 & F3 & F4). cbn [fst snd] in F1, F2.
    rewrite (get_lt _ [] i parts) by lia. cbn [bind].
    assert (Hok : db_ok L P (nth i parts [])) by (rewrite Forall_forall in HF; apply HF, nth_In; lia).
    destruct (reorient_database_r avx L psi NP P inv HW Hml Hp (nth i parts []) Hok) as (t & T1 & T2 & T3). rewrite T1. cbn [bind].
    assert (Es : (if (i =? 0)%nat then length t else single) = size).
    { destruct (Nat.eqb_spec i 0); [exact T2|]. destruct F2 as [F2|F2]; [lia|exact F2]. }
    cbv zeta. rewrite Es, T2, Nat.eqb_refl. cbn [enforce]. eexists. split; [reflexivity|]. exists (db ++ t). cbn [fst snd]. replace (i + 1)%nat with (S i) by lia.
    split; [rewrite F1, app_assoc; reflexivity|]. split; [right; reflexivity|]. split; [rewrite app_length, F3, T2; lia|].
    intros pidx trial Hpi Ht. destruct (Nat.lt_ge_cases pidx i) as [C|C]; [apply dbm_app_l, F4; assumption|].
    assert (pidx = i) by lia. subst pidx. rewrite <- F3. apply dbm_app_r. apply T3, Ht.
  - cbn [fst snd] in E1, E2. exists db, single. split; [rewrite E, E1; reflexivity|]. split; [|split; assumption].
    destruct E2 as [E2|E2]; [left; apply length_zero_iff_nil, E2|right; exact E2].
Qed.

Lemma set_database_r : forall parts, Forall (db_ok L P) parts -> (0 < length parts)%nat ->
  exists db single, set_database avx NP P [] parts = Ok (db, single)
    /\ forall pidx trial, (pidx < length parts)%nat -> (trial < sp_n P * sp_n P)%nat ->
         dbm db (pidx * single + trial * (dim0 * num_per * n)) (db_poly P (pt_of L (nth pidx parts [])) trial).
Proof using HW Hml Hp.
  intros parts HF Hl.
  destruct (set_many_r [] parts HF) as (db & single & E & [E1|E1] & E2 & E3); [rewrite E1 in Hl; cbn in Hl; lia|].
  destruct parts as [|part [|x y]]; [cbn in Hl; lia| |].
  - destruct (reorient_database_r avx L psi NP P inv HW Hml Hp part (Forall_inv HF)) as (t & T1 & T2 & T3).
    cbn [set_database]. rewrite T1. cbn [bind]. exists t, (length t). split; [reflexivity|]. intros pidx trial H1 H2. cbn in H1.
    assert (pidx = 0%nat) by lia. subst pidx. apply T3, H2.
  - exists db, single. split; [exact E|]. rewrite E1. exact E3.
Qed.

(** After a second call with several partitions the first one is still what is read. *)
Lemma set_database_again_r : forall parts parts', Forall (db_ok L P) parts -> Forall (db_ok L P) parts' ->
  (1 < length parts)%nat -> length parts' = length parts ->
  exists db single db' , set_database avx NP P [] parts = Ok (db, single) /\ set_database avx NP P db parts' = Ok (db', single)
    /\ forall pidx trial, (pidx < length parts)%nat -> (trial < sp_n P * sp_n P)%nat ->
         dbm db' (pidx * single + trial * (dim0 * num_per * n)) (db_poly P (pt_of L (nth pidx parts [])) trial).
Proof using HW Hml Hp.
  intros parts parts' HF HF' Hl Hl'.
  destruct (set_many_r [] parts HF) as (db & single & E & [E1|E1] & E2 & E3); [rewrite E1 in Hl; cbn in Hl; lia|].
  destruct (set_many_r db parts' HF') as (db' & single' & E' & [E1'|E1'] & E2' & E3'); [rewrite E1' in Hl'; cbn in Hl'; lia|].
  exists db, single, (db ++ db').
  assert (Hs : forall o ps, (1 < length ps)%nat -> set_database avx NP P o ps = loop (length ps) 0 (fun j '(dbs, single) =>
      do part <- get j ps;
      do tmp <- reorient_database avx NP P part;
      let single := if (j =? 0)%nat then length tmp else single in
      enforce (single =? length tmp)%nat (Ok (dbs ++ tmp, single))) (o, 0%nat)).
  { intros o ps H. destruct ps as [|a [|b c]]; [cbn in H; lia|cbn in H; lia|reflexivity]. }
  rewrite (Hs [] parts Hl), (Hs db parts') by lia. split; [exact E|]. split; [rewrite E'; do 2 f_equal; lia|].
  intros pidx trial H1 H2. rewrite E1. apply dbm_app_l, E3; assumption.
Qed.

(** * The notions of SpSrvSpec *)
Lemma nttm_stands : forall rows cols m a, stands_ntt L (np_moduli NP) psi rows cols m a -> nttm L psi NP rows cols m a.
Proof.
  intros rows cols m a (H1 & H2 & H3). apply (nttm_trans _ _ _ _ _ HW). split; [exact H1|]. split; [exact H2|].
  rewrite H1, H2. exact H3.
Qed.
Lemma stands_nttm : forall rows cols m a, nttm L psi NP rows cols m a -> stands_ntt L (np_moduli NP) psi rows cols m a.
Proof.
  intros rows cols m a H. apply (nttm_trans _ _ _ _ _ HW) in H as (H1 & H2 & H3). rewrite H1, H2 in H3.
  split; [exact H1|]. split; [exact H2|exact H3].
Qed.
Lemma rawm_stands : forall rows cols m a, stands_raw L q rows cols m a ->
  exists b, rawm L rows cols m b /\ (forall r c z, (r < rows)%nat -> (c < cols)%nat -> (z < n)%nat -> (b r c z < 2 ^ 64)%Z)
    /\ forall r c, (r < rows)%nat -> (c < cols)%nat -> peq n q (b r c) (a r c).
Proof.
  intros rows cols m a (H1 & H2 & H3 & H4 & H5). exists (fun r c z => zN (nth ((r * cols + c) * n + z) (rm_data m) 0)). split; [|split].
  - split; [split; [exact H1|split; [exact H2|exact H3]]|]. intros r c z Hr Hc Hz. rewrite poly_at_nth by exact Hz. rewrite H2. reflexivity.
  - intros r c z Hr Hc Hz. assert (nth ((r * cols + c) * n + z) (rm_data m) 0 < 2 ^ 64); [|lia].
    rewrite Forall_forall in H4. apply H4, nth_In. rewrite H3. pose proof (idx_lt r c rows cols Hr Hc). nia.
  - intros r c Hr Hc z Hz. apply H5; assumption.
Qed.
End Db.
