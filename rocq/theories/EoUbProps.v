(** C86: the unbalanced PSI of C35 run with the OPRF over an OpenSSL curve. *)
From Coq Require Import List Arith NArith ZArith Bool Lia Permutation Eqdep_dec.
From Verif Require Import Base Text EllModel EllSpec EllProofs2 StoreModel StoreProofs2 JoinSpec ShufModel UbCacheModel UbPsiModel UbPsiSpec UbPsiProofs UbPsiProofs2
  UbPsiProps EoModel EoSpec EoProofs EoProps.
Import ListNotations.

(** The result of a call that returns. *)
Definition get (x : outcome bytes) : bytes := match x with Ok b => b | _ => [] end.
Fixpoint beq (a b : bytes) : bool :=
  match a, b with [], [] => true | x :: a, y :: b => N.eqb x y && beq a b | _, _ => false end.
Lemma beq_ok : forall a b, beq a b = true <-> a = b.
Proof.
  induction a as [|x a IH]; intros [|y b]; cbn [beq]; split; intro H; try discriminate; try reflexivity.
  - apply andb_prop in H. destruct H as (H1 & H2). apply N.eqb_eq in H1. apply IH in H2. subst. reflexivity.
  - injection H as -> ->. rewrite N.eqb_refl. apply IH. reflexivity.
Qed.

Section Ub.
Variable Pt : Type.
Variable infty : Pt.
Variable smul : Z -> Pt -> Pt.
Variable lift : Z -> option Pt.
Variable oct : Pt -> bytes.
Variable unoct : bytes -> option Pt.
Variables p n : Z.
Variable minv : Z -> Z.
Variables sha hash : bytes -> bytes.

(** Items that can be hashed to the curve. *)
Definition hashable (m : bytes) : bool := match eo_hash_to_curve Pt lift p sha m with Ok _ => true | _ => false end.
Definition uitem : Type := { m : bytes | hashable m = true }.
Definition ueqb (x y : uitem) : bool := beq (proj1_sig x) (proj1_sig y).
Definition u_simple (s : eo_server) (x : uitem) : bytes := get (eo_simple_evaluate Pt smul lift oct p n sha hash s (proj1_sig x)).
Definition u_blind (c : eo_client) (x : uitem) : bytes := get (eo_blind Pt smul lift oct p n sha c (proj1_sig x)).
Definition u_evaluate (s : eo_server) (b : bytes) : bytes := get (eo_evaluate Pt infty smul oct unoct n s b).
Definition u_finalize (c : eo_client) (b : bytes) : bytes := get (eo_finalize_simple Pt infty smul oct unoct n hash c b).

Lemma ueqb_ok : forall x y, ueqb x y = true <-> x = y.
Proof.
  intros (x & Hx) (y & Hy). unfold ueqb. cbn [proj1_sig]. rewrite beq_ok. split.
  - intros ->. f_equal. apply UIP_dec. exact bool_dec.
  - intros E. injection E as E. exact E.
Qed.
Hypothesis CO : curve_ok Pt infty smul lift oct unoct p n minv.
Lemma hashable_maps : forall m, hashable m = true -> exists i P, maps_to Pt lift p sha m i P /\ i < 100.
Proof.
  intros m H. assert (G : forall k, (exists i P, maps_to Pt lift p sha m i P /\ i < k) \/ forall i P, maps_to Pt lift p sha m i P -> k <= i).
  { apply (maps_before _ _ _ _ _ _ _ _ _ _ CO). }
  destruct (G 100) as [A|A]; [exact A|]. unfold hashable in H. rewrite (h2c_throw _ _ _ _ _ _ _ _ _ _ CO m A) in H. discriminate.
Qed.

Theorem C86_ub_psi : forall hl k r len s c,
  (forall x, length (hash x) = hl) -> cmp_len len <= hl -> len < 32 -> parties n minv k r len s c -> key_ok n k -> key_ok n r ->
  forall src (client : list (list (uitem * N))) priv moved bsg bst bso bsc threads sched shuffle sg,
  let srv := concat (map (rb_items uitem) src) in
  let cli := concat client in
  Forall (fun b => rb_items uitem b <> [] /\ Permutation (rb_left uitem b) (seq 0 (length (rb_items uitem b)))) src ->
  (N.of_nat (length srv) < max32)%N -> Forall (fun e => (snd e < max32)%N) srv -> (N.of_nat (length cli) < max32)%N ->
  NoDup (map fst srv) -> NoDup (map fst cli) ->
  (forall x y i j P Q, In x (map fst srv ++ map fst cli) -> In y (map fst srv ++ map fst cli) ->
     maps_to Pt lift p sha (proj1_sig x) i P -> i < 100 -> maps_to Pt lift p sha (proj1_sig y) j Q -> j < 100 ->
     prf_simple Pt smul oct n hash k P (cmp_len len) = prf_simple Pt smul oct n hash k Q (cmp_len len) -> x = y) ->
  0 < bsg -> 0 < bst -> 0 < bso -> 0 < bsc -> 0 < threads -> (forall i m, valid_schedule m threads (sched i m)) ->
  good_shuffle (length cli) shuffle ->
  exists ca d rc rs nc ns,
    offline_server uitem (u_simple s) (cmp_len len) priv bsg moved src = Ok ca /\ offline_transfer (cmp_len len) bst ca = Ok d /\
    online uitem (u_blind c) (u_evaluate s) (u_finalize c) (cmp_len len) 33 bso bsc threads sched shuffle sg ca d client = Ok ((rc, nc), (rs, ns)) /\
    nc = total_rows uitem srv /\ (shuffle = None -> Permutation rc (joined uitem ueqb cli srv)) /\
    (sg = true -> Permutation rs (joined uitem ueqb srv cli) /\ ns = total_rows uitem cli).
Proof.
  intros hl k r len s c HL Hle Hlen HP K R src client priv moved bsg bst bso bsc threads sched shuffle sg srv cli H1 H2 H3 H4 H5 H6 HI.
  assert (V : forall x : uitem, exists i P, maps_to Pt lift p sha (proj1_sig x) i P /\ i < 100 /\ length (u_blind c x) = 33 /\ length (u_evaluate s (u_blind c x)) = 33
            /\ u_simple s x = prf_simple Pt smul oct n hash k P (cmp_len len) /\ u_finalize c (u_evaluate s (u_blind c x)) = u_simple s x).
  { intros (m & Hm). cbn [proj1_sig]. destruct (hashable_maps m Hm) as (i & P & HM & Hi). exists i, P. split; [exact HM|]. split; [exact Hi|].
    destruct (C86_values _ _ _ _ _ _ _ _ _ _ _ CO hl k r len s c m i P HL Hle HP K R HM Hi) as (_ & E & b & e & E1 & E2 & _ & E4).
    unfold u_blind, u_simple, u_finalize. cbn [proj1_sig]. unfold u_evaluate. rewrite E1. cbn [get]. rewrite E2. cbn [get]. rewrite E4, E. cbn [get].
    assert (T : forall sk b v, eo_point_mul Pt infty smul oct unoct n sk b = Ok v -> length v = 33).
    { intros sk b0 v. unfold eo_point_mul, eo_to_bytes, enforce. cbv zeta. destruct (Nat.eqb _ eo_key_size); [|discriminate].
      destruct (Nat.eqb _ eo_point_size) eqn:Q; [|discriminate]. intros W. injection W as <-. apply Nat.eqb_eq in Q. exact Q. }
    split; [|split; [exact (T _ _ _ E2)|split; reflexivity]].
    unfold eo_blind, eo_item_mul, enforce in E1. destruct (Nat.eqb _ eo_key_size); [|discriminate].
    destruct (eo_hash_to_curve Pt lift p sha m); cbn [bind] in E1; try discriminate. unfold eo_to_bytes, enforce in E1.
    destruct (Nat.eqb _ eo_point_size) eqn:Q; [|discriminate]. injection E1 as <-. apply Nat.eqb_eq in Q. exact Q. }
  apply (C35_both_sides uitem ueqb (u_simple s) (u_blind c) (u_evaluate s) (u_finalize c) (cmp_len len) 33); try assumption.
  - exact ueqb_ok.
  - unfold max_cipher, cmp_len. destruct (Nat.eqb_spec len 0); lia.
  - lia.
  - intro x. destruct (V x) as (i & P & _ & _ & _ & _ & -> & _). unfold prf_simple. rewrite firstn_length, HL. lia.
  - intro x. destruct (V x) as (i & P & _ & _ & -> & _). reflexivity.
  - intro x. destruct (V x) as (i & P & _ & _ & _ & -> & _). reflexivity.
  - intro x. destruct (V x) as (i & P & _ & _ & _ & _ & _ & ->). reflexivity.
  - intros x y Hx Hy E. destruct (V x) as (i & P & A1 & A2 & _ & _ & A3 & _), (V y) as (j & Q & B1 & B2 & _ & _ & B3 & _).
    apply (HI x y i j P Q Hx Hy A1 A2 B1 B2). congruence.
Qed.
End Ub.
Print Assumptions C86_ub_psi.

(** The two tables have no item in common, and yet the client finds its item in the server's table: the server has 1, the client
    the 32 bytes of the first candidate of 1. *)
Definition t_item (m : bytes) (H : hashable t_pt t_lift 251 t_sha m = true) : uitem t_pt t_lift 251 t_sha := exist _ m H.
Definition t_one : uitem t_pt t_lift 251 t_sha := t_item [1%N] eq_refl.
Definition t_eleven : uitem t_pt t_lift 251 t_sha := t_item (t_key 11) eq_refl.
Definition t_four : uitem t_pt t_lift 251 t_sha := t_item [4%N] eq_refl.
Definition t_run (client : list (list (uitem t_pt t_lift 251 t_sha * N))) :=
  do ca <- offline_server _ (u_simple t_pt t_smul t_lift t_oct 251 5 t_sha t_hash (t_server 3 0)) 12 [] 3 t_one [mk_raw _ [(t_one, 2%N)] [0]];
  do d <- offline_transfer 12 2 ca;
  online _ (u_blind t_pt t_smul t_lift t_oct 251 5 t_sha (t_client 2 0)) (u_evaluate t_pt T0 t_smul t_oct t_unoct 5 (t_server 3 0))
    (u_finalize t_pt T0 t_smul t_oct t_unoct 5 t_hash (t_client 2 0)) 12 33 2 3 2 c35_sched None true ca d client.
Theorem C86_ub_psi_refuted :
  curve_ok t_pt T0 t_smul t_lift t_oct t_unoct 251 5 t_minv /\
  parties 5 t_minv (t_key 3) (t_key 2) 0 (t_server 3 0) (t_client 2 0) /\ key_ok 5 (t_key 3) /\ key_ok 5 (t_key 2) /\ t_one <> t_eleven /\
  t_run [[(t_eleven, 0%N)]] = Ok ([(0, 2)], 3, ([(0, 0)], 1))%N /\
  joined _ (ueqb _ _ _ _) [(t_eleven, 0%N)] [(t_one, 2%N)] = [].
Proof.
  split; [exact t_curve|]. split; [apply t_parties; lia|]. split; [apply t_key_ok; cbn; tauto|]. split; [apply t_key_ok; cbn; tauto|].
  split; [intro E; apply (f_equal (@proj1_sig _ _)) in E; discriminate E|]. split; vm_compute; reflexivity.
Qed.
Print Assumptions C86_ub_psi_refuted.
(** With items whose values differ the result is right. *)
Example C86_ub_psi_example :
  t_run [[(t_four, 0%N); (t_one, 1%N)]] = Ok ([(1, 2)], 3, ([(0, 1)], 3))%N /\
  joined _ (ueqb _ _ _ _) [(t_four, 0%N); (t_one, 1%N)] [(t_one, 2%N)] = [(1, 2)]%N /\
  prf_simple t_pt t_smul t_oct 5 t_hash (t_key 3) T1 (cmp_len 0) <> prf_simple t_pt t_smul t_oct 5 t_hash (t_key 3) T4 (cmp_len 0).
Proof. split; [vm_compute; reflexivity|]. split; [vm_compute; reflexivity|vm_compute; discriminate]. Qed.
