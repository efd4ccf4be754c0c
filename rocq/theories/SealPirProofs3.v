(** Dimensions, indices and the stores of SealPIR. *)
From Coq Require Import List Arith NArith ZArith Lia Bool.
From Verif Require Import Base StoreModel StoreProofs Text PirPackModel PirPackSpec PirPackProofs PirPackProofs2 SpLoopModel SpLoopProofs NttModel
  SpArithModel SpDecodeProofs2 SpSrvProofs1 SealPirModel SealPirSpec SealPirProofs1 SealPirProofs2.
Import ListNotations.

(** The place of a tuple of indices. *)
Fixpoint place (dims is : list nat) : nat :=
  match dims, is with d :: r, i :: s => i * prodn r + place r s | _, _ => 0 end.

Lemma prodn_pos : forall l, Forall (fun d => 1 <= d) l -> 1 <= prodn l.
Proof. intros l H. induction H as [|x r Hx _ IH]; cbn [prodn fold_right]; [lia|]. fold (prodn r). nia. Qed.
Lemma prodn_app : forall a b, prodn (a ++ b) = prodn a * prodn b.
Proof. induction a as [|x a IH]; intros b; [symmetry; apply Nat.mul_1_l|]. cbn [app]. change (x * prodn (a ++ b) = x * prodn a * prodn b). rewrite IH. lia. Qed.
Lemma prodn_repeat : forall x k, prodn (repeat x k) = x ^ k.
Proof. intros x k. induction k as [|k IH]; [reflexivity|]. cbn [repeat prodn fold_right Nat.pow]. fold (prodn (repeat x k)). rewrite IH. reflexivity. Qed.
Lemma prodn_le : forall l l', Forall2 le l l' -> prodn l <= prodn l'.
Proof. intros l l' H. induction H as [|x y r r' Hx _ IH]; cbn [prodn fold_right]; [lia|]. fold (prodn r) (prodn r'). apply Nat.mul_le_mono; assumption. Qed.

Lemma fold_prod64 : forall l a, Forall (fun d => 1 <= d) l -> (a * N.of_nat (prodn l) < 2 ^ 64)%N ->
  fold_left (fun a d => u64 (a * N.of_nat d)) l a = (a * N.of_nat (prodn l))%N.
Proof.
  induction l as [|x l IH]; intros a Hl Ha; cbn [fold_left prodn fold_right]; [lia|]. inversion Hl as [|y z Hx Hr]; subst.
  fold (prodn l) in *. cbn [prodn fold_right] in Ha. fold (prodn l) in Ha. rewrite Nat2N.inj_mul, N.mul_assoc in *.
  pose proof (prodn_pos l Hr) as Hp. unfold u64. change 18446744073709551616%N with (2 ^ 64)%N.
  rewrite N.mod_small by nia. apply IH; assumption.
Qed.
Lemma prod64_ok : forall l, Forall (fun d => 1 <= d) l -> (N.of_nat (prodn l) < 2 ^ 64)%N -> prod64 l = N.of_nat (prodn l).
Proof. intros l Hl H. unfold prod64. rewrite fold_prod64 by (auto; lia). lia. Qed.

Lemma fold_prod_int : forall l a, Forall (fun d => 1 <= d) l -> (a * N.of_nat (prodn l) < 2 ^ 31)%N ->
  fold_left (fun a d => sext32 (u64 (a * N.of_nat d))) l a = (a * N.of_nat (prodn l))%N.
Proof.
  induction l as [|x l IH]; intros a Hl Ha; cbn [fold_left prodn fold_right]; [lia|]. inversion Hl as [|y z Hx Hr]; subst.
  fold (prodn l) in *. cbn [prodn fold_right] in Ha. fold (prodn l) in Ha. rewrite Nat2N.inj_mul, N.mul_assoc in *.
  pose proof (prodn_pos l Hr) as Hp.
  assert (B : (a * N.of_nat x < 2 ^ 31)%N) by nia.
  assert (E : sext32 (u64 (a * N.of_nat x)) = (a * N.of_nat x)%N).
  { unfold sext32, u32, u64. rewrite (N.mod_small _ 18446744073709551616) by lia. rewrite N.mod_small by lia.
    rewrite (proj2 (N.ltb_lt _ _) B). reflexivity. }
  rewrite E. apply IH; assumption.
Qed.
Lemma prod_int_ok : forall l, Forall (fun d => 1 <= d) l -> (N.of_nat (prodn l) < 2 ^ 31)%N -> prod_int l = N.of_nat (prodn l).
Proof. intros l Hl H. unfold prod_int. rewrite fold_prod_int by (auto; lia). lia. Qed.

(** * GetDimensions *)

Lemma upd_S_le : forall i l, Forall2 le l (upd i S l).
Proof.
  assert (R : forall l, Forall2 le l l) by (induction l; constructor; auto).
  induction i as [|i IH]; intros [|x l]; cbn [upd]; constructor; auto.
Qed.
Lemma Forall2_le_trans : forall a b c, Forall2 le a b -> Forall2 le b c -> Forall2 le a c.
Proof.
  intros a b c H. revert c. induction H as [|x y a b Hx _ IH]; intros c Hc; inversion Hc; subst; constructor; [lia|]. apply IH. assumption.
Qed.
Lemma grow_le : forall k i num l, Forall2 le l (sl_grow k i num l).
Proof.
  induction k as [|k IH]; intros i num l; cbn [sl_grow].
  - induction l; constructor; auto.
  - destruct (num <? prod64 l)%N; [induction l; constructor; auto|]. eapply Forall2_le_trans; [apply upd_S_le|apply IH].
Qed.
Lemma Forall2_le_ge1 : forall a b, Forall2 le a b -> Forall (fun d => 1 <= d) a -> Forall (fun d => 1 <= d) b.
Proof. intros a b H. induction H; intros F; [constructor|]. inversion F; subst. constructor; [lia|auto]. Qed.

Lemma grow_spec : forall k pre l num, length l = k -> Forall (fun d => 1 <= d) (pre ++ l) ->
  let F := sl_grow k (length pre) num (pre ++ l) in
  (N.of_nat (prodn F) < 2 ^ 64)%N -> (num < N.of_nat (prodn F))%N \/ F = pre ++ map S l.
Proof.
  induction k as [|k IH]; intros pre l num Hl H1 F HF.
  - destruct l; [|discriminate]. right. unfold F. cbn. reflexivity.
  - destruct l as [|x l]; [discriminate|]. unfold F in *. clear F. cbn [sl_grow] in *.
    pose proof (grow_le (S k) (length pre) num (pre ++ x :: l)) as G. cbn [sl_grow] in G.
    pose proof (prodn_le _ _ G) as GP.
    assert (EP : prod64 (pre ++ x :: l) = N.of_nat (prodn (pre ++ x :: l))) by (apply prod64_ok; [exact H1|lia]).
    rewrite EP in HF, G, GP |- *.
    destruct (N.ltb_spec num (N.of_nat (prodn (pre ++ x :: l)))) as [Hlt|Hge]; [left; exact Hlt|].
    rewrite upd_app in *. replace (pre ++ S x :: l) with ((pre ++ [S x]) ++ l) in * by (rewrite <- app_assoc; reflexivity).
    replace (S (length pre)) with (length (pre ++ [S x])) in * by (rewrite app_length; cbn; lia).
    destruct (IH (pre ++ [S x]) l num) as [A|A].
    + injection Hl; auto.
    + rewrite <- app_assoc. cbn [app]. apply Forall_app in H1 as [Ha Hb]. apply Forall_app. split; [exact Ha|]. inversion Hb; subst. constructor; [lia|assumption].
    + exact HF.
    + left. exact A.
    + right. rewrite A, <- app_assoc. reflexivity.
Qed.

Lemma get_dimensions_ok : forall fpow num d dims, get_dimensions fpow num d = Ok dims -> is_root num d (fpow num d) ->
  (N.of_nat (prodn dims) < 2 ^ 64)%N ->
  1 <= num /\ length dims = d /\ 1 <= d /\ Forall (fun x => 1 <= x) dims /\ num < prodn dims.
Proof.
  intros fpow num d dims H [Hr1 Hr2] HF. unfold get_dimensions, enforce in H.
  destruct (Nat.ltb_spec 0 d) as [Hd|]; [|discriminate]. destruct (Nat.ltb_spec 0 num) as [Hn|]; [|discriminate].
  set (F := sl_grow d 0 (N.of_nat num) (repeat (Nat.max 2 (fpow num d)) d)) in *.
  destruct (N.of_nat num <=? prod64 F)%N; [|discriminate]. injection H as <-.
  assert (R1 : Forall (fun x => 1 <= x) (repeat (Nat.max 2 (fpow num d)) d)).
  { apply Forall_forall. intros x Hx. apply repeat_spec in Hx as ->. lia. }
  pose proof (grow_le d 0 (N.of_nat num) (repeat (Nat.max 2 (fpow num d)) d)) as G. fold F in G.
  assert (LF : length F = d).
  { rewrite <- (repeat_length (Nat.max 2 (fpow num d)) d). clear - G. induction G; cbn [length]; auto. }
  split; [lia|]. split; [exact LF|]. split; [lia|]. split; [apply (Forall2_le_ge1 _ _ G R1)|].
  destruct (grow_spec d [] (repeat (Nat.max 2 (fpow num d)) d) (N.of_nat num) (repeat_length _ _) R1 HF) as [A|A]; cbn [length app] in A; fold F in A; [lia|].
  rewrite A. assert (ER : map S (repeat (Nat.max 2 (fpow num d)) d) = repeat (S (Nat.max 2 (fpow num d))) d).
  { generalize (Nat.max 2 (fpow num d)) as x. clear. intros x. induction d as [|k IHk]; [reflexivity|]. cbn [repeat map]. rewrite IHk. reflexivity. }
  rewrite ER, prodn_repeat. eapply Nat.lt_le_trans; [exact Hr2|]. apply Nat.pow_le_mono_l. lia.
Qed.

(** * ComputeIndices *)

Lemma indices_ok : forall dims j, Forall (fun x => 1 <= x) dims -> j < prodn dims ->
  exists is, indices_loop dims (N.of_nat (prodn dims)) (N.of_nat j) = Ok (map N.of_nat is)
    /\ Forall2 lt is dims /\ place dims is = j.
Proof.
  induction dims as [|d r IH]; intros j H1 Hj; cbn [indices_loop].
  - exists []. cbn [prodn fold_right] in Hj. split; [reflexivity|]. split; [constructor|]. cbn. lia.
  - inversion H1 as [|x y Hd Hr]; subst. cbn [prodn fold_right] in *. fold (prodn r) in *. pose proof (prodn_pos r Hr) as Hp.
    rewrite (proj2 (Nat.eqb_neq d 0)) by lia.
    assert (E : (N.of_nat (d * prodn r) / N.of_nat d = N.of_nat (prodn r))%N) by (rewrite Nat2N.inj_mul, N.mul_comm; apply N.div_mul; lia).
    rewrite E. rewrite (proj2 (N.eqb_neq _ 0)) by lia.
    assert (Em : (N.of_nat j mod N.of_nat (prodn r) = N.of_nat (j mod prodn r))%N).
    { symmetry. apply (N.mod_unique _ _ (N.of_nat (j / prodn r))).
      - pose proof (Nat.mod_upper_bound j (prodn r)). lia.
      - pose proof (Nat.div_mod j (prodn r)). lia. }
    assert (Ed : (N.of_nat j / N.of_nat (prodn r) = N.of_nat (j / prodn r))%N).
    { symmetry. apply (N.div_unique _ _ _ (N.of_nat (j mod prodn r))).
      - pose proof (Nat.mod_upper_bound j (prodn r)). lia.
      - pose proof (Nat.div_mod j (prodn r)). lia. }
    rewrite Em, Ed. destruct (IH (j mod prodn r) Hr) as (is & Ei & Fi & Pi); [apply Nat.mod_upper_bound; lia|].
    rewrite Ei. cbn [bind]. exists (j / prodn r :: is). split; [reflexivity|]. split.
    + constructor; [|exact Fi]. apply Nat.div_lt_upper_bound; lia.
    + cbn [place]. rewrite Pi. pose proof (Nat.div_mod j (prodn r)). lia.
Qed.

Lemma compute_indices_ok : forall dims j, Forall (fun x => 1 <= x) dims -> (N.of_nat (prodn dims) < 2 ^ 31)%N -> j < prodn dims ->
  exists is, compute_indices j dims = Ok (map N.of_nat is) /\ Forall2 lt is dims /\ place dims is = j.
Proof. intros dims j H1 Hb Hj. unfold compute_indices. rewrite prod_int_ok by assumption. apply indices_ok; assumption. Qed.

(** * SetPirParams and the stores *)

Lemma set_params_ok : forall fpow n logt num size d P, set_pir_params fpow n logt num size d = Ok P -> 1 <= logt ->
  sl_n P = n /\ sl_logt P = logt /\ sl_num P = num /\ sl_size P = size /\ 1 <= size /\ 1 <= n
  /\ 1 <= sl_epp P /\ sl_npt P = ceil_div num (sl_epp P) /\ sl_psize P = logt * n / 8 /\ 1 <= sl_psize P
  /\ sl_pnum P = uint_num size (sl_psize P) /\ get_dimensions fpow (sl_npt P) d = Ok (sl_dims P)
  /\ (size <= sl_psize P -> sl_epp P * coeffs_per_element logt size <= n)
  /\ (sl_psize P < size -> sl_epp P = 1).
Proof.
  intros fpow n logt num size d P H Hl. unfold set_pir_params, elements_per_ptxt in H.
  remember (logt * n / 8) as ps eqn:Eps.
  destruct (if ps <? size then _ else _) as [epp| | |] eqn:Ee in H; try discriminate. cbn [bind] in H.
  destruct (Nat.eqb_spec ps 0) as [|Hps]; [discriminate|].
  destruct (get_dimensions fpow (ceil_div num epp) d) as [dims| | |] eqn:Ed; try discriminate. cbn [bind] in H. injection H as <-. cbn [sl_n sl_logt sl_num sl_size sl_epp sl_npt sl_psize sl_pnum sl_dims].
  assert (Hn : 1 <= n) by (destruct n; [rewrite Nat.mul_0_r in Eps; cbn in Eps; lia|lia]).
  destruct (Nat.ltb_spec ps size) as [Hs|Hs].
  - injection Ee as <-. unfold uint_num. repeat split; auto; try lia; try (intros; lia).
  - destruct (Nat.eqb_spec logt 0) as [|_]; [lia|]. cbn [orb] in Ee.
    destruct (Nat.eqb_spec (coeffs_per_element logt size) 0) as [|Hc]; [discriminate|]. unfold enforce in Ee.
    destruct (Nat.ltb_spec 0 (n / coeffs_per_element logt size)) as [Hp|]; [|discriminate]. injection Ee as <-.
    assert (1 <= size).
    { destruct size; [|lia]. exfalso. apply Hc. unfold coeffs_per_element, ceil_div. cbn [Nat.mul Nat.add]. apply Nat.div_small. lia. }
    unfold uint_num. repeat split; auto; try lia; try (intros; lia).
    intros _. rewrite Nat.mul_comm. apply Nat.mul_div_le. exact Hc.
Qed.

Lemma map_nth' : forall (A B : Type) (f : A -> B) (l : list A) (da : A) (db : B) i, i < length l -> nth i (map f l) db = f (nth i l da).
Proof. intros. rewrite (nth_indep _ db (f da)) by (rewrite map_length; auto). apply map_nth. Qed.

Lemma small_plain : forall P t v, (2 ^ N.of_nat (sl_logt P) <= t)%N -> forall loc db i, vector_of P loc db i v ->
  length v = sl_n P /\ Forall (fun x => (x < t)%N) v.
Proof.
  intros P t v Ht loc db i (gs & more & -> & Lv & Lg & Hg & Hm & _). split; [exact Lv|].
  eapply Forall_impl; [intros x Hx; eapply N.lt_le_trans; [exact Hx|exact Ht]|].
  apply Forall_app. split; [|exact Hm]. apply Forall_forall. intros x Hx. apply in_concat in Hx as (g & Ig & Ix). unfold good_groups in Hg.
  rewrite Forall_forall in Hg. destruct (Hg g Ig) as [F _]. rewrite Forall_forall in F. apply F, Ix.
Qed.

(** The part of a row that partition p holds. *)
Definition row_part (P : seal_params) (p : nat) (row : bytes) : bytes := firstn (sl_psize P) (skipn (p * sl_psize P) row).
Definition part_len (P : seal_params) (p : nat) : nat := if p =? sl_pnum P - 1 then sl_size P - p * sl_psize P else sl_psize P.

Section Stores.
Variables (encode decode : list N -> list N) (t : N).
Variables (fpow : nat -> nat -> nat) (n logt num size d : nat) (P : seal_params).
Hypothesis Hlogt : 1 <= logt <= 64.
Hypothesis Hset : set_pir_params fpow n logt num size d = Ok P.
Hypothesis Hroot : is_root (sl_npt P) d (fpow (sl_npt P) d).
Hypothesis Hprod : (N.of_nat (prodn (sl_dims P)) < 2 ^ 31)%N.
Hypothesis Hbig : (N.of_nat size < 2 ^ 29)%N.
Hypothesis Ht : (2 ^ N.of_nat logt <= t)%N.
Hypothesis Hbatch : batching n t encode decode.
Variable db : list bytes.
Hypothesis Hlen : length db = num.
Hypothesis Hnum : 1 <= num.
Hypothesis Hrow : forall r, In r db -> length r = size /\ Forall is_byte r.

Theorem stores_ok : exists stores, gen_from_raw encode P (new_stores P) (RawDb num size db) = Ok stores
  /\ length stores = sl_pnum P
  /\ forall p, p < sl_pnum P -> length (nth p stores []) = prodn (sl_dims P) /\ Forall (plain n t) (nth p stores [])
     /\ forall idx, idx < num -> exists v, length v = n /\ Forall (fun x => (x < t)%N) v /\ nth (idx / sl_epp P) (nth p stores []) [] = encode v
          /\ forall pt, decode pt = v -> extract_bytes decode P pt (idx mod sl_epp P) (part_len P p) = Ok (row_part P p (nth idx db [])).
Proof using Hlogt Hset Hroot Hprod Hbig Ht Hbatch Hlen Hnum Hrow.
  destruct (set_params_ok _ _ _ _ _ _ _ Hset ltac:(lia)) as (En & El & Enum & Esz & Hsz & Hn & Hepp & Enpt & Eps & Hps & Epn & Edim & Hone & Hmany).
  destruct (get_dimensions_ok _ _ _ _ Edim Hroot ltac:(lia)) as (Hnpt & Ldim & Hd & Fdim & Hlt).
  assert (Eprod : prod64 (sl_dims P) = N.of_nat (prodn (sl_dims P))) by (apply prod64_ok; [exact Fdim|lia]).
  assert (Hpt : (1 < 2 ^ N.of_nat logt)%N) by (change 1%N with (2 ^ 0)%N at 1; apply N.pow_lt_mono_r; lia).
  (* one partition *)
  assert (Part : forall loc rows, 1 <= loc -> length rows = num -> (forall r, In r rows -> length r = loc /\ Forall is_byte r) ->
    sl_epp P * coeffs_per_element logt loc <= n ->
    exists pts, gen_partition encode P (RawDb num loc rows) = Ok pts /\ length pts = prodn (sl_dims P) /\ Forall (plain n t) pts
      /\ forall i, i < sl_npt P -> exists v, nth i pts [] = encode v /\ vector_of P loc rows i v).
  { intros loc rows Hl Lr Hr Hfit. rewrite <- Enum in Lr. rewrite <- El, <- En in Hfit.
    destruct (gen_partition_ok P encode decode ltac:(lia) ltac:(lia) Hepp ltac:(lia) ltac:(rewrite Enum; exact Enpt) loc rows Hl Lr Hr Hfit) as (pts & E & L & H).
    rewrite Enum in E. rewrite E. eexists. split; [reflexivity|].
    assert (V : forall i v, vector_of P loc rows i v -> plain n t (encode v)).
    { intros i v Hv. destruct (small_plain P t v ltac:(rewrite El; exact Ht) loc rows i Hv) as [Lv Fv]. rewrite En in Lv. apply (Hbatch v Lv Fv). }
    split; [rewrite app_length, repeat_length, L, Eprod; lia|]. split.
    - apply Forall_app. split.
      + apply Forall_forall. intros x Hx. apply (In_nth _ _ []) in Hx as (i & Hi & <-). rewrite L in Hi. destruct (H i Hi) as (v & -> & Hv). apply (V i v Hv).
      + apply Forall_forall. intros x Hx. apply repeat_spec in Hx as ->. split; [rewrite repeat_length; lia|].
        apply Forall_forall. intros y Hy. apply repeat_spec in Hy as ->. lia.
    - intros i Hi. rewrite app_nth1 by lia. apply H, Hi. }
  unfold gen_from_raw. destruct (le_lt_dec size (sl_psize P)) as [Hs|Hs].
  - (* rows are not cut *)
    assert (Epn1 : sl_pnum P = 1).
    { rewrite Epn. symmetry. apply uint_num_unique; lia. }
    unfold partition. cbn [rd_len rd_rows rd_db]. rewrite (proj2 (Nat.leb_le _ _) Hs). unfold raw_make.
    rewrite forallb_len by (intros r Hr; apply Hrow, Hr). cbn [enforce bind length]. rewrite Epn1. cbn [Nat.eqb enforce].
    rewrite Eprod. rewrite (proj2 (N.ltb_lt _ _)) by lia. cbn [enforce]. unfold new_stores. rewrite Epn1. cbn [seq map_out].
    unfold get at 1. cbn [nth_error bind repeat]. unfold get. cbn [nth_error bind].
    destruct (Part size db Hsz Hlen Hrow) as (pts & E & L & F & H); [apply Hone, Hs|]. rewrite E. cbn [bind map_out app].
    exists [pts]. split; [reflexivity|]. split; [reflexivity|]. intros p Hp. assert (p = 0) by lia. subst p. cbn [nth]. split; [exact L|]. split; [exact F|].
    intros idx Hi. assert (Hc : idx / sl_epp P < sl_npt P).
    { rewrite Enpt. unfold ceil_div. apply Nat.div_lt_upper_bound; [lia|].
      pose proof (Nat.div_mod (num + sl_epp P - 1) (sl_epp P) ltac:(lia)). 
      pose proof (Nat.mod_upper_bound (num + sl_epp P - 1) (sl_epp P) ltac:(lia)). lia. }
    destruct (H _ Hc) as (v & Ev & Hv). exists v. destruct (small_plain P t v ltac:(rewrite El; exact Ht) _ _ _ Hv) as [Lv Fv].
    split; [rewrite <- En; exact Lv|]. split; [exact Fv|]. split; [exact Ev|]. intros pt Hpt'.
    unfold part_len, row_part. rewrite Epn1. cbn [Nat.eqb Nat.sub Nat.mul skipn]. rewrite Nat.sub_0_r.
    assert (Hm : idx / sl_epp P * sl_epp P + idx mod sl_epp P = idx) by (pose proof (Nat.div_mod idx (sl_epp P)); lia).
    rewrite <- Esz in Hv, Hrow. 
    rewrite (extract_whole P encode decode ltac:(lia) ltac:(lia) ltac:(lia) ltac:(lia) ltac:(rewrite Enum; exact Enpt) db (idx / sl_epp P) (idx mod sl_epp P) v pt); try lia; auto.
    + rewrite Hm. rewrite firstn_all2; [reflexivity|]. destruct (Hrow (nth idx db [])) as [Lr _]; [apply nth_In; lia|]. lia.
    + apply Nat.mod_upper_bound. lia.
  - (* rows are cut *)
    pose proof (Hmany Hs) as He.
    pose proof (uint_num_spec size (sl_psize P) Hps) as U. rewrite <- Epn in U.
    rewrite partition_ok; [|exact Hlen|intros r Hr; apply Hrow, Hr|exact Hps|exact Hs]. cbn [bind]. rewrite map_length, seq_length, <- Epn, Nat.eqb_refl.
    rewrite Eprod. rewrite (proj2 (N.ltb_lt _ _)) by lia. cbn [enforce].
    assert (Fits : sl_psize P * 8 <= n * logt < sl_psize P * 8 + 8).
    { rewrite Eps. pose proof (Nat.div_mod (logt * n) 8 ltac:(lia)). pose proof (Nat.mod_upper_bound (logt * n) 8 ltac:(lia)). lia. }
    assert (Rows : forall k r, In r (map (pchunk (sl_psize P) k) db) -> length r = sl_psize P /\ Forall is_byte r).
    { intros k r Hr. apply in_map_iff in Hr as (x & <- & Hx). split; [apply pchunk_length|apply pchunk_bytes, Hrow, Hx]. }
    assert (Cpe : sl_epp P * coeffs_per_element logt (sl_psize P) <= n).
    { rewrite He, Nat.mul_1_l. unfold coeffs_per_element. pose proof (uint_num_spec (sl_psize P * 8) logt ltac:(lia)) as U2. unfold uint_num in U2. unfold ceil_div.
      destruct (le_lt_dec ((sl_psize P * 8 + logt - 1) / logt) n) as [|Hgt]; [assumption|]. exfalso.
      assert ((n + 1) * logt <= (sl_psize P * 8 + logt - 1) / logt * logt) by (apply Nat.mul_le_mono_r; lia). lia. }
    destruct (map_out_seq_nth _ (fun i => do part <- get i (map (fun k => RawDb num (sl_psize P) (map (pchunk (sl_psize P) k) db)) (seq 0 (sl_pnum P)));
        do o <- get i (new_stores P); do pts <- gen_partition encode P part; Ok (o ++ pts))
      (fun p pts => length pts = prodn (sl_dims P) /\ Forall (plain n t) pts
        /\ forall i, i < sl_npt P -> exists v, nth i pts [] = encode v /\ vector_of P (sl_psize P) (map (pchunk (sl_psize P) p) db) i v)
      (sl_pnum P) []) as (stores & E & L & H).
    + intros i Hi. rewrite (get_lt _ (RawDb 0 0 [])) by (rewrite map_length, seq_length; exact Hi).
      rewrite (map_nth' _ _ _ _ 0) by (rewrite seq_length; exact Hi). rewrite seq_nth by exact Hi. cbn [bind Nat.add].
      unfold new_stores. rewrite (get_lt _ []) by (rewrite repeat_length; exact Hi).
      assert (NR : nth i (repeat ([] : list (list N)) (sl_pnum P)) [] = []) by (destruct (nth_in_or_default i (repeat ([] : list (list N)) (sl_pnum P)) []) as [I|I]; [apply repeat_spec in I; exact I|exact I]).
      rewrite NR. cbn [bind].
      destruct (Part (sl_psize P) (map (pchunk (sl_psize P) i) db) Hps) as (pts & E & L & F & H); [rewrite map_length; exact Hlen|apply Rows|exact Cpe|].
      rewrite E. cbn [bind app]. exists pts. auto.
    + rewrite E. exists stores. split; [reflexivity|]. split; [exact L|]. intros p Hp. destruct (H p Hp) as (Lp & Fp & Hv). split; [exact Lp|]. split; [exact Fp|].
      intros idx Hi. rewrite He, Nat.div_1_r, Nat.mod_1_r. assert (Hc : idx < sl_npt P).
      { rewrite Enpt, He. unfold ceil_div. rewrite Nat.div_1_r. lia. }
      destruct (Hv idx Hc) as (v & Ev & Hv'). exists v. destruct (small_plain P t v ltac:(rewrite El; exact Ht) _ _ _ Hv') as [Lv Fv].
      split; [rewrite <- En; exact Lv|]. split; [exact Fv|]. split; [exact Ev|]. intros pt Hpt'.
      assert (Hple : p * sl_psize P < size).
      { assert ((p + 1) * sl_psize P <= sl_pnum P * sl_psize P) by (apply Nat.mul_le_mono_r; lia). lia. }
      assert (PL : part_len P p <= sl_psize P /\ part_len P p = Nat.min (sl_psize P) (size - p * sl_psize P)).
      { unfold part_len. rewrite Esz. destruct (Nat.eqb_spec p (sl_pnum P - 1)) as [->|Hne].
        - assert (sl_pnum P * sl_psize P = (sl_pnum P - 1) * sl_psize P + sl_psize P) by nia. lia.
        - assert ((p + 2) * sl_psize P <= sl_pnum P * sl_psize P) by (apply Nat.mul_le_mono_r; lia). lia. }
      destruct PL as [PL1 PL2].
      rewrite (extract_part P encode decode ltac:(lia) ltac:(lia) ltac:(lia) ltac:(lia) ltac:(rewrite Enum; exact Enpt)
        (sl_psize P) (map (pchunk (sl_psize P) p) db) idx v pt (part_len P p)); try lia; auto.
      * apply (f_equal (@Ok (list N))). rewrite (map_nth' _ _ (pchunk (sl_psize P) p) db [] []) by lia. unfold pchunk, row_part. destruct (Hrow (nth idx db [])) as [Lr _]; [apply nth_In; lia|].
        set (c := firstn (sl_psize P) (skipn (p * sl_psize P) (nth idx db []))).
        assert (Lc : length c = part_len P p) by (unfold c; rewrite firstn_length, skipn_length, Lr; lia).
        rewrite firstn_app, Lc, Nat.sub_diag, firstn_O, app_nil_r. apply firstn_all2. lia.
      * rewrite map_length. lia.
      * apply Rows.
Qed.

(** The parts make the row. *)
Lemma parts_row : forall row, length row = size -> concat (map (fun p => row_part P p row) (seq 0 (sl_pnum P))) = row.
Proof using Hlogt Hset.
  clear - Hlogt Hset.
  destruct (set_params_ok _ _ _ _ _ _ _ Hset ltac:(lia)) as (En & El & Enum & Esz & Hsz & Hn & Hepp & Enpt & Eps & Hps & Epn & Edim & Hone & Hmany).
  intros row Hr. pose proof (uint_num_spec size (sl_psize P) Hps) as U. rewrite <- Epn in U.
  assert (G : forall k, concat (map (fun p => row_part P p row) (seq 0 k)) = firstn (k * sl_psize P) row).
  { induction k as [|k IH]; [reflexivity|]. rewrite seq_S, map_app, concat_app, IH. cbn [map concat Nat.add]. rewrite app_nil_r. unfold row_part.
    rewrite <- (firstn_skipn (k * sl_psize P) row) at 3. rewrite firstn_app, firstn_firstn, firstn_length.
    replace (Nat.min (S k * sl_psize P) (k * sl_psize P)) with (k * sl_psize P) by (cbn [Nat.mul]; lia).
    f_equal. destruct (le_lt_dec (k * sl_psize P) (length row)) as [Hk|Hk].
    - f_equal. rewrite Nat.min_l by exact Hk. cbn [Nat.mul]. lia.
    - rewrite skipn_all2 by lia. rewrite !firstn_nil. reflexivity. }
  rewrite G. apply firstn_all2. lia.
Qed.
End Stores.
