(** Proofs for Partition/Combine and the plaintext layout. *)
From Coq Require Import List NArith Bool Arith Lia.
From Verif Require Import Base StoreModel StoreProofs Text PirPackModel PirPackSpec PirPackProofs.
Import ListNotations.

Lemma map_out_ok : forall (A B : Type) (f : A -> outcome B) (g : A -> B) l,
  (forall x, In x l -> f x = Ok (g x)) -> map_out f l = Ok (map g l).
Proof.
  induction l as [|x l IH]; intros H; cbn [map_out map]; [reflexivity|].
  rewrite (H x) by (left; auto). cbn [bind]. rewrite IH by (intros; apply H; right; auto). reflexivity.
Qed.

Lemma map_out_forall : forall (A B : Type) (f : A -> outcome B) (P : A -> B -> Prop) l,
  (forall x, In x l -> exists y, f x = Ok y /\ P x y) ->
  exists ys, map_out f l = Ok ys /\ Forall2 P l ys.
Proof.
  induction l as [|x l IH]; intros H; cbn [map_out].
  - exists []. auto.
  - destruct (H x) as (y & E & Py); [left; auto|]. rewrite E. cbn [bind].
    destruct IH as (ys & Es & Ps); [intros; apply H; right; auto|]. rewrite Es. cbn [bind].
    exists (y :: ys). auto.
Qed.

(** ** Partition and Combine *)
Definition pchunk (plen k : nat) (r : bytes) : bytes :=
  let c := firstn plen (skipn (k * plen) r) in c ++ repeat 0%N (plen - length c).

Lemma pchunk_length : forall plen k r, length (pchunk plen k r) = plen.
Proof.
  intros. unfold pchunk. rewrite app_length, repeat_length, firstn_length. lia.
Qed.

Lemma pchunk_bytes : forall plen k r, Forall is_byte r -> Forall is_byte (pchunk plen k r).
Proof.
  intros plen k r H. unfold pchunk. apply Forall_app. split.
  - apply Forall_forall. intros x Hx. rewrite Forall_forall in H. apply H.
    rewrite <- (firstn_skipn (k * plen) r). apply in_or_app. right.
    rewrite <- (firstn_skipn plen (skipn (k * plen) r)). apply in_or_app. auto.
  - apply Forall_forall. intros x Hx. apply repeat_spec in Hx. subst. reflexivity.
Qed.

Lemma forallb_len : forall n (l : list bytes), (forall r, In r l -> length r = n) ->
  forallb (fun r => length r =? n) l = true.
Proof. intros n l H. apply forallb_forall. intros r Hr. apply Nat.eqb_eq. auto. Qed.

Lemma partition_ok : forall rows len db plen,
  length db = rows -> (forall r, In r db -> length r = len) -> 1 <= plen -> plen < len ->
  partition (RawDb rows len db) plen
  = Ok (map (fun k => RawDb rows plen (map (pchunk plen k) db)) (seq 0 (uint_num len plen))).
Proof.
  intros rows len db plen Hn Hl Hp Hlt. unfold partition. cbn [rd_len rd_rows rd_db].
  destruct (len <=? plen) eqn:E1; [apply Nat.leb_le in E1; lia|].
  destruct (plen =? 0) eqn:E2; [apply Nat.eqb_eq in E2; lia|].
  fold (uint_num len plen). destruct (uint_num_spec len plen Hp) as [U1 U2].
  set (num := uint_num len plen) in *.
  assert (Hnum : 2 <= num) by (destruct num as [|[|]]; lia).
  subst rows. unfold first_rows. cbn [rd_rows rd_db]. rewrite Nat.leb_refl, firstn_all. cbn [bind].
  rewrite (map_out_ok _ _ _ (fun k => RawDb (length db) plen (map (pchunk plen k) db))).
  2:{ intros i Hi. apply in_seq in Hi.
      assert (Hcap : (i + 1) * plen <= (num - 1) * plen) by (apply Nat.mul_le_mono_r; lia).
      rewrite Nat.mul_sub_distr_r in Hcap.
      rewrite (map_out_ok _ _ _ (pchunk plen i)).
      - cbn [bind]. unfold raw_make, enforce. rewrite forallb_len; [reflexivity|].
        intros r Hr. apply in_map_iff in Hr. destruct Hr as (r0 & <- & _). apply pchunk_length.
      - intros r Hr. apply Hl in Hr. unfold slice_row. rewrite Hr.
        assert (Hc : (i * plen <=? i * plen + plen) && (i * plen + plen <=? len) = true)
          by (apply andb_true_intro; split; apply Nat.leb_le; lia).
        rewrite Hc. f_equal. unfold pchunk. replace (i * plen + plen - i * plen) with plen by lia.
        rewrite firstn_length, skipn_length, Hr. replace (plen - Nat.min plen (len - i * plen)) with 0 by lia.
        rewrite app_nil_r. reflexivity. }
  cbn [bind].
  assert (Hsub : (num - 1) * plen = num * plen - plen) by (rewrite Nat.mul_sub_distr_r; lia).
  rewrite (map_out_ok _ _ _ (pchunk plen (num - 1))).
  2:{ intros r Hr. apply Hl in Hr. unfold slice_row. rewrite Hr.
      rewrite Nat.min_r by lia.
      assert (Hc : ((num - 1) * plen <=? len) && (len <=? len) = true)
        by (apply andb_true_intro; split; apply Nat.leb_le; lia).
      rewrite Hc. cbn [bind].
      assert (Ec : firstn (len - (num - 1) * plen) (skipn ((num - 1) * plen) r) = firstn plen (skipn ((num - 1) * plen) r)).
      { rewrite !firstn_all2; auto; rewrite skipn_length, Hr; lia. }
      rewrite Ec. rewrite firstn_length, skipn_length, Hr.
      destruct (Nat.min plen (len - (num - 1) * plen) <=? plen) eqn:Em; [|apply Nat.leb_nle in Em; lia].
      unfold pchunk. rewrite firstn_length, skipn_length, Hr. reflexivity. }
  cbn [bind]. unfold raw_make, enforce. rewrite forallb_len.
  2:{ intros r Hr. apply in_map_iff in Hr. destruct Hr as (r0 & <- & _). apply pchunk_length. }
  cbn [bind]. f_equal. replace num with (num - 1 + 1) at 3 by lia. rewrite seq_app, map_app. reflexivity.
Qed.

Lemma combine_loop_ok : forall plen r len n i,
  length r = len -> 1 <= plen -> len <= (i + n) * plen -> (i + n) * plen < len + plen -> 1 <= n ->
  combine_loop i (i + n) plen len (map (fun k => pchunk plen k r) (seq i n)) = Ok (skipn (i * plen) r).
Proof.
  intros plen r len n. induction n as [|n IH]; intros i Hr Hp H1 H2 Hn; [lia|].
  cbn [seq map combine_loop]. rewrite Nat.mul_add_distr_r in H1, H2. cbn [Nat.mul] in H1, H2.
  destruct n as [|n].
  - replace (i + 1 - 1) with i by lia. rewrite Nat.ltb_irrefl, pchunk_length.
    assert (Hc : (len <? i * plen) || (plen <? len - i * plen) = false).
    { apply orb_false_intro; apply Nat.ltb_ge; lia. }
    rewrite Hc. cbn [seq map combine_loop bind]. rewrite app_nil_r. f_equal.
    unfold pchunk. rewrite firstn_app, firstn_firstn. rewrite firstn_length, skipn_length, Hr.
    replace (Nat.min plen (len - i * plen)) with (len - i * plen) by lia.
    replace (Nat.min (len - i * plen) plen) with (len - i * plen) by lia.
    rewrite Nat.sub_diag, firstn_O, app_nil_r. apply firstn_all2. rewrite skipn_length. lia.
  - assert (Hlt : (i <? i + S (S n) - 1) = true) by (apply Nat.ltb_lt; lia). rewrite Hlt.
    replace (i + S (S n)) with (S i + S n) by lia.
    specialize (IH (S i) Hr Hp). rewrite IH; [| rewrite !Nat.mul_add_distr_r; cbn [Nat.mul]; cbn [Nat.mul] in H1; lia
      | rewrite !Nat.mul_add_distr_r; cbn [Nat.mul]; cbn [Nat.mul] in H2; lia | lia].
    cbn [bind]. f_equal. unfold pchunk.
    cbn [Nat.mul] in H2.
    rewrite firstn_length, skipn_length, Hr. replace (plen - Nat.min plen (len - i * plen)) with 0 by lia.
    rewrite app_nil_r. cbn [Nat.mul].
    replace (skipn (plen + i * plen) r) with (skipn plen (skipn (i * plen) r)).
    { apply firstn_skipn. }
    { clear. revert r. induction (i * plen) as [|m IHm]; intros r; [rewrite Nat.add_0_r; reflexivity|].
      rewrite Nat.add_succ_r. destruct r; [rewrite !skipn_nil; reflexivity|]. cbn [skipn]. apply IHm. }
Qed.

Lemma combine_many : forall (data : list bytes) m len, 2 <= length data ->
  (forall x, In x data -> length x = m) -> len <= length data * m ->
  combine data len = combine_loop 0 (length data) m len data.
Proof.
  intros data m len H2 Hm Hl. destruct data as [|d0 [|d1 t]]; [simpl in H2; lia|simpl in H2; lia|].
  unfold combine, enforce. rewrite (Hm d0) by (left; auto). rewrite (forallb_len m) by auto.
  destruct (len <=? length (d0 :: d1 :: t) * m) eqn:El; [reflexivity|apply Nat.leb_nle in El; lia].
Qed.

Lemma combine_ok : forall plen r len, length r = len -> 1 <= plen -> plen < len ->
  combine (map (fun k => pchunk plen k r) (seq 0 (uint_num len plen))) len = Ok r.
Proof.
  intros plen r len Hr Hp Hlt. destruct (uint_num_spec len plen Hp) as [U1 U2].
  set (num := uint_num len plen) in *.
  assert (Hnum : 2 <= num) by (destruct num as [|[|]]; lia).
  rewrite (combine_many _ plen).
  - rewrite map_length, seq_length. apply (combine_loop_ok plen r len num 0); auto. lia.
  - rewrite map_length, seq_length. lia.
  - intros x Hx. apply in_map_iff in Hx. destruct Hx as (k & <- & _). apply pchunk_length.
  - rewrite map_length, seq_length. lia.
Qed.

(** ** Plaintexts *)
Definition coeff_ok (logt : nat) (x : N) : Prop := (x < 2 ^ N.of_nat logt)%N.

Lemma one_ok : forall logt, 1 <= logt -> coeff_ok logt 1.
Proof. intros. unfold coeff_ok. apply N.pow_gt_1; lia. Qed.

Section Layout.
Variables (pt_coeffs logt : nat) (w : N).
Hypothesis (H1 : 1 <= logt) (Hw : (N.of_nat logt <= w)%N) (Hw64 : (w <= 64)%N).

Lemma pt_loop_ok : forall n es el used (all : list N) offset,
  1 <= el -> 1 <= es -> used <= pt_coeffs -> uint_num (8 * (es * el)) logt <= used ->
  Forall is_byte all -> (exists m, length all = m * el) -> (exists m, offset = m * el) ->
  exists vec, pt_loop pt_coeffs logt n w (length all) (es * el) el used offset all = Ok vec
    /\ length vec <= n
    /\ Forall (fun c => length c = pt_coeffs /\ Forall (coeff_ok logt) c) vec
    /\ (forall j, offset + j * (es * el) < length all -> j < n ->
        exists c out, nth_error vec j = Some c /\ coeffs_to_bytes logt c = Ok out
          /\ let sz := Nat.min (es * el) (length all - (offset + j * (es * el))) in
             sz <= length out /\ firstn sz out = firstn sz (skipn (offset + j * (es * el)) all)).
Proof using H1 Hw Hw64.
  clear - H1 Hw Hw64.
  induction n as [|n IH]; intros es el used all offset Hel Hes Hu Hf Hall Hm Ho.
  - exists []. cbn [pt_loop]. repeat split; auto. intros j _ Hj. lia.
  - cbn [pt_loop]. destruct (length all <=? offset) eqn:Et.
    { apply Nat.leb_le in Et. exists []. split; [reflexivity|]. split; [simpl; lia|]. split; [constructor|].
      intros j Hj. lia. }
    apply Nat.leb_gt in Et.
    set (sz := if length all <? offset + es * el then length all - offset else es * el).
    assert (Hsz : sz = Nat.min (es * el) (length all - offset)).
    { unfold sz. destruct (length all <? offset + es * el) eqn:E; [apply Nat.ltb_lt in E|apply Nat.ltb_ge in E]; lia. }
    assert (Hesel : 1 <= es * el) by (change 1 with (1 * 1); apply Nat.mul_le_mono; lia).
    assert (Hmod : sz mod el = 0).
    { destruct Hm as [m Hm]. destruct Ho as [o Ho]. rewrite Hsz, Hm, Ho.
      rewrite <- Nat.mul_sub_distr_r, Nat.mul_min_distr_r. apply Nat.mod_mul. lia. }
    rewrite Hmod. cbn [Nat.eqb]. unfold enforce at 1.
    destruct (pack_ok w logt offset sz all) as (cs & pad & E & L & B & _ & _); auto; [lia|lia|].
    rewrite E. cbn [bind].
    assert (Hlc : length cs <= used).
    { rewrite L. eapply Nat.le_trans; [|exact Hf]. unfold uint_num. apply Nat.div_le_mono; lia. }
    destruct (length cs <=? used) eqn:Eu; [|apply Nat.leb_nle in Eu; lia]. unfold enforce at 1.
    destruct (IH es el used all (offset + sz)) as (vec & Ev & Lv & Fv & Rv); auto.
    { destruct Hm as [m Hm]. destruct Ho as [o Ho]. exists (o + Nat.min es (m - o)).
      rewrite Hsz, Hm, Ho, <- Nat.mul_sub_distr_r, Nat.mul_min_distr_r, Nat.mul_add_distr_r. reflexivity. }
    rewrite Ev. cbn [bind].
    assert (Hmore : Forall (coeff_ok logt) (repeat 1%N (pt_coeffs - length cs))).
    { apply Forall_forall. intros x Hx. apply repeat_spec in Hx. subst. apply one_ok. auto. }
    eexists. split; [reflexivity|]. split; [simpl; lia|]. split.
    { constructor; auto. split; [rewrite app_length, repeat_length; lia|]. apply Forall_app. split; auto. }
    intros j Hj Hjn. destruct j as [|j].
    + cbn [Nat.mul] in *. rewrite Nat.add_0_r in *.
      destruct (round_trip w logt offset sz all cs (repeat 1%N (pt_coeffs - length cs))) as (out & Eo & _ & Lo & Fo); auto; [lia|lia|].
      eexists _, out. split; [reflexivity|]. split; [exact Eo|]. cbv zeta. rewrite <- Hsz. auto.
    + cbn [Nat.mul] in Hj. assert (Hfull : sz = es * el) by lia.
      destruct (Rv j) as (c & out & En & Eo & Ro); [lia|lia|].
      exists c, out. split; [exact En|]. split; [exact Eo|]. cbv zeta in *.
      replace (offset + S j * (es * el)) with (offset + sz + j * (es * el)) by (cbn [Nat.mul]; lia). exact Ro.
Qed.

(** Rows of equal length inside their concatenation. *)
Lemma concat_fixed_length : forall (raw : list bytes) el, (forall r, In r raw -> length r = el) ->
  length (concat raw) = length raw * el.
Proof.
  induction raw as [|r raw IH]; intros el H; [reflexivity|]. cbn [concat length Nat.mul].
  rewrite app_length, (H r), (IH el); auto; [|left; auto]. intros; apply H; right; auto.
Qed.

Lemma concat_fixed_row : forall (raw : list bytes) el i, (forall r, In r raw -> length r = el) ->
  i < length raw -> firstn el (skipn (i * el) (concat raw)) = nth i raw [].
Proof.
  induction raw as [|r raw IH]; intros el i H Hi; [simpl in Hi; lia|].
  assert (Hr : length r = el) by (apply H; left; auto).
  destruct i as [|i]; cbn [nth concat Nat.mul].
  - cbn [skipn]. rewrite firstn_app, Hr, Nat.sub_diag, firstn_O, app_nil_r. apply firstn_all2. lia.
  - rewrite skipn_app. rewrite (skipn_all2 r) by lia. cbn [app]. rewrite Hr.
    replace (el + i * el - el) with (i * el) by lia. apply IH; [intros; apply H; right; auto|].
    simpl in Hi. lia.
Qed.

Lemma element_size_ok : forall el, 1 <= el -> el <= max_byte_len pt_coeffs logt ->
  exists es, element_size pt_coeffs logt el = Ok es /\ 1 <= es
    /\ es * uint_num (8 * el) logt <= pt_coeffs /\ uint_num (8 * (es * el)) logt <= es * uint_num (8 * el) logt.
Proof using H1.
  clear - H1. intros el Hel Hmax. unfold element_size.
  destruct (uint_num_spec (8 * el) logt H1) as [U1 U2].
  set (u := uint_num (8 * el) logt) in *.
  assert (Hu : 1 <= u) by (destruct u; lia).
  assert (Hc : (logt =? 0) || (u =? 0) = false) by (apply orb_false_intro; apply Nat.eqb_neq; lia).
  rewrite Hc. exists (Nat.max (pt_coeffs / u) 1). split; [reflexivity|]. split; [lia|].
  assert (Hup : u <= pt_coeffs).
  { unfold max_byte_len in Hmax.
    assert (8 * el <= pt_coeffs * logt).
    { pose proof (Nat.mul_div_le (pt_coeffs * logt) 8 ltac:(lia)). lia. }
    destruct (Nat.le_gt_cases u pt_coeffs); auto.
    assert ((pt_coeffs + 1) * logt <= u * logt) by (apply Nat.mul_le_mono_r; lia). lia. }
  assert (Hd : 1 <= pt_coeffs / u) by (apply Nat.div_le_lower_bound; lia).
  rewrite Nat.max_l by lia. split; [rewrite Nat.mul_comm; apply Nat.mul_div_le; lia|].
  set (es := pt_coeffs / u) in *. clearbody es.
  destruct (Nat.le_gt_cases (uint_num (8 * (es * el)) logt) (es * u)) as [|Hgt]; auto. exfalso.
  destruct (uint_num_spec (8 * (es * el)) logt H1) as [V1 V2].
  assert ((es * u + 1) * logt <= uint_num (8 * (es * el)) logt * logt) by (apply Nat.mul_le_mono_r; lia).
  assert (es * (8 * el) <= es * (u * logt)) by (apply Nat.mul_le_mono_l; lia).
  rewrite Nat.mul_add_distr_r in H.
  assert (8 * (es * el) = es * (8 * el)) by lia. rewrite <- Nat.mul_assoc in H. lia.
Qed.

Lemma raw_to_pts_ok : forall rows per_row v (raw : list bytes),
  length raw = rows -> 1 <= rows -> v < 31 ->
  let el := Nat.min per_row (max_byte_len pt_coeffs logt) in
  1 <= el -> (forall r, In r raw -> length r = el /\ Forall is_byte r) ->
  exists es vec, element_size pt_coeffs logt el = Ok es /\ 1 <= es
    /\ raw_to_pts pt_coeffs logt w rows per_row v raw = Ok vec
    /\ (uint_num rows es <= 2 ^ v -> length vec = 2 ^ v)
    /\ Forall (fun c => length c = pt_coeffs /\ Forall (coeff_ok logt) c) vec
    /\ (forall i, i < rows ->
        exists c out, nth_error vec (i / es) = Some c /\ coeffs_to_bytes logt c = Ok out
          /\ slice_row out (i mod es * el) (i mod es * el + el) = Ok (nth i raw [])).
Proof using H1 Hw Hw64.
  clear - H1 Hw Hw64.
  intros rows per_row v raw Hn Hr Hv el Hel Hraw.
  destruct (element_size_ok el) as (es & Ees & Hes & Hfit & Hfit2); [auto|unfold el; lia|].
  assert (Hlens : forall r, In r raw -> length r = el) by (intros r Hin; apply Hraw; auto).
  assert (Hall : Forall is_byte (concat raw)).
  { apply Forall_forall. intros x Hx. apply in_concat in Hx. destruct Hx as (r & Hin & Hx).
    apply Hraw in Hin. destruct Hin as [_ Hb]. rewrite Forall_forall in Hb. auto. }
  assert (Htot : length (concat raw) = rows * el) by (rewrite (concat_fixed_length raw el), Hn; auto).
  destruct (pt_loop_ok (uint_num rows es) es el (es * uint_num (8 * el) logt) (concat raw) 0)
    as (vec & Ev & Lv & Fv & Rv); auto.
  { exists rows. auto. }
  { exists 0. reflexivity. }
  exists es, (vec ++ repeat (repeat 1%N pt_coeffs) (2 ^ v - length vec)).
  split; [exact Ees|]. split; [exact Hes|]. split.
  { unfold raw_to_pts, enforce. rewrite Hn, Nat.eqb_refl.
    destruct raw as [|r0 raw'] eqn:Eraw; [simpl in Hn; lia|]. rewrite <- Eraw in *.
    assert (Hr0 : length r0 = el) by (apply Hlens; rewrite Eraw; left; auto).
    rewrite Hr0. destruct (el <=? max_byte_len pt_coeffs logt) eqn:Em; [|apply Nat.leb_nle in Em; unfold el in Em; lia].
    fold el. rewrite Ees. cbn [bind].
    destruct (31 <=? v) eqn:E31; [apply Nat.leb_le in E31; lia|].
    destruct (es * uint_num (8 * el) logt <=? pt_coeffs) eqn:Ef; [|apply Nat.leb_nle in Ef; lia].
    rewrite <- Htot, Ev. cbn [bind].
    destruct (length vec <=? uint_num rows es) eqn:Ep; [|apply Nat.leb_nle in Ep; lia]. reflexivity. }
  split.
  { intros Hpts. rewrite app_length, repeat_length. lia. }
  split.
  { apply Forall_app. split; auto. apply Forall_forall. intros c Hc. apply repeat_spec in Hc. subst c.
    rewrite repeat_length. split; auto. apply Forall_forall. intros x Hx. apply repeat_spec in Hx. subst. apply one_ok; auto. }
  intros i Hi.
  pose proof (Nat.div_mod i es ltac:(lia)) as Edm. pose proof (Nat.mod_upper_bound i es ltac:(lia)) as Hmb.
  set (k := i / es) in *. set (off := i mod es) in *.
  assert (Hk : k < uint_num rows es).
  { destruct (uint_num_spec rows es Hes) as [U1 _]. destruct (Nat.le_gt_cases (uint_num rows es) k) as [Hge|]; auto.
    assert (uint_num rows es * es <= k * es) by (apply Nat.mul_le_mono_r; lia). rewrite Nat.mul_comm in Edm. lia. }
  assert (Hpos : k * (es * el) + off * el = i * el) by (rewrite Edm, Nat.mul_add_distr_r; lia).
  assert (Hi1 : i * el + el <= rows * el).
  { replace (i * el + el) with ((i + 1) * el) by (rewrite Nat.mul_add_distr_r; lia). apply Nat.mul_le_mono_r. lia. }
  assert (Hoff : off * el + el <= es * el).
  { replace (off * el + el) with ((off + 1) * el) by (rewrite Nat.mul_add_distr_r; lia). apply Nat.mul_le_mono_r. lia. }
  destruct (Rv k) as (c & out & En & Eo & Ro); [rewrite Htot; lia|exact Hk|].
  exists c, out. split.
  { rewrite nth_error_app1; auto. apply nth_error_Some. congruence. }
  split; [exact Eo|].
  cbv zeta in Ro. cbn [Nat.add] in Ro. rewrite Htot in Ro.
  set (sz := Nat.min (es * el) (rows * el - k * (es * el))) in *.
  destruct Ro as [Lo Fo].
  assert (Hsz : off * el + el <= sz) by (unfold sz; lia).
  unfold slice_row.
  assert (Hc : (off * el <=? off * el + el) && (off * el + el <=? length out) = true)
    by (apply andb_true_intro; split; apply Nat.leb_le; lia).
  rewrite Hc. replace (off * el + el - off * el) with el by lia.
  cut (firstn el (skipn (off * el) out) = nth i raw []); [intros ->; reflexivity|].
  transitivity (firstn el (skipn (off * el) (firstn sz out))).
  { rewrite skipn_firstn_comm, firstn_firstn. rewrite Nat.min_l by lia. reflexivity. }
  rewrite Fo, skipn_firstn_comm, firstn_firstn, Nat.min_l by lia.
  rewrite <- (concat_fixed_row raw el i) by (auto; lia). f_equal.
  rewrite <- Hpos. generalize (k * (es * el)). intro m.
  generalize (concat raw). intros l. clear. revert l.
  induction m as [|m IHm]; intros l; [reflexivity|]. cbn [Nat.add]. destruct l; [rewrite !skipn_nil; reflexivity|].
  cbn [skipn]. apply IHm.
Qed.

End Layout.
