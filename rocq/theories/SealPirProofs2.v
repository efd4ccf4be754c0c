(** SealPIR's database: every row can be taken out of its plaintexts. *)
From Coq Require Import List Arith NArith ZArith Lia Bool.
From Verif Require Import Base StoreModel StoreProofs Text PirPackModel PirPackSpec PirPackProofs PirPackProofs2 SpLoopModel SpLoopProofs NttModel
  SpArithModel SpSrvProofs1 SealPirModel SealPirSpec SealPirProofs1.
Import ListNotations.

Lemma store_mid : forall e a b c, length b = length e -> store (length a) e (a ++ b ++ c) = Ok (a ++ e ++ c).
Proof.
  induction e as [|x e IH]; intros a b c H.
  - destruct b; [reflexivity|discriminate].
  - destruct b as [|y b]; [discriminate|]. cbn [store]. unfold put.
    rewrite (proj2 (Nat.ltb_lt _ _)) by (rewrite !app_length; cbn [length]; lia). cbn [app]. rewrite upd_app. cbn [bind].
    replace (a ++ x :: b ++ c) with ((a ++ [x]) ++ b ++ c) by (rewrite <- app_assoc; reflexivity).
    replace (S (length a)) with (length (a ++ [x])) by (rewrite app_length; cbn; lia).
    rewrite IH by (injection H; auto). rewrite <- app_assoc. reflexivity.
Qed.

Lemma firstn_seg : forall (A : Type) (l : list A) o k x, nth_error l (o + k) = Some x ->
  firstn (S k) (skipn o l) = firstn k (skipn o l) ++ [x].
Proof.
  intros A l o k x H. revert l H. induction o as [|o IH]; intros l H.
  - cbn [skipn]. cbn in H. revert l H. induction k as [|k IHk]; intros l H; destruct l as [|y l]; try discriminate.
    + cbn in H. injection H as ->. reflexivity.
    + cbn [nth_error] in H. cbn [firstn app]. f_equal. apply IHk, H.
  - destruct l as [|y l]; [destruct (o + k); discriminate H|]. cbn [skipn]. apply IH. exact H.
Qed.

Lemma nth_firstn_skipn : forall (A : Type) (d : A) (l : list A) o k r, r < k -> nth r (firstn k (skipn o l)) d = nth (o + r) l d.
Proof.
  intros A d l o k r H. revert l r k H. induction o as [|o IH]; intros l r k H.
  - cbn [skipn Nat.add]. revert r k H. induction l as [|x l IHl]; intros r k H; [rewrite firstn_nil; reflexivity|].
    destruct k; [lia|]. destruct r; [reflexivity|]. cbn [firstn nth]. apply IHl. lia.
  - destruct l as [|x l]; [cbn [skipn]; rewrite firstn_nil; destruct r; reflexivity|]. cbn [skipn Nat.add nth]. apply IH, H.
Qed.

Lemma bits_slice : forall (out : list N) k loc, Forall is_byte out -> (k + 1) * loc <= length out ->
  bitstring 8 (firstn loc (skipn (k * loc) out)) = firstn (8 * loc) (skipn (8 * (k * loc)) (bitstring 8 out)).
Proof.
  intros out k loc Hb Hlen. rewrite bitstring_firstn, (Nat.mul_comm loc 8). f_equal.
  rewrite <- (firstn_skipn (k * loc) out) at 2. rewrite bitstring_app, skipn_app, bitstring_length, firstn_length.
  rewrite (skipn_all2 (bitstring 8 (firstn (k * loc) out))) by (rewrite bitstring_length, firstn_length; lia).
  replace (8 * (k * loc) - Nat.min (k * loc) (length out) * 8) with 0 by lia. reflexivity.
Qed.

Lemma skipn_concat : forall (l : list (list bool)) len k, (forall x, In x l -> length x = len) -> k < length l ->
  firstn len (skipn (k * len) (concat l)) = nth k l [].
Proof.
  induction l as [|x l IH]; intros len k H Hk; [cbn in Hk; lia|].
  assert (Lx : length x = len) by (apply H; left; reflexivity). cbn [concat].
  destruct k as [|k]; cbn [Nat.mul nth].
  - cbn [skipn]. rewrite firstn_app, Lx, Nat.sub_diag, firstn_O, app_nil_r. apply firstn_all2. lia.
  - rewrite skipn_app, skipn_all2 by lia. cbn [app]. rewrite Lx. replace (len + k * len - len) with (k * len) by lia.
    apply IH; [intros y Hy; apply H; right; exact Hy|cbn [length] in Hk; lia].
Qed.

Section Db.
Variable P : seal_params.
Variables encode decode : list N -> list N.
Local Notation n := (sl_n P).
Local Notation logt := (sl_logt P).
Local Notation small x := (x < 2 ^ N.of_nat logt)%N.

(** * One plaintext *)

Lemma take_chunk_ok : forall epp loc (db : list bytes) todo offset p acc, 1 <= loc -> (forall r, In r db -> length r = loc) ->
  offset + todo <= length db -> p <= epp ->
  let k := Nat.min (epp - p) todo in
  take_chunk todo db loc (epp * loc) offset (p * loc) acc
  = Ok (acc ++ concat (firstn k (skipn offset db)), offset + k, (p + k) * loc).
Proof.
  intros epp loc db todo. induction todo as [|todo IH]; intros offset p acc Hl Hrow Hlen Hp; cbn zeta.
  - rewrite Nat.min_0_r. cbn [take_chunk firstn concat]. rewrite app_nil_r, !Nat.add_0_r. reflexivity.
  - cbn [take_chunk]. destruct (Nat.eq_dec p epp) as [->|Hne].
    + rewrite (proj2 (Nat.leb_gt _ _)) by lia. rewrite Nat.sub_diag, Nat.min_0_l. cbn [firstn concat].
      rewrite app_nil_r, !Nat.add_0_r. reflexivity.
    + assert (Hle : (S p) * loc <= epp * loc) by (apply Nat.mul_le_mono_r; lia).
      rewrite (proj2 (Nat.leb_le _ _)) by (cbn [Nat.mul] in Hle; lia).
      destruct (nth_error db offset) as [row|] eqn:En; [|apply nth_error_None in En; lia]. cbn [bind].
      replace (p * loc + loc) with (S p * loc) by (cbn [Nat.mul]; lia).
      rewrite (IH (S offset) (S p)); [|lia|exact Hrow|lia|lia]. cbn zeta.
      replace (Nat.min (epp - p) (S todo)) with (S (Nat.min (epp - S p) todo)) by lia.
      rewrite (skipn_nth _ db offset row En). cbn [firstn concat]. rewrite app_assoc.
      f_equal. f_equal; [f_equal; lia|]. f_equal. lia.
Qed.

Definition good_groups (loc : nat) (gs : list (list N)) : Prop :=
  Forall (fun g => Forall (fun x => small x) g /\ length g = coeffs_per_element logt loc) gs.

Lemma groups_length : forall loc gs, good_groups loc gs -> length (concat gs) = length gs * coeffs_per_element logt loc.
Proof. intros loc gs H. induction H as [|g r [_ L] _ IH]; [reflexivity|]. cbn [concat length]. rewrite app_length, IH, L. lia. Qed.

Lemma pack_chunk_ok : forall loc epp (rows : list bytes), 1 <= logt <= 64 -> 1 <= loc -> length rows <= epp ->
  (forall r, In r rows -> length r = loc /\ Forall is_byte r) -> epp * coeffs_per_element logt loc <= n ->
  exists gs, length gs = epp /\ good_groups loc gs
    /\ pack_chunk encode P loc (coeffs_per_element logt loc) (epp * coeffs_per_element logt loc) (length rows) (concat rows)
       = Ok (encode (concat gs ++ repeat 1%N (n - epp * coeffs_per_element logt loc)))
    /\ forall r, r < length rows -> firstn (8 * loc) (bitstring logt (nth r gs [])) = bitstring 8 (nth r rows []).
Proof.
  intros loc epp rows Hl Hloc Hlen Hrow Hfit. set (cpe := coeffs_per_element logt loc) in *.
  unfold pack_chunk.
  destruct (loop_rule (list N) (length rows) 0 (fun ele coeffs =>
      do e <- sl_pack logt (firstn loc (skipn (loc * ele) (concat rows))); store (cpe * ele) e coeffs)
    (fun i coeffs => exists gs, length gs = i /\ good_groups loc gs /\ coeffs = concat gs ++ repeat 0%N ((epp - i) * cpe)
      /\ forall r, r < i -> firstn (8 * loc) (bitstring logt (nth r gs [])) = bitstring 8 (nth r rows []))
    (repeat 0%N (epp * cpe))) as (cs & E & gs & Lg & Hg & -> & B).
  - exists []. rewrite Nat.sub_0_r. split; [reflexivity|]. split; [constructor|]. split; [reflexivity|]. intros; lia.
  - intros i st Hi (gs & Lg & Hg & -> & B). 
    rewrite (Nat.mul_comm loc i), (concat_fixed_row 1 64 ltac:(lia) ltac:(lia) ltac:(lia) rows loc i) by (try lia; intros r Hr; apply Hrow, Hr).
    destruct (Hrow (nth i rows [])) as [Lr Br]; [apply nth_In; lia|].
    destruct (sl_pack_ok logt (nth i rows []) Hl) as (e & E & Le & Fe & Be); [lia|exact Br|]. rewrite Lr in Le. fold cpe in Le. rewrite Lr in Be.
    rewrite E. cbn [bind]. exists (concat (gs ++ [e]) ++ repeat 0%N ((epp - (i + 1)) * cpe)). split.
    + replace ((epp - i) * cpe) with (cpe + (epp - (i + 1)) * cpe) by nia. rewrite repeat_app.
      replace (cpe * i) with (length (concat gs)) by (rewrite (groups_length loc gs Hg); fold cpe; nia).
      rewrite store_mid by (rewrite repeat_length; auto). rewrite concat_app. cbn [concat]. rewrite app_nil_r, <- app_assoc. reflexivity.
    + exists (gs ++ [e]). split; [rewrite app_length; cbn; lia|]. split; [apply Forall_app; split; [exact Hg|constructor; [split; assumption|constructor]]|].
      split; [reflexivity|]. intros r Hr. destruct (Nat.eq_dec r i) as [->|Hne].
      * rewrite app_nth2 by lia. rewrite Lg, Nat.sub_diag. exact Be.
      * rewrite app_nth1 by lia. apply B. lia.
  - cbn [Nat.add] in *. rewrite E. cbn [bind]. exists (gs ++ repeat (repeat 0%N cpe) (epp - length rows)).
    assert (Z : good_groups loc (repeat (repeat 0%N cpe) (epp - length rows))).
    { apply Forall_forall. intros x Hx. apply repeat_spec in Hx as ->. split; [|apply repeat_length].
      apply Forall_forall. intros y Hy. apply repeat_spec in Hy as ->. apply N.neq_0_lt_0, N.pow_nonzero. discriminate. }
    split; [rewrite app_length, repeat_length; lia|]. split; [apply Forall_app; split; assumption|]. split.
    + f_equal. f_equal. 
      assert (CZ : forall k, concat (repeat (repeat 0%N cpe) k) = repeat 0%N (k * cpe)).
      { induction k as [|k IHk]; [reflexivity|]. cbn [repeat concat Nat.mul]. rewrite IHk, repeat_app. reflexivity. }
      rewrite concat_app, CZ, app_length, repeat_length, (groups_length loc gs Hg). fold cpe.
      replace (length gs * cpe + (epp - length rows) * cpe) with (epp * cpe) by nia. reflexivity.
    + intros r Hr. rewrite app_nth1 by lia. apply B, Hr.
Qed.

(** * One partition *)

Hypothesis Hlogt : 1 <= logt <= 64.
Hypothesis Hn : 1 <= n.
Hypothesis Hepp : 1 <= sl_epp P.
Hypothesis Hnum : 1 <= sl_num P.
Hypothesis Hnpt : sl_npt P = ceil_div (sl_num P) (sl_epp P).
Set Default Proof Using "encode decode Hlogt Hn Hepp Hnum Hnpt".

(** Plaintext i holds the rows i * epp and following. *)
Definition vector_of (loc : nat) (db : list bytes) (i : nat) (v : list N) : Prop :=
  exists gs more, v = concat gs ++ more /\ length v = n /\ length gs = sl_epp P /\ good_groups loc gs /\ Forall (fun x => small x) more
    /\ forall r, r < sl_epp P -> i * sl_epp P + r < sl_num P ->
         firstn (8 * loc) (bitstring logt (nth r gs [])) = bitstring 8 (nth (i * sl_epp P + r) db []).

Lemma npt_bound : forall i, i < sl_npt P -> i * sl_epp P < sl_num P.
Proof.
  intros i Hi. rewrite Hnpt in Hi. unfold ceil_div in Hi.
  pose proof (Nat.div_mod (sl_num P + sl_epp P - 1) (sl_epp P) ltac:(lia)). 
  pose proof (Nat.mod_upper_bound (sl_num P + sl_epp P - 1) (sl_epp P) ltac:(lia)).
  assert ((i + 1) * sl_epp P <= (sl_num P + sl_epp P - 1) / sl_epp P * sl_epp P) by (apply Nat.mul_le_mono_r; lia). lia.
Qed.
Lemma npt_cover : forall idx, idx < sl_num P -> idx / sl_epp P < sl_npt P.
Proof.
  intros idx Hi. rewrite Hnpt. unfold ceil_div. apply Nat.div_lt_upper_bound; [lia|].
  pose proof (Nat.div_mod (sl_num P + sl_epp P - 1) (sl_epp P) ltac:(lia)). 
  pose proof (Nat.mod_upper_bound (sl_num P + sl_epp P - 1) (sl_epp P) ltac:(lia)). lia.
Qed.

Lemma gen_partition_ok : forall loc (db : list bytes), 1 <= loc -> length db = sl_num P ->
  (forall r, In r db -> length r = loc /\ Forall is_byte r) -> sl_epp P * coeffs_per_element logt loc <= n ->
  exists pts, gen_partition encode P (RawDb (sl_num P) loc db) = Ok (pts ++ repeat (repeat 1%N n) (N.to_nat (prod64 (sl_dims P)) - sl_npt P))
    /\ length pts = sl_npt P /\ forall i, i < sl_npt P -> exists v, nth i pts [] = encode v /\ vector_of loc db i v.
Proof.
  intros loc db Hloc Hdb Hrow Hfit. unfold gen_partition. cbn [rd_db].
  destruct (nth_error db 0) as [r0|] eqn:E0; [|apply nth_error_None in E0; lia]. cbn [bind].
  assert (L0 : length r0 = loc) by (apply Hrow; eapply nth_error_In; exact E0). rewrite L0.
  rewrite (proj2 (Nat.leb_le _ _) Hfit). cbn [enforce].
  set (body := fun (_ : nat) '(pts, offset) => _).
  destruct (loop_rule _ (sl_npt P) 0 body (fun i '(pts, offset) => offset = Nat.min (i * sl_epp P) (sl_num P) /\ length pts = i
      /\ forall k, k < i -> exists v, nth k pts [] = encode v /\ vector_of loc db k v) ([], 0)) as ([pts off] & E & Ho & Lp & H).
  - split; [reflexivity|]. split; [reflexivity|]. intros; lia.
  - intros i [pts offset] [_ Hi] (Ho & Lp & H). cbn [Nat.add] in Hi. pose proof (npt_bound i Hi) as Bi.
    assert (Hoff : offset = i * sl_epp P) by lia. clear Ho. 
    unfold body. change 0 with (0 * loc) at 1. rewrite take_chunk_ok; [|exact Hloc|intros r Hr; apply Hrow, Hr|lia|lia]. cbn [bind].
    rewrite Nat.sub_0_r, Nat.add_0_l. set (k := Nat.min (sl_epp P) (sl_num P - offset)). cbn [app].
    set (rows := firstn k (skipn offset db)).
    assert (Hrows : forall r, In r rows -> length r = loc /\ Forall is_byte r).
    { intros r Hr. apply Hrow. rewrite <- (firstn_skipn offset db). apply in_or_app. right.
      rewrite <- (firstn_skipn k (skipn offset db)). apply in_or_app. left. exact Hr. }
    assert (Lrows : length rows = k) by (unfold rows; rewrite firstn_length, skipn_length; lia).
    rewrite (concat_fixed_length rows loc) by (intros r Hr; apply Hrows, Hr). rewrite Lrows, Nat.eqb_refl. cbn [enforce].
    rewrite (proj2 (Nat.eqb_neq loc 0)) by lia. rewrite Nat.div_mul by lia.
    destruct (pack_chunk_ok loc (sl_epp P) rows Hlogt Hloc ltac:(lia) Hrows Hfit) as (gs & Lgs & Hgs & Ep & Bg). rewrite Lrows in Ep, Bg.
    rewrite Ep. cbn [bind]. eexists. split; [reflexivity|]. split; [lia|]. split; [rewrite app_length; cbn; lia|].
    intros k' Hk'. destruct (Nat.eq_dec k' i) as [->|Hne].
    + rewrite app_nth2 by lia. rewrite Lp, Nat.sub_diag. eexists. split; [reflexivity|].
      exists gs, (repeat 1%N (n - sl_epp P * coeffs_per_element logt loc)). split; [reflexivity|]. split.
      { rewrite app_length, repeat_length, (groups_length loc gs Hgs), Lgs. lia. }
      split; [exact Lgs|]. split; [exact Hgs|]. split.
      { apply Forall_forall. intros x Hx. apply repeat_spec in Hx as ->. change 1%N with (2 ^ 0)%N at 1. apply N.pow_lt_mono_r; lia. }
      intros r Hr1 Hr2. rewrite Bg by lia. f_equal. unfold rows. rewrite nth_firstn_skipn by lia. rewrite Hoff. reflexivity.
    + rewrite app_nth1 by lia. apply H. lia.
  - cbn [Nat.add] in *. rewrite E. cbn [bind]. exists pts. rewrite Lp. split; [reflexivity|]. split; [reflexivity|]. exact H.
Qed.

(** * Taking a row out *)

(** The whole row, when rows are not cut. *)
Lemma extract_whole : forall (db : list bytes) i r v pt, 1 <= sl_size P -> (N.of_nat (sl_size P) < 2 ^ 29)%N -> 
  length db = sl_num P -> (forall x, In x db -> length x = sl_size P /\ Forall is_byte x) ->
  vector_of (sl_size P) db i v -> r < sl_epp P -> i * sl_epp P + r < sl_num P -> decode pt = v ->
  extract_bytes decode P pt r (sl_size P) = Ok (nth (i * sl_epp P + r) db []).
Proof.
  intros db i r v pt Hs Hbig Hdb Hrow (gs & more & -> & Lv & Lg & Hg & Hm & B) Hr Hi Hpt. unfold extract_bytes. rewrite Hpt.
  destruct (sl_unpack_many logt (sl_size P) Hlogt Hs Hbig gs more Hg) as (out & E & Lo & Fo & Bo). rewrite Lg in E, Lo. rewrite E. cbn [bind].
  assert (Hle : (r + 1) * sl_size P <= length out) by (rewrite Lo; apply Nat.mul_le_mono_r; lia).
  unfold slice_row. rewrite (proj2 (Nat.leb_le (r * sl_size P) ((r + 1) * sl_size P))) by lia. rewrite (proj2 (Nat.leb_le _ _) Hle). cbn [andb].
  replace ((r + 1) * sl_size P - r * sl_size P) with (sl_size P) by lia. apply (f_equal (@Ok (list N))).
  destruct (Hrow (nth (i * sl_epp P + r) db [])) as [Lrow Brow]; [apply nth_In; lia|].
  apply bitstring_inj.
  - apply Forall_forall. intros x Hx. rewrite Forall_forall in Fo. apply Fo.
    rewrite <- (firstn_skipn (r * sl_size P) out). apply in_or_app. right.
    rewrite <- (firstn_skipn (sl_size P) (skipn (r * sl_size P) out)). apply in_or_app. left. exact Hx.
  - exact Brow.
  - rewrite bits_slice by assumption. rewrite Bo. rewrite <- (B r Hr Hi).
    replace (8 * (r * sl_size P)) with (r * (8 * sl_size P)) by lia.
    rewrite skipn_concat.
    + set (f := fun g => firstn (8 * sl_size P) (bitstring logt g)). rewrite (nth_indep _ [] (f [])) by (rewrite map_length; lia).
      apply (map_nth f).
    + intros x Hx. apply in_map_iff in Hx as (g & <- & Ig). unfold good_groups in Hg. rewrite Forall_forall in Hg. destruct (Hg g Ig) as [_ L].
      rewrite firstn_length, bitstring_length, L. pose proof (uint_num_spec (sl_size P * 8) logt ltac:(lia)) as U. unfold uint_num in U. unfold coeffs_per_element, ceil_div. lia.
    + rewrite map_length. lia.
Qed.

(** A part of a row. *)
Lemma extract_part : forall psize (db : list bytes) i v pt loc, 1 <= psize -> psize * 8 <= n * logt < psize * 8 + 8 -> psize < sl_size P -> (N.of_nat (sl_size P) < 2 ^ 29)%N ->
  sl_epp P = 1 -> length db = sl_num P -> (forall x, In x db -> length x = psize /\ Forall is_byte x) ->
  vector_of psize db i v -> i < sl_num P -> loc <= psize -> decode pt = v ->
  extract_bytes decode P pt 0 loc = Ok (firstn loc (nth i db [])).
Proof.
  intros psize db i v pt loc Hp Hfit Hps Hbig He Hdb Hrow (gs & more & -> & Lv & Lg & Hg & Hm & B) Hi Hloc Hpt. unfold extract_bytes. rewrite Hpt, He, Nat.mul_1_l.
  assert (Fv : Forall (fun x => small x) (concat gs ++ more)).
  { apply Forall_app. split; [|exact Hm]. apply Forall_forall. intros x Hx. apply in_concat in Hx as (g & Ig & Ix). unfold good_groups in Hg.
    rewrite Forall_forall in Hg. destruct (Hg g Ig) as [F _]. rewrite Forall_forall in F. apply F, Ix. }
  destruct (sl_unpack_one logt (sl_size P) Hlogt ltac:(lia) Hbig (concat gs ++ more) Fv) as (out & E & Lo & Bo); [rewrite Lv; lia|].
  rewrite E. cbn [bind]. unfold slice_row. cbn [Nat.add Nat.mul]. rewrite Nat.add_0_r. cbn [Nat.leb andb]. rewrite (proj2 (Nat.leb_le _ _)) by lia.
  rewrite Nat.sub_0_r. cbn [skipn]. apply (f_equal (@Ok (list N))). rewrite Lv in Bo. destruct (Bo loc ltac:(lia)) as [F1 F2].
  destruct (Hrow (nth i db [])) as [Lrow Brow]; [apply nth_In; lia|].
  apply bitstring_inj; [exact F1| |].
  - apply Forall_forall. intros x Hx. rewrite Forall_forall in Brow. apply Brow. rewrite <- (firstn_skipn loc (nth i db [])). apply in_or_app. left. exact Hx.
  - rewrite F2, bitstring_firstn. rewrite (Nat.mul_comm loc 8). specialize (B 0 ltac:(lia) ltac:(lia)).
    rewrite He, Nat.mul_1_r, Nat.add_0_r in B. rewrite <- B.
    destruct gs as [|g [|g2 gs]]; cbn [length] in Lg; try lia. cbn [concat nth]. rewrite app_nil_r.
    rewrite firstn_firstn. replace (Nat.min (8 * loc) (8 * psize)) with (8 * loc) by lia.
    rewrite bitstring_app, firstn_app. inversion Hg as [|x y [_ Lg1] _]; subst x y. rewrite bitstring_length, Lg1.
    pose proof (uint_num_spec (psize * 8) logt ltac:(lia)) as U. unfold uint_num in U. unfold coeffs_per_element, ceil_div.
    replace (8 * loc - (psize * 8 + logt - 1) / logt * logt) with 0 by lia. rewrite firstn_O, app_nil_r. reflexivity.
Qed.
End Db.
