(** Lemmas about Baxos::Solve: hashing into bins and merging. *)
From Coq Require Import List Arith NArith Bool Lia Permutation.
From Verif Require Import Base BaseProofs StoreModel GfModel GfSpec GfProofs GfProofs2 OkvsModel OkvsSpec OkvsProofs OkvsProofs2 OkvsProofs3 OkvsProofs4
  PaxEncModel PaxEncProofs PaxEncProofs2 PaxEncProofs5 PaxEncProofs6 PaxEncProofs8 PaxEncProofs9 PaxEncProofs10 BaxEncModel.
Import ListNotations.
Local Open Scope nat_scope.

Lemma key_bin : forall nb tail h, 1 <= nb -> (h < 2 ^ 128)%N ->
  N.to_nat (if tail : bool then bin_tail (N.of_nat nb) h else bin_main (N.of_nat nb) h) = bno nb h.
Proof. intros nb [|] h Hn H; [reflexivity|]. rewrite bin_main_is by (try assumption; lia). reflexivity. Qed.
Lemma nth_skipn0 : forall (A : Type) (d : A) m l i, nth i (skipn m l) d = nth (m + i) l d.
Proof. intros A d m. induction m as [|m IH]; intros [|x l] i; cbn; try reflexivity; [destruct i; reflexivity|apply IH]. Qed.
Lemma nth_firstn0 : forall (A : Type) (d : A) m l i, nth i (firstn m l) d = if i <? m then nth i l d else d.
Proof.
  intros A d m. induction m as [|m IH]; intros [|x l] i; cbn [firstn].
  - destruct i; reflexivity.
  - destruct i; reflexivity.
  - destruct (i <? S m); destruct i; reflexivity.
  - destruct i as [|i]; [reflexivity|]. cbn [nth]. rewrite IH. reflexivity.
Qed.

Lemma nth_repeat_nil : forall (A : Type) n b, nth b (repeat (@nil A) n) [] = [].
Proof. intros A n. induction n as [|n IH]; intros [|b]; cbn; auto. Qed.
Lemma split_number : forall m k (l : list N), number k (firstn m l) ++ number (k + m) (skipn m l) = number k l \/ length l < m.
Proof.
  intros m k l. destruct (lt_dec (length l) m) as [H|H]; [right; assumption|left].
  rewrite <- (firstn_skipn m l) at 3. rewrite number_app. f_equal. f_equal. rewrite firstn_length. lia.
Qed.
Lemma thread_split : forall begin (ins : list N),
  number begin (firstn (length ins / 32 * 32) ins) ++ number (begin + length ins / 32 * 32) (skipn (length ins / 32 * 32) ins) = number begin ins.
Proof.
  intros begin ins. destruct (split_number (length ins / 32 * 32) begin ins) as [E|E]; [assumption|].
  exfalso. pose proof (Nat.mul_div_le (length ins) 32). lia.
Qed.

Section Bins.
Variables (aes : N -> N) (nb cap : nat) (values : list N).
Hypothesis Hnb : 1 <= nb.
Hypothesis Ha : forall x, (aes x < 2 ^ 128)%N.

Definition kvs (l : list (nat * N)) : list (N * N) := map (fun ix => (aes (snd ix), at0 values (fst ix))) l.
Definition inbin (b : nat) (hv : N * N) : bool := bno nb (fst hv) =? b.

Lemma keys_facts : forall tail l bins bins', ofold (bx_key aes tail nb cap values) l bins = Ok bins' -> length bins = nb ->
  length bins' = nb /\ Forall (fun ix => fst ix < length values) l /\
  (forall b, b < nb -> nth b bins' [] = nth b bins [] ++ filter (inbin b) (kvs l)) /\
  ((forall b, b < nb -> length (nth b bins []) <= cap) -> forall b, b < nb -> length (nth b bins' []) <= cap).
Proof using Hnb Ha.
  intros tail l. induction l as [|[i x] l IH]; intros bins bins' H L.
  - cbn in H. injection H as <-. split; [assumption|]. split; [constructor|]. split; [|auto]. intros. cbn. rewrite app_nil_r. reflexivity.
  - cbn [ofold] in H. apply bind_ok in H. destruct H as (b1 & E & H). unfold bx_key in E. cbn [fst snd] in E.
    apply bind_ok in E. destruct E as (v & E1 & E). apply (vget_ok _ 0%N) in E1. destruct E1 as [Li E1].
    unfold bx_put in E. rewrite key_bin in E by auto. apply bind_ok in E. destruct E as (c & E2 & E). apply (vget_ok _ []) in E2. destruct E2 as [Lb E2].
    destruct (Nat.ltb_spec (length c) cap) as [Q|Q]; [|destruct tail; discriminate]. apply vset_ok in E. destruct E as [_ ->].
    destruct (IH _ _ H) as (A & B & C & D); [rewrite upd_len; assumption|]. split; [assumption|]. split; [constructor; assumption|].
    assert (U : forall b, b < nb -> nth b (upd (bno nb (aes x)) (fun _ => c ++ [(aes x, v)]) bins) [] =
                     nth b bins [] ++ filter (inbin b) [(aes x, v)]).
    { intros b Hb. rewrite upd_get by lia. cbn [filter]. unfold inbin. cbn [fst]. destruct (Nat.eqb_spec b (bno nb (aes x))) as [->|X].
      - rewrite Nat.eqb_refl, E2. reflexivity.
      - destruct (Nat.eqb_spec (bno nb (aes x)) b); [congruence|]. rewrite app_nil_r. reflexivity. }
    split.
    + intros b Hb. rewrite C, U by assumption. rewrite <- app_assoc. f_equal. cbn [kvs map fst snd]. fold (kvs l).
      rewrite <- filter_app. cbn [app]. unfold at0. rewrite E1. reflexivity.
    + intros F. apply D. intros b Hb. rewrite upd_get by lia. destruct (Nat.eqb_spec b (bno nb (aes x))) as [->|X]; [|auto].
      rewrite app_length. cbn. lia.
Qed.
Lemma keys_prog : forall tail l bins, length bins = nb -> Forall (fun ix => fst ix < length values) l ->
  (forall b, b < nb -> length (nth b bins [] ++ filter (inbin b) (kvs l)) <= cap) ->
  exists bins', ofold (bx_key aes tail nb cap values) l bins = Ok bins'.
Proof using Hnb Ha.
  intros tail l. induction l as [|[i x] l IH]; intros bins L F H; [cbn; eauto|]. cbn [ofold]. inversion F as [|? ? F1 F2]; subst. cbn [fst] in F1.
  unfold bx_key at 1. cbn [fst snd]. rewrite (vget_in _ 0%N) by assumption. cbn [bind]. unfold bx_put. rewrite key_bin by auto.
  pose proof (bno_lt nb Hnb (aes x)) as Lb. rewrite (vget_in _ []) by lia. cbn [bind].
  pose proof (H _ Lb) as Q. rewrite app_length in Q. cbn [kvs map fst snd filter] in Q. unfold inbin at 1 in Q. cbn [fst] in Q. rewrite Nat.eqb_refl in Q. cbn [length] in Q.
  destruct (Nat.ltb_spec (length (nth (bno nb (aes x)) bins [])) cap); [|lia]. rewrite vset_in by lia. cbn [bind].
  apply IH; [rewrite upd_len; assumption|assumption|]. intros b Hb. specialize (H b Hb). rewrite upd_get by lia.
  cbn [kvs map fst snd filter] in H. fold (kvs l) in H. unfold inbin at 1 in H. cbn [fst] in H.
  destruct (Nat.eqb_spec b (bno nb (aes x))) as [->|X].
  - rewrite Nat.eqb_refl in H. rewrite <- app_assoc. exact H.
  - destruct (Nat.eqb_spec (bno nb (aes x)) b); [congruence|]. exact H.
Qed.

Lemma thread_facts : forall begin ins bins, bx_thread aes nb cap values begin ins = Ok bins ->
  length bins = nb /\ Forall (fun ix => fst ix < length values) (number begin ins) /\
  forall b, b < nb -> nth b bins [] = filter (inbin b) (kvs (number begin ins)) /\ length (nth b bins []) <= cap.
Proof using Hnb Ha.
  intros begin ins bins H. unfold bx_thread in H. apply bind_ok in H. destruct H as (b1 & E & H).
  apply keys_facts in E; [|apply repeat_length]. destruct E as (A & B & C & D). apply keys_facts in H; [|assumption]. destruct H as (A' & B' & C' & D').
  split; [assumption|]. rewrite <- (thread_split begin ins). split; [apply Forall_app; split; assumption|].
  intros b Hb. split.
  - rewrite C', C, nth_repeat_nil by assumption. cbn [app]. unfold kvs. rewrite map_app, filter_app. reflexivity.
  - apply D'; [|assumption]. apply D. intros b' _. rewrite nth_repeat_nil. cbn. lia.
Qed.
Lemma thread_prog : forall begin ins, Forall (fun ix => fst ix < length values) (number begin ins) ->
  (forall b, b < nb -> length (filter (inbin b) (kvs (number begin ins))) <= cap) ->
  exists bins, bx_thread aes nb cap values begin ins = Ok bins.
Proof using Hnb Ha.
  intros begin ins F H. rewrite <- (thread_split begin ins) in F, H. apply Forall_app in F. destruct F as [F1 F2]. unfold bx_thread.
  destruct (keys_prog false (number begin (firstn (length ins / 32 * 32) ins)) (repeat [] nb)) as [b1 E]; [apply repeat_length|assumption| |].
  - intros b Hb. rewrite nth_repeat_nil. cbn [app]. specialize (H b Hb). unfold kvs in *. rewrite map_app, filter_app, app_length in H. lia.
  - rewrite E. cbn [bind]. apply keys_facts in E; [|apply repeat_length]. destruct E as (A & B & C & D).
    apply keys_prog; [assumption|assumption|]. intros b Hb. specialize (H b Hb). rewrite C, nth_repeat_nil by assumption. cbn [app].
    unfold kvs in *. rewrite map_app, filter_app in H. exact H.
Qed.
End Bins.

(** Slices of a numbered list. *)
Lemma number_skipn : forall (A : Type) m (l : list A) k, skipn m (number k l) = number (k + m) (skipn m l).
Proof.
  intros A m. induction m as [|m IH]; intros [|x l] k; cbn [skipn number]; try reflexivity; [f_equal; rewrite Nat.add_0_r; reflexivity|].
  rewrite IH. f_equal. lia.
Qed.
Lemma number_firstn : forall (A : Type) m (l : list A) k, firstn m (number k l) = number k (firstn m l).
Proof. intros A m. induction m as [|m IH]; intros [|x l] k; cbn [firstn number]; try reflexivity. rewrite IH. reflexivity. Qed.
Lemma number_slice : forall (A : Type) T i (l : list A), number (length l * i / T) (par_slice T i l) = par_slice T i (number 0 l).
Proof. intros A T i l. unfold par_slice. rewrite number_length, number_skipn, number_firstn. reflexivity. Qed.

Lemma filter_concat : forall (A : Type) (f : A -> bool) ls, filter f (concat ls) = concat (map (filter f) ls).
Proof. intros A f ls. induction ls as [|l ls IH]; [reflexivity|]. cbn [concat map]. rewrite filter_app, IH. reflexivity. Qed.

(** Merging. *)
Lemma copy_up_is : forall size dst src l, dst <= src -> src + size <= length l ->
  copy_up dst src size l = Ok (firstn dst l ++ firstn size (skipn src l) ++ skipn (dst + size) l).
Proof.
  intros size dst src l Hd Hl. unfold copy_up.
  assert (G : forall k, k <= size -> ofold (fun j l => do x <- vget l (src + j); vset l (dst + j) x) (seq 0 k) l =
              Ok (firstn dst l ++ firstn k (skipn src l) ++ skipn (dst + k) l)).
  { induction k as [|k IH]; intros Hk.
    - cbn [seq ofold firstn app]. rewrite Nat.add_0_r, firstn_skipn. reflexivity.
    - rewrite seq_S, Nat.add_0_l, ofold_app, IH by lia. cbn [bind ofold].
      set (m := firstn dst l ++ firstn k (skipn src l) ++ skipn (dst + k) l).
      assert (L1 : length (firstn dst l) = dst) by (rewrite firstn_length; lia).
      assert (L2 : length (firstn k (skipn src l)) = k) by (rewrite firstn_length, skipn_length; lia).
      assert (Lm : length m = length l) by (unfold m; rewrite !app_length, L1, L2, skipn_length; lia).
      rewrite (vget_in _ 0%N) by lia. cbn [bind]. rewrite vset_in by lia. cbn [bind]. f_equal.
      assert (Em : nth (src + k) m 0%N = nth (src + k) l 0%N).
      { unfold m. rewrite app_nth2 by lia. rewrite app_nth2 by lia. rewrite L1, L2.
        rewrite nth_skipn0. f_equal. lia. }
      rewrite Em. apply (nth_ext _ _ 0%N 0%N).
      + rewrite upd_len, Lm, !app_length, L1, firstn_length, !skipn_length. lia.
      + intros p Hp. rewrite upd_len, Lm in Hp. rewrite upd_get by lia. destruct (Nat.eqb_spec p (dst + k)) as [->|X].
        * rewrite app_nth2 by lia. rewrite L1. rewrite app_nth1 by (rewrite firstn_length, skipn_length; lia).
          replace (dst + k - dst) with k by lia. rewrite nth_firstn0. destruct (Nat.ltb_spec k (S k)); [|lia]. rewrite nth_skipn0. reflexivity.
        * unfold m. destruct (lt_dec p dst) as [Y|Y].
          { rewrite !app_nth1 by lia. reflexivity. }
          rewrite !(app_nth2 (firstn dst l)) by lia. rewrite L1.
          destruct (lt_dec (p - dst) k) as [Z|Z].
          { rewrite !app_nth1 by (rewrite ?firstn_length, ?skipn_length; lia). rewrite !nth_firstn0.
            destruct (Nat.ltb_spec (p - dst) k), (Nat.ltb_spec (p - dst) (S k)); try lia; reflexivity. }
          rewrite (app_nth2 (firstn k _)) by lia. rewrite (app_nth2 (firstn (S k) _)) by (rewrite firstn_length, skipn_length; lia).
          rewrite L2, firstn_length, skipn_length, !nth_skipn0. f_equal. lia. }
  apply G. lia.
Qed.

Lemma skip_skip : forall (A : Type) a b (l : list A), skipn a (skipn b l) = skipn (a + b) l.
Proof. intros A a b. induction b as [|b IH]; intros l; [rewrite Nat.add_0_r; reflexivity|]. rewrite Nat.add_succ_r. destruct l; [destruct a; reflexivity|apply IH]. Qed.
Definition padded (cap : nat) (l : list N) : list N := l ++ repeat 0%N (cap - length l).
Lemma padded_len : forall cap l, length l <= cap -> length (padded cap l) = cap.
Proof. intros cap l H. unfold padded. rewrite app_length, repeat_length. lia. Qed.
Lemma region_len : forall cap ps, Forall (fun l => length l <= cap) ps -> length (bx_region cap ps) = cap * length ps.
Proof.
  intros cap ps H. induction H as [|l ps Hl H IH]; [cbn; lia|]. unfold bx_region in *. cbn [map concat length]. fold (padded cap l).
  rewrite app_length, padded_len, IH by assumption. lia.
Qed.

(** The state of the merge: what was merged, and the parts still to come in their places. *)
Definition merged (cap i : nat) (done rest : list (list N)) (l : list N) : Prop :=
  length (concat done) <= cap * i /\ firstn (length (concat done)) l = concat done /\ skipn (cap * i) l = bx_region cap rest.
Lemma merged_step : forall cap i done a rest l, Forall (fun l => length l <= cap) (a :: rest) -> merged cap i done (a :: rest) l ->
  let pos := length (concat done) in
  let l' := firstn pos l ++ firstn (length a) (skipn (cap * i) l) ++ skipn (pos + length a) l in
  mem_move pos (cap * i) (length a) l = Ok l' /\ copy_up pos (cap * i) (length a) l = Ok l' /\ merged cap (S i) (done ++ [a]) rest l'.
Proof.
  intros cap i done a rest l F (H1 & H2 & H3) pos l'. inversion F as [|? ? Fa Fr]; subst.
  assert (L : length l = cap * i + cap * S (length rest)).
  { pose proof (f_equal (@length N) H3) as X. rewrite skipn_length, (region_len cap (a :: rest)) in X by assumption. cbn [length] in X.
    rewrite Nat.mul_succ_r in *. 
    assert (Y : cap * i <= length l \/ length l < cap * i) by lia. destruct Y as [Y|Y]; [lia|].
    assert (Z : cap = 0) by nia. subst cap. cbn in *. lia. }
  rewrite Nat.mul_succ_r in L.
  assert (E : firstn (length a) (skipn (cap * i) l) = a).
  { rewrite H3. unfold bx_region. cbn [map concat]. rewrite <- app_assoc, firstn_app, firstn_all, Nat.sub_diag. cbn [firstn]. apply app_nil_r. }
  split; [|split].
  - unfold mem_move. rewrite !(proj2 (Nat.leb_le _ _)) by (unfold pos; lia). reflexivity.
  - apply copy_up_is; unfold pos; lia.
  - unfold l'. rewrite E. unfold merged. rewrite concat_app. cbn [concat]. rewrite app_nil_r, app_length. fold pos.
    assert (Lp : length (firstn pos l) = pos) by (rewrite firstn_length; unfold pos; lia).
    split; [unfold pos; lia|]. split.
    + rewrite app_assoc. rewrite firstn_app. rewrite app_length, Lp. rewrite Nat.sub_diag. cbn [firstn]. rewrite app_nil_r.
      rewrite firstn_all2 by (rewrite app_length, Lp; lia). f_equal. exact H2.
    + rewrite app_assoc, skipn_app, app_length, Lp. rewrite skipn_all2 by (rewrite app_length, Lp; unfold pos; lia). cbn [app].
      rewrite skip_skip. replace (cap * S i - (pos + length a) + (pos + length a)) with (cap + cap * i) by (unfold pos; lia).
      rewrite <- skip_skip, H3. unfold bx_region at 1. cbn [map concat]. fold (padded cap a). rewrite skipn_app, padded_len by assumption.
      rewrite skipn_all2 by (rewrite padded_len by assumption; lia). rewrite Nat.sub_diag. reflexivity.
Qed.

Theorem merge_ok : forall cap (parts : list (list (N * N))), parts <> [] -> Forall (fun l => length l <= cap) parts ->
  exists h v, bx_merge cap (map (@length (N * N)) parts) (bx_region cap (map (map fst) parts), bx_region cap (map (map snd) parts)) = Ok (h, v) /\
  firstn (list_sum (map (@length (N * N)) parts)) h = map fst (concat parts) /\
  firstn (list_sum (map (@length (N * N)) parts)) v = map snd (concat parts).
Proof.
  intros cap [|p0 parts] NE F; [contradiction|]. inversion F as [|? ? F0 F']; subst.
  set (G := fun (is : nat * nat) (st : nat * list N * list N) =>
            let '(pos, h, v) := st in
            enforce (snd is <=? cap)
             (do h <- mem_move pos (cap * fst is) (snd is) h;
              do v <- copy_up pos (cap * fst is) (snd is) v;
              Ok (pos + snd is, h, v))).
  assert (X : forall rest done i h v, Forall (fun l => length l <= cap) rest ->
    merged cap i (map (map fst) done) (map (map fst) rest) h -> merged cap i (map (map snd) done) (map (map snd) rest) v ->
    exists h' v', ofold G (number i (map (@length (N * N)) rest)) (length (concat done), h, v) = Ok (length (concat (done ++ rest)), h', v') /\
      firstn (length (concat (done ++ rest))) h' = map fst (concat (done ++ rest)) /\
      firstn (length (concat (done ++ rest))) v' = map snd (concat (done ++ rest))).
  { induction rest as [|a rest IH]; intros done i h v Fr Mh Mv.
    - exists h, v. rewrite app_nil_r. split; [reflexivity|]. destruct Mh as (_ & Mh & _), Mv as (_ & Mv & _).
      rewrite <- concat_map, map_length in Mh, Mv. auto.
    - inversion Fr as [|? ? Fa Fr']; subst. cbn [map number ofold]. unfold G at 1. cbn [fst snd]. rewrite (proj2 (Nat.leb_le _ _)) by assumption. cbn [enforce].
      assert (Q : forall (f : N * N -> N), Forall (fun l => length l <= cap) (map f a :: map (map f) rest)).
      { intros f. change (map f a :: map (map f) rest) with (map (map f) (a :: rest)). apply Forall_forall. intros z Z. apply in_map_iff in Z.
        destruct Z as (z' & <- & Z). rewrite map_length. rewrite Forall_forall in Fr. auto. }
      destruct (merged_step cap i _ _ _ h (Q fst) Mh) as (E1 & _ & M1). destruct (merged_step cap i _ _ _ v (Q snd) Mv) as (_ & E2 & M2).
      rewrite <- concat_map, !map_length in E1, E2. rewrite E1. cbn [bind]. rewrite E2. cbn [bind].
      replace (length (concat done) + length a) with (length (concat (done ++ [a]))) by (rewrite concat_app, app_length; cbn; rewrite app_nil_r; reflexivity).
      replace (done ++ a :: rest) with ((done ++ [a]) ++ rest) by (rewrite <- app_assoc; reflexivity).
      rewrite <- concat_map, !map_length in M1, M2. apply IH; [assumption| |]; rewrite map_app, concat_app, app_length; cbn [concat map]; rewrite app_nil_r; assumption. }
  assert (R : forall (f : N * N -> N), merged cap 1 (map (map f) [p0]) (map (map f) parts) (bx_region cap (map (map f) (p0 :: parts)))).
  { intros f. unfold merged. cbn [map concat]. rewrite app_nil_r, map_length. unfold bx_region. cbn [map concat]. rewrite Nat.mul_1_r.
    split; [assumption|]. split.
    - rewrite <- app_assoc, firstn_app, map_length, Nat.sub_diag. cbn [firstn]. rewrite app_nil_r. apply firstn_all2. rewrite map_length. lia.
    - fold (padded cap (map f p0)). rewrite skipn_app, padded_len by (rewrite map_length; assumption).
      rewrite skipn_all2 by (rewrite padded_len by (rewrite map_length; assumption); lia). rewrite Nat.sub_diag. reflexivity. }
  destruct (X parts [p0] 1 _ _ F' (R fst) (R snd)) as (h & v & E & A & B).
  exists h, v. cbn [app] in *.
  assert (LS : list_sum (map (@length (N * N)) (p0 :: parts)) = length (concat (p0 :: parts))).
  { clear. generalize (p0 :: parts). intros l. induction l as [|a l IH]; [reflexivity|]. cbn [map list_sum fold_right concat]. rewrite app_length, <- IH. reflexivity. }
  rewrite LS. split; [|split; assumption]. cbn [map bx_merge]. rewrite (proj2 (Nat.leb_le _ _)) by assumption. cbn [enforce fst snd].
  fold G. replace (length p0) with (length (concat [p0])) by (cbn; rewrite app_nil_r; reflexivity).
  cbn [map] in E. rewrite E. reflexivity.
Qed.
