From Coq Require Import List NArith Lia Bool Permutation Sorted Arith.
From Verif Require Import Base BaseProofs JoinModel JoinSpec JoinProofs.
Import ListNotations.

Section Keys.
Variable Key : Type.
Variable keqb : Key -> Key -> bool.
Hypothesis keqb_spec : forall a b, keqb a b = true <-> a = b.

Lemma keqb_refl : forall a, keqb a a = true.
Proof. intros. apply keqb_spec. reflexivity. Qed.

Lemma keqb_neq : forall a b, keqb a b = false <-> a <> b.
Proof.
  intros a b. split.
  - intros H ->. rewrite keqb_refl in H. discriminate.
  - intros H. destruct (keqb a b) eqn:E; auto. apply keqb_spec in E. contradiction.
Qed.

Notation kentry := (kentry Key).

Lemma in_expand : forall (es : list kentry) k, In k (expand es) <-> In k (map ke_key es).
Proof.
  intros es k. unfold expand. rewrite in_flat_map, in_map_iff. split.
  - intros (e & He & Hk). apply repeat_spec in Hk. eauto.
  - intros (e & <- & He). exists e. split; auto.
    rewrite Nat.add_1_r. left. reflexivity.
Qed.

Section Order.
Variable R : Key -> Key -> Prop.
Hypothesis R_anti : forall x y, R x y -> R y x -> x = y.

Lemma sorted_app_inv : forall (A : Type) (Q : A -> A -> Prop) (l1 l2 : list A),
  StronglySorted Q (l1 ++ l2) ->
  StronglySorted Q l1 /\ StronglySorted Q l2 /\ (forall x y, In x l1 -> In y l2 -> Q x y).
Proof.
  induction l1 as [|a l1 IH]; intros l2 H.
  - repeat split; auto. constructor. intros x y [].
  - inversion H as [|? ? Hs Hf]; subst. destruct (IH _ Hs) as (H1 & H2 & H3).
    rewrite Forall_forall in Hf. repeat split; auto.
    + constructor; auto. rewrite Forall_forall. intros y Hy. apply Hf. apply in_or_app; auto.
    + intros x y [->|Hx] Hy; [apply Hf, in_or_app; auto|auto].
Qed.

Lemma sorted_adj_strict : forall es : list kentry,
  adj es -> StronglySorted R (expand es) ->
  StronglySorted (fun a b => R a b /\ a <> b) (map ke_key es).
Proof.
  induction es as [|e es IH]; intros Ha Hs; simpl; [constructor|].
  simpl in Ha. destruct Ha as [Hhd Ha].
  simpl in Hs. apply sorted_app_inv in Hs. destruct Hs as (_ & Hs2 & Hc).
  constructor; [auto|].
  assert (Hin : In (ke_key e) (repeat (ke_key e) (N.to_nat (ke_dup e) + 1))).
  { rewrite Nat.add_1_r. left. reflexivity. }
  rewrite Forall_forall. intros k Hk.
  assert (HR : R (ke_key e) k).
  { apply Hc; auto. apply in_expand. exact Hk. }
  split; [exact HR|].
  intros Heq. subst k.
  destruct es as [|e2 es]; [destruct Hk|].
  simpl in Hk. destruct Hk as [Hk|Hk]; [congruence|].
  specialize (IH Ha Hs2). simpl in IH. inversion IH as [|? ? _ Hf]; subst.
  rewrite Forall_forall in Hf. destruct (Hf _ Hk) as [HR2 Hne2].
  apply Hhd. apply R_anti; auto.
  apply Hc; auto. apply in_expand. left. reflexivity.
Qed.

Lemma strict_nodup : forall l : list Key,
  StronglySorted (fun a b => R a b /\ a <> b) l -> NoDup l.
Proof.
  induction 1 as [|x l Hs IH Hf]; constructor; auto.
  intros Hin. rewrite Forall_forall in Hf. destruct (Hf _ Hin). congruence.
Qed.
End Order.

Lemma filter_all : forall (A : Type) (f : A -> bool) l,
  (forall x, In x l -> f x = true) -> filter f l = l.
Proof.
  induction l as [|a l IH]; intros H; simpl; auto.
  rewrite H by (left; auto). f_equal. apply IH. intros x Hx. apply H. right; auto.
Qed.

Lemma in_distinct : forall l k, In k (distinct keqb l) <-> In k l.
Proof.
  induction l as [|a l IH]; intros k; simpl; [tauto|].
  rewrite filter_In, IH. split.
  - intros [H|[H _]]; auto.
  - intros [H|H]; auto. destruct (keqb a k) eqn:E.
    + left. apply keqb_spec. exact E.
    + right. auto.
Qed.

Lemma nodup_distinct : forall l, NoDup (distinct keqb l).
Proof.
  induction l as [|a l IH]; simpl; constructor.
  - rewrite filter_In. intros [_ H]. rewrite keqb_refl in H. discriminate.
  - apply NoDup_filter. exact IH.
Qed.

Lemma distinct_repeat_app : forall n k l, ~ In k l ->
  distinct keqb (repeat k (n + 1) ++ l) = k :: distinct keqb l.
Proof.
  induction n as [|n IH]; intros k l Hk; simpl.
  - f_equal. apply filter_all. intros x Hx. apply (proj1 (in_distinct l x)) in Hx.
    apply negb_true_iff, keqb_neq. intros ->. auto.
  - rewrite IH by auto. simpl. rewrite keqb_refl. simpl. f_equal.
    apply filter_all. intros x Hx. apply (proj1 (in_distinct l x)) in Hx.
    apply negb_true_iff, keqb_neq. intros ->. auto.
Qed.

Lemma distinct_expand : forall es : list kentry,
  NoDup (map ke_key es) -> distinct keqb (expand es) = map ke_key es.
Proof.
  induction es as [|e es IH]; intros Hn; simpl; [reflexivity|].
  inversion Hn; subst. rewrite distinct_repeat_app.
  - f_equal. auto.
  - rewrite in_expand. auto.
Qed.

Lemma expand_position : forall (a : list kentry) e b j,
  NoDup (map ke_key (a ++ e :: b)) ->
  (total a <= N.of_nat j < total a + ke_dup e + 1)%N <->
  nth_error (expand (a ++ e :: b)) j = Some (ke_key e).
Proof.
  intros a e b j Hn. rewrite expand_app. simpl.
  pose proof (expand_length _ a) as Hla.
  rewrite map_app in Hn. simpl in Hn. apply NoDup_remove in Hn. destruct Hn as [_ Hn].
  rewrite in_app_iff in Hn.
  split.
  - intros H. rewrite nth_error_app2 by lia.
    rewrite nth_error_app1 by (rewrite repeat_length; lia).
    apply nth_error_repeat. lia.
  - intros H.
    destruct (lt_dec j (length (expand a))) as [Hlt|Hge].
    { rewrite nth_error_app1 in H by auto. apply nth_error_In in H.
      rewrite in_expand in H. tauto. }
    rewrite nth_error_app2 in H by lia.
    destruct (lt_dec (j - length (expand a)) (N.to_nat (ke_dup e) + 1)) as [Hlt2|Hge2]; [lia|].
    rewrite nth_error_app2 in H by (rewrite repeat_length; lia).
    apply nth_error_In in H. apply (in_expand b) in H. tauto.
Qed.

Lemma tiles_start : forall (a : list kentry) e b s,
  tiles s (a ++ e :: b) -> ke_start e = (s + total a)%N.
Proof. intros a e b s H. apply tiles_app in H. destruct H as [_ H]. simpl in H. tauto. Qed.

End Keys.

(* ------------------------------------------------------------------ *)
(** * The index processor as a single pass *)

(** One pass over all entries, no batches. *)
Fixpoint mi (i : N) (es : list (N * N)) (pend : list (N * N)) : outcome (list iinfo) :=
  match pend with
  | [] => Ok []
  | (j, p) :: pr =>
    match es with
    | [] => Throw
    | (s, d) :: es' =>
      if (i =? j)%N then omap (cons (mk_iinfo (u32 s) (u32 d) (u32 p))) (mi (i + 1) es' pr)
      else if (j <? i)%N then Throw
      else mi (i + 1) es' pend
    end
  end.

Definition pend_of (cur : option (N * N)) (rd : list (N * N)) : list (N * N) :=
  match cur with Some c => c :: rd | None => [] end.

(** Reader states in which the look-ahead is empty only at the end. *)
Definition rd_ok (cur : option (N * N)) (rd : list (N * N)) : Prop := cur = None -> rd = [].

Lemma rd_next_ok : forall rd c r, rd_next rd = (c, r) -> rd_ok c r /\ pend_of c r = rd.
Proof.
  intros [|x rd] c r H; inversion H; subst; unfold rd_ok; simpl; split; auto. discriminate.
Qed.

Lemma omap_omap : forall (A B C : Type) (f : A -> B) (g : B -> C) m,
  omap g (omap f m) = omap (fun a => g (f a)) m.
Proof. intros A B C f g [a| | |]; reflexivity. Qed.

Lemma omap_ext : forall (A B : Type) (f g : A -> B) m, (forall a, f a = g a) -> omap f m = omap g m.
Proof. intros A B f g [a| | |] H; simpl; try reflexivity. unfold omap, bind. rewrite H. reflexivity. Qed.

Lemma pscan_mi : forall batch cur rd i inter rest,
  rd_ok cur rd -> (i + N.of_nat (length batch) < max32)%N ->
  match pscan batch cur rd i inter with
  | Ok (c, r, i', inter', f) =>
    rd_ok c r /\ (exists new, inter' = inter ++ new /\
      omap (app inter) (mi i (batch ++ rest) (pend_of cur rd)) =
      omap (app inter') (mi i' rest (pend_of c r))
      /\ (new = [] -> cur <> None -> c <> None)) /\
    (f = true -> c = None) /\
    (c <> None -> i' = (i + N.of_nat (length batch))%N)
  | Throw => mi i (batch ++ rest) (pend_of cur rd) = Throw
  | _ => False
  end.
Proof.
  induction batch as [|[s d] b IH]; intros cur rd i inter rest Hok Hb.
  - simpl. split; [auto|]. split; [|split; [discriminate|intros; lia]].
    exists []. rewrite app_nil_r. auto.
  - cbn [pscan]. destruct cur as [[j p]|].
    + destruct (i =? j)%N eqn:Eij.
      * destruct (rd_next rd) as [c r] eqn:En.
        destruct (rd_next_ok _ _ _ En) as [Hok' Hp].
        cbn [length] in Hb.
        rewrite u32_small with (x := (i + 1)%N) by lia.
        specialize (IH c r (i + 1)%N (inter ++ [mk_iinfo (u32 s) (u32 d) (u32 p)]) rest Hok' ltac:(lia)).
        destruct (pscan b c r (i + 1) _) as [[[[[c' r'] i'] inter'] f]| | |]; try contradiction.
        -- destruct IH as (I1 & (new & Hnew & I2 & I3) & I4 & I5). split; [auto|].
           split; [|split; [auto|intros Hc; rewrite I5 by auto; cbn [length]; lia]].
           exists (mk_iinfo (u32 s) (u32 d) (u32 p) :: new).
           split; [rewrite Hnew, <- app_assoc; reflexivity|].
           split; [|intros; discriminate].
           cbn [pend_of app mi]. rewrite Eij. rewrite omap_omap.
           rewrite <- I2. rewrite Hp. apply omap_ext. intros a. rewrite <- app_assoc. reflexivity.
        -- cbn [pend_of app mi]. rewrite Eij. rewrite <- Hp. rewrite IH. reflexivity.
      * destruct (j <? i)%N eqn:Eji.
        -- cbn [pend_of app mi]. rewrite Eij, Eji. reflexivity.
        -- cbn [length] in Hb.
           rewrite u32_small with (x := (i + 1)%N) by lia.
           specialize (IH (Some (j, p)) rd (i + 1)%N inter rest Hok ltac:(lia)).
           destruct (pscan b (Some (j, p)) rd (i + 1) inter) as [[[[[c' r'] i'] inter'] f]| | |]; try contradiction.
           ++ destruct IH as (I1 & (new & Hnew & I2 & I3) & I4 & I5). split; [auto|].
              split; [|split; [auto|intros Hc; rewrite I5 by auto; cbn [length]; lia]].
              exists new. split; [auto|]. split; [|intros Hn _; apply I3; [auto|discriminate]].
              cbn [app mi pend_of] in *. rewrite Eij, Eji. exact I2.
           ++ cbn [app mi pend_of] in *. rewrite Eij, Eji. exact IH.
    + split; [auto|]. split; [|split; [auto|congruence]].
      exists []. rewrite app_nil_r. split; [auto|]. split; [|auto].
      cbn [pend_of]. destruct ((s, d) :: b ++ rest); destruct rest; reflexivity.
Qed.

Definition ps_inv (ps : pst) : Prop :=
  rd_ok (p_cur ps) (p_rd ps) /\ Forall (fun b => b <> []) (p_prov ps) /\
  (p_finish ps = true -> p_cur ps = None) /\
  (p_cur ps <> None -> (p_idx ps + N.of_nat (length (concat (p_prov ps))) < max32)%N).

Definition ps_mi (ps : pst) : outcome (list iinfo) :=
  mi (p_idx ps) (concat (p_prov ps)) (pend_of (p_cur ps) (p_rd ps)).

Lemma omap_id : forall (A : Type) (m : outcome (list A)), omap (app []) m = m.
Proof. intros A [a| | |]; reflexivity. Qed.

Lemma ploop_mi : forall prov c0 rd i,
  Forall (fun b => b <> []) prov -> rd_ok (Some c0) rd ->
  (i + N.of_nat (length (concat prov)) < max32)%N ->
  match ploop prov (Some c0) rd i false with
  | Ok (inter, ps') =>
    inter <> [] /\ ps_inv ps' /\ length (p_prov ps') < length prov /\
    mi i (concat prov) (pend_of (Some c0) rd) = omap (app inter) (ps_mi ps')
  | Throw => mi i (concat prov) (pend_of (Some c0) rd) = Throw
  | _ => False
  end.
Proof.
  induction prov as [|b prov IH]; intros c0 rd i Hne Hok Hb.
  - simpl. destruct c0. reflexivity.
  - inversion Hne as [|? ? Hb0 Hne']; subst.
    destruct b as [|sd b]; [congruence|]. 
    cbn [concat] in *. rewrite app_length in Hb.
    pose proof (pscan_mi (sd :: b) (Some c0) rd i [] (concat prov) Hok ltac:(lia)) as Hs.
    cbn [ploop].
    destruct (pscan (sd :: b) (Some c0) rd i []) as [[[[[c r] i'] inter] f]| | |]; try contradiction.
    + destruct Hs as (I1 & (new & Hnew & I2 & I3) & I4 & I5). simpl in Hnew. subst inter.
      rewrite omap_id in I2. cbn [bind orb].
      destruct new as [|x new].
      * destruct c as [c1|]; [|exfalso; apply I3; [auto|discriminate|auto]].
        destruct f; [specialize (I4 eq_refl); discriminate|].
        rewrite I5 in * by discriminate. cbn [orb].
        specialize (IH c1 r (i + N.of_nat (length (sd :: b)))%N Hne' I1 ltac:(lia)).
        rewrite I2.
        destruct (ploop prov (Some c1) r (i + N.of_nat (length (sd :: b)))%N false) as [[inter ps']| | |];
          try contradiction.
        -- destruct IH as (J1 & J2 & J3 & J4). repeat split; auto; try apply J2.
           ++ simpl. lia.
           ++ rewrite omap_id. exact J4.
        -- rewrite IH. reflexivity.
      * split; [discriminate|]. split; [|split].
        -- unfold ps_inv. cbn [p_cur p_rd p_prov p_finish p_idx].
           split; [auto|]. split; [auto|]. split; [auto|].
           intros Hc. rewrite I5 by auto. lia.
        -- cbn [p_prov]. simpl. lia.
        -- exact I2.
    + exact Hs.
Qed.

Section Apply.
Variable Line : Type.
Variable empty_line : Line.

Definition set_uniq (st : ast Line) (u : N) : ast Line :=
  mk_ast (a_file st) (a_idx st) (a_d st) (a_self st) (a_peer st) u.

Lemma skip_except_uniq : forall n st u,
  skip_except empty_line n (set_uniq st u) = set_uniq (skip_except empty_line n st) u /\
  a_uniq (skip_except empty_line n st) = a_uniq st.
Proof.
  induction n as [|n IH]; intros st u; simpl; [auto|].
  destruct (getline empty_line (a_file st)) as [l f].
  specialize (IH (mk_ast f (u32 (a_idx st + 1)) (to_except (a_d st) l 0) (a_self st) (a_peer st) (a_uniq st)) u).
  unfold set_uniq in *. simpl in *. exact IH.
Qed.

Lemma apply_info_uniq : forall st i u,
  apply_info empty_line (set_uniq st u) i = set_uniq (apply_info empty_line st i) u /\
  a_uniq (apply_info empty_line st i) = a_uniq st.
Proof.
  intros st i u. unfold apply_info.
  change (a_idx (set_uniq st u)) with (a_idx st).
  destruct (skip_except_uniq (N.to_nat (ii_start i - a_idx st)) st u) as [E1 E2].
  rewrite E1.
  set (s1 := skip_except empty_line (N.to_nat (ii_start i - a_idx st)) st) in *.
  change (a_file (set_uniq s1 u)) with (a_file s1).
  change (a_d (set_uniq s1 u)) with (a_d s1).
  destruct (take_intersect empty_line _ _ (a_file s1) (a_d s1)) as [f d].
  unfold set_uniq. simpl. auto.
Qed.

Lemma fold_info_uniq : forall l st u,
  fold_left (apply_info empty_line) l (set_uniq st u) =
  set_uniq (fold_left (apply_info empty_line) l st) u /\
  a_uniq (fold_left (apply_info empty_line) l st) = a_uniq st.
Proof.
  induction l as [|i l IH]; intros st u; simpl; [auto|].
  destruct (apply_info_uniq st i u) as [E1 E2].
  rewrite E1. destruct (IH (apply_info empty_line st i) u) as [F1 F2].
  rewrite F1, F2. auto.
Qed.

Lemma apply_loop_mi : forall fuel ps st,
  ps_inv ps -> length (p_prov ps) < fuel -> p_finish ps = false \/ p_cur ps = None ->
  match ps_mi ps with
  | Ok infos =>
    (a_uniq st + N.of_nat (length infos) < max32)%N ->
    apply_loop empty_line fuel ps st =
    Ok (set_uniq (fold_left (apply_info empty_line) infos st) (a_uniq st + N.of_nat (length infos)))
  | Throw => apply_loop empty_line fuel ps st = Throw
  | _ => False
  end.
Proof.
  induction fuel as [|fuel IH]; intros ps st Hinv Hf Hfin; [lia|].
  destruct Hinv as (Hok & Hne & Hfc & Hb).
  cbn [apply_loop]. unfold get_batch_info.
  destruct (p_cur ps) as [c|] eqn:Ec.
  - destruct (p_finish ps) eqn:Ef; [destruct Hfin; discriminate|].
    unfold ps_mi. rewrite Ec.
    pose proof (ploop_mi (p_prov ps) c (p_rd ps) (p_idx ps) Hne Hok ltac:(apply Hb; discriminate)) as HP.
    destruct (ploop (p_prov ps) (Some c) (p_rd ps) (p_idx ps) false) as [[inter ps']| | |]; try contradiction.
    + destruct HP as (P1 & P2 & P3 & P4). rewrite P4. cbn [bind].
      assert (Hfin' : p_finish ps' = false \/ p_cur ps' = None).
      { destruct (p_finish ps') eqn:E; auto. right. apply P2. auto. }
      destruct inter as [|x inter]; [congruence|].
      set (st1 := mk_ast (a_file st) (a_idx st) (a_d st) (a_self st) (a_peer st)
                         (u32 (a_uniq st + N.of_nat (length (x :: inter))))).
      specialize (IH ps' (fold_left (apply_info empty_line) (x :: inter) st1) P2 ltac:(lia) Hfin').
      destruct (ps_mi ps') as [infos| | |]; try contradiction.
      * cbn [omap bind]. intros Hu. rewrite app_length in Hu.
        change st1 with (set_uniq st (u32 (a_uniq st + N.of_nat (length (x :: inter))))) in *.
        rewrite u32_small in * by lia.
        rewrite (proj1 (fold_info_uniq (x :: inter) st _)) in *.
        cbn [a_uniq set_uniq] in IH.
        rewrite IH by lia. f_equal.
        rewrite (proj1 (fold_info_uniq infos _ _)).
        rewrite fold_left_app. rewrite app_length.
        unfold set_uniq. cbn [a_file a_idx a_d a_self a_peer a_uniq]. f_equal. lia.
      * exact IH.
    + rewrite HP. reflexivity.
  - unfold ps_mi. rewrite Ec. cbn [pend_of mi].
    assert (Hm : forall e, mi (p_idx ps) e [] = Ok []) by (intros [|[? ?] ?]; reflexivity).
    rewrite Hm. cbn [length fold_left]. intros _. rewrite N.add_0_r.
    destruct st. destruct (p_finish ps); reflexivity.
Qed.

End Apply.

(* ------------------------------------------------------------------ *)
(** * Which index lists are accepted *)

Fixpoint valid_from (i n : N) (pend : list (N * N)) : Prop :=
  match pend with
  | [] => True
  | (j, _) :: pr => (i <= j < n)%N /\ valid_from (j + 1) n pr
  end.

Lemma valid_from_weaken : forall pend i i' n, (i' <= i)%N -> valid_from i n pend -> valid_from i' n pend.
Proof. intros [|[j p] pr] i i' n H; simpl; auto. intros [? ?]. split; auto; lia. Qed.

Lemma mi_valid : forall es i pend,
  (valid_from i (i + N.of_nat (length es)) pend -> exists l, mi i es pend = Ok l) /\
  ((exists l, mi i es pend = Ok l) -> valid_from i (i + N.of_nat (length es)) pend) /\
  (mi i es pend = Throw \/ exists l, mi i es pend = Ok l).
Proof.
  induction es as [|[s d] es IH]; intros i pend.
  - destruct pend as [|[j p] pr]; cbn [mi].
    + split; [|split]; eauto. intros; exact I.
    + split; [|split].
      * simpl. lia.
      * intros [l Hl]. discriminate.
      * auto.
  - destruct pend as [|[j p] pr]; cbn [mi].
    + split; [|split]; eauto. intros; exact I.
    + cbn [length]. destruct (i =? j)%N eqn:E.
      * apply N.eqb_eq in E. subst j.
        destruct (IH (i + 1)%N pr) as (A1 & A2 & A3).
        replace (i + 1 + N.of_nat (length es))%N with (i + N.of_nat (S (length es)))%N in * by lia.
        split; [|split].
        -- intros [H1 H2]. destruct (A1 H2) as [l Hl]. rewrite Hl. simpl. eauto.
        -- intros [l Hl]. destruct (mi (i + 1) es pr) eqn:Em; try discriminate.
           simpl. split; [lia|]. apply A2. eauto.
        -- destruct A3 as [->|[l ->]]; simpl; eauto.
      * apply N.eqb_neq in E. destruct (j <? i)%N eqn:E2.
        -- apply N.ltb_lt in E2. split; [|split].
           ++ simpl. lia.
           ++ intros [l Hl]. discriminate.
           ++ auto.
        -- apply N.ltb_ge in E2.
           destruct (IH (i + 1)%N ((j, p) :: pr)) as (A1 & A2 & A3).
           replace (i + 1 + N.of_nat (length es))%N with (i + N.of_nat (S (length es)))%N in * by lia.
           simpl valid_from in *. split; [|split]; auto.
           ++ intros [H1 H2]. apply A1. split; auto; lia.
           ++ intros H. destruct (A2 H). split; auto; lia.
Qed.

Lemma valid_index_from : forall n pend i,
  valid_from i n pend <->
  (StronglySorted N.lt (map fst pend) /\ Forall (fun ip => (i <= fst ip < n)%N) pend).
Proof.
  intros n. induction pend as [|[j p] pr IH]; intros i; simpl.
  - split; auto. intros _. split; constructor.
  - rewrite IH. split.
    + intros (H1 & H2 & H3). split.
      * constructor; auto. rewrite Forall_forall in *. intros x Hx.
        apply in_map_iff in Hx. destruct Hx as (y & <- & Hy). specialize (H3 _ Hy). lia.
      * constructor; [simpl; lia|]. eapply Forall_impl; [|exact H3]. intros a Ha. simpl in *. lia.
    + intros [H1 H2]. inversion H1 as [|? ? Hs Hf]; subst. inversion H2 as [|? ? Hj Hr]; subst.
      simpl in Hj. split; [lia|]. split; [auto|].
      rewrite Forall_forall in *. intros a Ha.
      specialize (Hr _ Ha). specialize (Hf (fst a) (in_map _ _ _ Ha)). lia.
Qed.
