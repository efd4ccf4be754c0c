From Coq Require Import List NArith Lia Bool Permutation Sorted Arith.
From Verif Require Import Base BaseProofs JoinModel JoinSpec JoinProofs JoinProofs2.
Import ListNotations.

Lemma u32_add_l : forall a b, u32 (u32 a + b) = u32 (a + b).
Proof. intros. unfold u32. apply N.add_mod_idemp_l. discriminate. Qed.

Section Out.
Variable Key : Type.
Variable keqb : Key -> Key -> bool.
Hypothesis keqb_spec : forall a b, keqb a b = true <-> a = b.
Variable Line : Type.
Variable empty_line : Line.
Variable line_key : Line -> Key.

Notation kentry := (kentry Key).

Definition dext (d : dumper Line) (i e : list Line) (ic ec : N) : dumper Line :=
  mk_dumper (option_map (fun f => f ++ i) (d_int d)) (option_map (fun f => f ++ e) (d_exc d))
            (d_icnt d + ic) (d_ecnt d + ec).

Lemma dext_nil : forall d, dext d [] [] 0 0 = d.
Proof.
  intros [i e ic ec]. unfold dext. simpl. rewrite !N.add_0_r.
  f_equal; [destruct i|destruct e]; simpl; rewrite ?app_nil_r; reflexivity.
Qed.

Lemma dext_dext : forall d i1 e1 c1 x1 i2 e2 c2 x2,
  dext (dext d i1 e1 c1 x1) i2 e2 c2 x2 = dext d (i1 ++ i2) (e1 ++ e2) (c1 + c2) (x1 + x2).
Proof.
  intros [i e ic ec] *. unfold dext. simpl.
  f_equal; try lia; [destruct i|destruct e]; simpl; rewrite ?app_assoc; reflexivity.
Qed.

Lemma to_except_dext : forall d l, to_except d l 0 = dext d [] [l] 0 1.
Proof.
  intros [i e ic ec] l. unfold to_except, dext, dump. simpl. rewrite N.add_0_r.
  f_equal. destruct i; simpl; rewrite ?app_nil_r; reflexivity.
Qed.

Lemma to_intersect_dext : forall d l p,
  to_intersect d l p = dext d (repeat l (N.to_nat p + 1)) [] (1 + p) 0.
Proof.
  intros [i e ic ec] l p. unfold to_intersect, dext, dump. simpl. rewrite N.add_0_r.
  f_equal. destruct e; simpl; rewrite ?app_nil_r; reflexivity.
Qed.

Lemma skip_except_spec : forall pre rest st,
  a_file st = pre ++ rest -> (a_idx st + N.of_nat (length pre) < max32)%N ->
  skip_except empty_line (length pre) st =
  mk_ast rest (a_idx st + N.of_nat (length pre))
         (dext (a_d st) [] pre 0 (N.of_nat (length pre))) (a_self st) (a_peer st) (a_uniq st).
Proof.
  induction pre as [|l pre IH]; intros rest st Hf Hb.
  - simpl in *. rewrite N.add_0_r, dext_nil. subst. destruct st; reflexivity.
  - simpl in Hf. cbn [length skip_except]. rewrite Hf. cbn [getline].
    cbn [length] in Hb.
    rewrite IH with (rest := rest); cbn [a_file a_idx a_d a_self a_peer a_uniq].
    + rewrite u32_small by lia. rewrite to_except_dext, dext_dext. f_equal; [lia|].
      f_equal. lia.
    + reflexivity.
    + rewrite u32_small by lia. lia.
Qed.

Lemma take_intersect_spec : forall b rest p d,
  take_intersect empty_line (length b) p (b ++ rest) d =
  (rest, dext d (flat_map (fun l => repeat l (N.to_nat p + 1)) b) []
              (N.of_nat (length b) * (1 + p)) 0).
Proof.
  induction b as [|l b IH]; intros rest p d.
  - simpl. rewrite dext_nil. reflexivity.
  - cbn [length app take_intersect getline]. rewrite IH. rewrite to_intersect_dext, dext_dext.
    simpl flat_map. f_equal. f_equal. lia.
Qed.

(** Multiplicity assigned to key [k] by the pending indices. *)
Fixpoint M (i : N) (es : list kentry) (pend : list (N * N)) (k : Key) : nat :=
  match es with
  | [] => 0
  | e :: es' =>
    match pend with
    | [] => 0
    | (j, p) :: pr =>
      if (i =? j)%N then if keqb (ke_key e) k then N.to_nat p + 1 else M (i + 1) es' pr k
      else if keqb (ke_key e) k then 0 else M (i + 1) es' pend k
    end
  end.

Definition pairs (es : list kentry) : list (N * N) := map (fun e => (ke_start e, ke_dup e)) es.

Fixpoint sum_peer (pend : list (N * N)) : N :=
  match pend with [] => 0%N | (_, p) :: r => (p + 1 + sum_peer r)%N end.

Lemma flat_map_ext_in : forall (A B : Type) (f g : A -> list B) l,
  (forall a, In a l -> f a = g a) -> flat_map f l = flat_map g l.
Proof.
  induction l as [|a l IH]; intros H; simpl; auto.
  rewrite H by (left; auto). rewrite IH; auto. intros; apply H; right; auto.
Qed.

Lemma filter_ext_in' : forall (A : Type) (f g : A -> bool) l,
  (forall a, In a l -> f a = g a) -> filter f l = filter g l.
Proof.
  induction l as [|a l IH]; intros H; simpl; auto.
  rewrite H by (left; auto). rewrite IH; auto. intros; apply H; right; auto.
Qed.

Lemma filter_none : forall (A : Type) (f : A -> bool) l,
  (forall a, In a l -> f a = false) -> filter f l = [].
Proof.
  induction l as [|a l IH]; intros H; simpl; auto.
  rewrite H by (left; auto). apply IH. intros; apply H; right; auto.
Qed.

Lemma map_repeat_in : forall (A B : Type) (f : A -> B) b l n,
  map f l = repeat b n -> forall x, In x l -> f x = b.
Proof.
  intros A B f b l n H x Hx. apply (in_map f) in Hx. rewrite H in Hx.
  eapply repeat_spec; eauto.
Qed.

(** Number of own rows listed. *)
Definition listed_rows (mult : Key -> nat) (ls : list Line) : list Line :=
  filter (fun r => negb (Nat.eqb (mult (line_key r)) 0)) ls.

Lemma flat_map_zero : forall (A B : Type) (f : A -> list B) l,
  (forall a, In a l -> f a = []) -> flat_map f l = [].
Proof.
  induction l as [|a l IH]; intros H; simpl; auto.
  rewrite H by (left; auto). apply IH. intros; apply H; right; auto.
Qed.

Lemma run_spec : forall es i s pend infos st pre lines,
  tiles s es -> NoDup (map ke_key es) -> map line_key lines = expand es ->
  a_file st = pre ++ lines -> (a_idx st + N.of_nat (length pre))%N = s ->
  (s + total es < max32)%N -> (a_self st + total es < max32)%N ->
  Forall (fun ip => (snd ip < max32)%N) pend ->
  mi i (pairs es) pend = Ok infos ->
  a_peer st = u32 (a_peer st) ->
  let st' := drain empty_line (fold_left (apply_info empty_line) infos st) in
  let mult := M i es pend in
  exists ic ec,
  st' = mk_ast [] (s + total es)
          (dext (a_d st) (intersect_rows line_key mult lines)
                (pre ++ except_rows line_key mult lines) ic ec)
          (a_self st + N.of_nat (length (listed_rows mult lines)))
          (u32 (a_peer st + sum_peer pend)) (a_uniq st)
  /\ ic = N.of_nat (length (intersect_rows line_key mult lines))
  /\ length infos = length pend.
Proof.
  induction es as [|e es IH]; intros i s pend infos st pre lines Ht Hn Hk Hf Hs Hb Hself Hp Hmi Hu st' mult.
  - destruct lines; [|discriminate]. rewrite app_nil_r in Hf.
    destruct pend as [|[j p] pr]; [|discriminate].
    simpl in Hmi. injection Hmi as <-.
    subst st'. cbn [fold_left]. unfold drain. rewrite Hf.
    rewrite skip_except_spec with (rest := []); [|rewrite app_nil_r; auto|simpl in Hb; lia].
    exists 0%N, (N.of_nat (length pre)). cbn [total] in *.
    simpl. rewrite app_nil_r, !N.add_0_r. split; [|auto]. f_equal; auto.
  - simpl in Ht. destruct Ht as [Hst Ht].
    inversion Hn as [|? ? Hni Hn']; subst x l.
    simpl expand in Hk.
    assert (Hlines : exists b r, lines = b ++ r /\ length b = N.to_nat (ke_dup e) + 1 /\
              map line_key b = repeat (ke_key e) (N.to_nat (ke_dup e) + 1) /\
              map line_key r = expand es).
    { exists (firstn (N.to_nat (ke_dup e) + 1) lines), (skipn (N.to_nat (ke_dup e) + 1) lines).
      assert (Hll : length lines = N.to_nat (ke_dup e) + 1 + length (expand es)).
      { rewrite <- (map_length line_key), Hk, app_length, repeat_length. reflexivity. }
      split; [symmetry; apply firstn_skipn|]. split; [rewrite firstn_length; lia|].
      rewrite <- firstn_map, <- skipn_map, Hk.
      rewrite firstn_app, skipn_app, repeat_length, Nat.sub_diag.
      rewrite firstn_all2 by (rewrite repeat_length; lia).
      rewrite skipn_all2 by (rewrite repeat_length; lia).
      simpl. rewrite app_nil_r. auto. }
    destruct Hlines as (b & r & -> & Hlb & Hkb & Hkr).
    pose proof (map_repeat_in _ _ _ _ _ _ Hkb) as HkB.
    assert (HkR : forall x, In x r -> line_key x <> ke_key e).
    { intros x Hx He. apply (in_map line_key) in Hx. rewrite Hkr in Hx.
      apply (in_expand Key es) in Hx. rewrite He in Hx. auto. }
    cbn [total] in *.
    (* shape of M on the two parts *)
    destruct pend as [|[j p] pr].
    + (* nothing pending: everything goes to except *)
      simpl in Hmi. injection Hmi as <-. subst st'. cbn [fold_left]. unfold drain.
      assert (Hll : N.of_nat (length (b ++ r)) = (ke_dup e + 1 + total es)%N).
      { rewrite app_length, Hlb. rewrite <- (map_length line_key r), Hkr.
        pose proof (expand_length _ es). lia. }
      rewrite Hf. rewrite skip_except_spec with (rest := []);
        [|rewrite app_nil_r; auto|rewrite app_length; lia].
      exists 0%N, (N.of_nat (length (pre ++ b ++ r))).
      assert (HM0 : forall k, mult k = 0) by (intros; reflexivity).
      unfold intersect_rows, except_rows, listed_rows.
      rewrite (flat_map_zero _ _ _ (b ++ r)) by (intros a _; rewrite HM0; reflexivity).
      rewrite (filter_none _ (fun r0 => negb (mult (line_key r0) =? 0)) (b ++ r))
        by (intros a _; rewrite HM0; reflexivity).
      rewrite (filter_all _ (fun r0 => mult (line_key r0) =? 0) (b ++ r))
        by (intros a _; rewrite HM0; reflexivity).
      cbn [length sum_peer]. rewrite !N.add_0_r. split; [|auto].
      f_equal; auto.
      rewrite app_length. lia.
    + cbn [pairs map mi] in Hmi. fold (pairs es) in Hmi.
      destruct (i =? j)%N eqn:Eij.
      * (* this key is listed *)
        destruct (mi (i + 1) (pairs es) pr) as [infos'| | |] eqn:Emi; try discriminate.
        simpl in Hmi. injection Hmi as <-.
        inversion Hp as [|? ? Hp1 Hp2]; subst x l. simpl in Hp1.
        subst st'.
        rewrite (u32_small (ke_start e)) by lia.
        rewrite (u32_small (ke_dup e)) by lia.
        rewrite (u32_small p) by lia.
        (* effect of apply_info *)
        assert (Happ : apply_info empty_line st (mk_iinfo (ke_start e) (ke_dup e) p) =
          mk_ast r (s + ke_dup e + 1)
            (dext (a_d st) (flat_map (fun l => repeat l (N.to_nat p + 1)) b) pre
               (N.of_nat (length b) * (1 + p)) (N.of_nat (length pre)))
            (a_self st + N.of_nat (length b)) (u32 (a_peer st + (p + 1))) (a_uniq st)).
        { unfold apply_info. cbn [ii_start ii_self ii_peer].
          replace (N.to_nat (ke_start e - a_idx st)) with (length pre) by lia.
          rewrite skip_except_spec with (rest := b ++ r); [|auto|lia].
          cbn [a_file a_d a_idx a_self a_peer a_uniq].
          rewrite <- Hlb. rewrite take_intersect_spec. rewrite dext_dext.
          rewrite app_nil_r. cbn [app].
          rewrite (u32_small (a_idx st + N.of_nat (length pre) + ke_dup e + 1)) by lia.
          rewrite (u32_small (a_self st + ke_dup e + 1)) by lia.
          f_equal; [lia| |lia|f_equal; lia].
          f_equal; lia. }
        cbn [fold_left]. rewrite Happ.
        match goal with |- context [fold_left _ infos' ?s1] => set (st1 := s1) end.
        specialize (IH (i + 1)%N (s + ke_dup e + 1)%N pr infos' st1 [] r).
        destruct IH as (ic & ec & IHeq & IHic & IHl); try (subst st1; cbn [a_file a_idx a_self a_peer]; auto; fail).
        -- subst st1. cbn [a_idx length]. lia.
        -- lia.
        -- subst st1. cbn [a_self]. lia.
        -- subst st1. cbn [a_peer]. rewrite (u32_small (u32 _)) by apply u32_lt. reflexivity.
        -- assert (HMb : forall x, In x b -> mult (line_key x) = N.to_nat p + 1).
           { intros x Hx. subst mult. cbn [M]. rewrite Eij, (HkB x Hx).
             rewrite (proj2 (keqb_spec _ _) eq_refl). reflexivity. }
           assert (HMr : forall x, In x r -> mult (line_key x) = M (i + 1) es pr (line_key x)).
           { intros x Hx. subst mult. cbn [M]. rewrite Eij.
             destruct (keqb (ke_key e) (line_key x)) eqn:Ek; auto.
             apply keqb_spec in Ek. exfalso. eapply HkR; eauto. }
           exists (N.of_nat (length b) * (1 + p) + ic)%N, (N.of_nat (length pre) + ec)%N.
           assert (Hint : intersect_rows line_key mult (b ++ r) =
                     flat_map (fun l => repeat l (N.to_nat p + 1)) b ++
                     intersect_rows line_key (M (i + 1) es pr) r).
           { unfold intersect_rows. rewrite flat_map_app. f_equal.
             - apply flat_map_ext_in. intros a Ha. rewrite HMb by auto. reflexivity.
             - apply flat_map_ext_in. intros a Ha. rewrite HMr by auto. reflexivity. }
           assert (Hexc : except_rows line_key mult (b ++ r) =
                     except_rows line_key (M (i + 1) es pr) r).
           { unfold except_rows. rewrite filter_app.
             rewrite (filter_none _ _ b).
             - simpl. apply filter_ext_in'. intros a Ha. rewrite HMr by auto. reflexivity.
             - intros a Ha. rewrite HMb by auto. apply Nat.eqb_neq. lia. }
           assert (Hlis : length (listed_rows mult (b ++ r)) =
                     length b + length (listed_rows (M (i + 1) es pr) r)).
           { unfold listed_rows. rewrite filter_app, app_length. f_equal.
             - rewrite filter_all; auto. intros a Ha. rewrite HMb by auto.
               apply negb_true_iff, Nat.eqb_neq. lia.
             - f_equal. apply filter_ext_in'. intros a Ha. rewrite HMr by auto. reflexivity. }
           split; [|split].
           ++ rewrite IHeq. subst st1. cbn [a_d a_self a_peer a_uniq].
              rewrite dext_dext. rewrite Hint, Hexc, Hlis. cbn [app sum_peer].
              rewrite u32_add_l.
              f_equal; [lia|lia|f_equal; lia].
           ++ rewrite Hint, app_length, IHic.
              assert (Hc : forall q (bb : list Line), length (flat_map (fun l => repeat l q) bb) = length bb * q).
              { induction bb as [|x bb IHb]; simpl; auto. rewrite app_length, repeat_length. lia. }
              rewrite Hc. lia.
           ++ simpl. lia.
      * destruct (j <? i)%N eqn:Eji; [discriminate|].
        (* this key is not listed: its block joins [pre] *)
        specialize (IH (i + 1)%N (s + ke_dup e + 1)%N ((j, p) :: pr) infos st (pre ++ b) r).
        destruct IH as (ic & ec & IHeq & IHic & IHl); auto.
        -- rewrite <- app_assoc. exact Hf.
        -- rewrite app_length. lia.
        -- lia.
        -- lia.
        -- assert (HMb : forall x, In x b -> mult (line_key x) = 0).
           { intros x Hx. subst mult. cbn [M]. rewrite Eij, (HkB x Hx).
             rewrite (proj2 (keqb_spec _ _) eq_refl). reflexivity. }
           assert (HMr : forall x, In x r -> mult (line_key x) = M (i + 1) es ((j, p) :: pr) (line_key x)).
           { intros x Hx. subst mult. cbn [M]. rewrite Eij.
             destruct (keqb (ke_key e) (line_key x)) eqn:Ek; auto.
             apply keqb_spec in Ek. exfalso. eapply HkR; eauto. }
           exists ic, ec.
           assert (Hint : intersect_rows line_key mult (b ++ r) =
                     intersect_rows line_key (M (i + 1) es ((j, p) :: pr)) r).
           { unfold intersect_rows. rewrite flat_map_app.
             rewrite (flat_map_zero _ _ _ b) by (intros a Ha; rewrite HMb by auto; reflexivity).
             simpl. apply flat_map_ext_in. intros a Ha. rewrite HMr by auto. reflexivity. }
           assert (Hexc : except_rows line_key mult (b ++ r) =
                     b ++ except_rows line_key (M (i + 1) es ((j, p) :: pr)) r).
           { unfold except_rows. rewrite filter_app. f_equal.
             - apply filter_all. intros a Ha. rewrite HMb by auto. reflexivity.
             - apply filter_ext_in'. intros a Ha. rewrite HMr by auto. reflexivity. }
           assert (Hlis : listed_rows mult (b ++ r) = listed_rows (M (i + 1) es ((j, p) :: pr)) r).
           { unfold listed_rows. rewrite filter_app. rewrite (filter_none _ _ b).
             - simpl. apply filter_ext_in'. intros a Ha. rewrite HMr by auto. reflexivity.
             - intros a Ha. rewrite HMb by auto. reflexivity. }
           split; [|split].
           ++ subst st'. rewrite IHeq. rewrite Hint, Hexc, Hlis.
              rewrite <- app_assoc. f_equal. lia.
           ++ rewrite Hint. exact IHic.
           ++ exact IHl.
Qed.

(** M is the multiplicity of the specification. *)
Lemma M_listed : forall es pend i a,
  NoDup (map ke_key (a ++ es)) -> N.of_nat (length a) = i ->
  valid_from i (i + N.of_nat (length es)) pend ->
  forall k, In k (map ke_key es) -> M i es pend k = listed_mult keqb (map ke_key (a ++ es)) pend k.
Proof.
  induction es as [|e es IH]; intros pend i a Hn Hi Hv k Hk; [destruct Hk|].
  assert (Hn2 : NoDup (map ke_key ((a ++ [e]) ++ es))) by (rewrite <- app_assoc; exact Hn).
  assert (Hpos : nth_error (map ke_key (a ++ e :: es)) (N.to_nat i) = Some (ke_key e)).
  { rewrite map_app. rewrite nth_error_app2; rewrite map_length; [|lia].
    replace (N.to_nat i - length a) with 0 by lia. reflexivity. }
  destruct pend as [|[j p] pr]; [reflexivity|].
  cbn [M]. cbn [valid_from length] in Hv. destruct Hv as [Hj Hv].
  assert (Hlen : (i + N.of_nat (S (length es)) = (i + 1) + N.of_nat (length es))%N) by lia.
  cbn [length] in Hv, Hj. rewrite Hlen in Hv, Hj.
  destruct (i =? j)%N eqn:Eij.
  - apply N.eqb_eq in Eij. subst j.
    unfold listed_mult. cbn [find fst]. rewrite Hpos.
    destruct (keqb (ke_key e) k) eqn:Ek.
    + lia.
    + simpl in Hk. destruct Hk as [Hk|Hk]; [apply keqb_neq in Ek; auto; contradiction|].
      rewrite (IH pr (i + 1)%N (a ++ [e])); auto.
      * rewrite <- app_assoc. reflexivity.
      * rewrite app_length. simpl. lia.
  - apply N.eqb_neq in Eij.
    destruct (keqb (ke_key e) k) eqn:Ek.
    + apply keqb_spec in Ek. subst k.
      unfold listed_mult.
      destruct (find _ _) as [[j' p']|] eqn:Ef; [|reflexivity].
      exfalso. apply find_some in Ef. destruct Ef as [Hin Hm]. cbn [fst] in Hm.
      destruct (nth_error (map ke_key (a ++ e :: es)) (N.to_nat j')) eqn:Enth; [|discriminate].
      apply keqb_spec in Hm. subst k.
      assert (Hge : (j' >= i + 1)%N).
      { simpl in Hin. destruct Hin as [Hin|Hin]; [inversion Hin; subst; lia|].
        apply valid_index_from in Hv. destruct Hv as [_ Hv]. rewrite Forall_forall in Hv.
        specialize (Hv _ Hin). simpl in Hv. lia. }
      rewrite <- Hpos in Enth. 
      assert (Heq : N.to_nat j' = N.to_nat i).
      { eapply NoDup_nth_error; [exact Hn| |exact Enth].
        apply nth_error_Some. rewrite Enth, Hpos. discriminate. }
      lia.
    + simpl in Hk. destruct Hk as [Hk|Hk]; [apply keqb_neq in Ek; auto; contradiction|].
      rewrite (IH ((j, p) :: pr) (i + 1)%N (a ++ [e])); auto.
      * rewrite <- app_assoc. reflexivity.
      * rewrite app_length. simpl. lia.
      * simpl. split; [lia|]. exact Hv.
Qed.

End Out.
