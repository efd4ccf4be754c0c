(** Lemmas about Baxos::Solve: the bins of the table, and the whole. *)
From Coq Require Import List Arith NArith Bool Lia Permutation.
From Verif Require Import Base BaseProofs StoreModel GfModel GfSpec GfProofs GfProofs2 OkvsModel OkvsSpec OkvsProofs OkvsProofs2 OkvsProofs3 OkvsProofs4
  PaxEncModel PaxEncSpec PaxEncProofs PaxEncProofs2 PaxEncProofs5 PaxEncProofs6 PaxEncProofs8 PaxEncProofs9 PaxEncProofs10 BaxEncModel BaxEncProofs.
Import ListNotations.
Local Open Scope nat_scope.

(** One bin: a function of its pairs alone. *)
Definition bin_core (avx : bool) (w : N) (q : okvs_param) (gmax ipb : nat) (l : list (N * N)) (out : list N) : outcome (list N) :=
  enforce (length l <=? ipb)
   (do n' <- paxos_init w q (length l);
    enforce (length l =? n') (paxos_solve avx q gmax (rows_of q (map fst l)) (map fst l) (map snd l) out)).
Lemma len_concat : forall (A : Type) (ls : list (list A)), list_sum (map (@length A) ls) = length (concat ls).
Proof. intros A l. induction l as [|a l IH]; [reflexivity|]. cbn [map list_sum fold_right concat]. rewrite app_length, <- IH. reflexivity. Qed.
Lemma bin_is : forall avx w q gmax cap ipb parts out, param_ok w q -> parts <> [] -> Forall (fun l => length l <= cap) parts ->
  Forall (fun hv => (fst hv < 2 ^ 128)%N) (concat parts) ->
  bx_bin avx w q gmax cap ipb parts out = bin_core avx w q gmax ipb (concat parts) out.
Proof.
  intros avx w q gmax cap ipb parts out Hq NE F Hh. unfold bx_bin, bin_core. 
  destruct (merge_ok cap parts NE F) as (h & v & E & A & B). rewrite E, len_concat in *.
  destruct (length (concat parts) <=? ipb); [|reflexivity]. cbn [enforce].
  destruct (paxos_init w q (length (concat parts))) as [n'| | |]; cbn [bind]; try reflexivity. cbn [fst snd]. rewrite A, B.
  assert (H128 : Forall (fun h => (h < 2 ^ 128)%N) (map fst (concat parts))).
  { apply Forall_forall. intros x X. apply in_map_iff in X. destruct X as (y & <- & X). rewrite Forall_forall in Hh. auto. }
  assert (R : (if ok_weight q =? 3 then build_rows (length (concat parts)) avx w q (map fst (concat parts))
               else omapM (build_row avx w q) (map fst (concat parts))) = Ok (map (row_of q) (map fst (concat parts)))).
  { destruct (ok_weight q =? 3); [apply build_rows_ok; assumption|]. apply omapM_ok. intros x X. rewrite Forall_forall in H128. apply build_row_ok; auto. }
  rewrite R. cbn [bind]. rewrite !map_length. unfold rows_of. rewrite !map_map. reflexivity.
Qed.

(** Slices. *)
Section Slices.
Variables (q : okvs_param) (nb : nat).
Local Notation per := (N.to_nat (ok_sparse q) + ok_dense q).

Lemma slice_len : forall p b, length p = nb * per -> b < nb -> length (bin_slice q p b) = per.
Proof using.
  intros p b L H. unfold bin_slice. rewrite firstn_length, skipn_length, L.
  assert (b * per + per <= nb * per) by nia. lia.
Qed.
Lemma slice_nth : forall p b i, i < per -> nth i (bin_slice q p b) 0%N = nth (b * per + i) p 0%N.
Proof using. intros p b i H. unfold bin_slice. rewrite nth_firstn0, nth_skipn0. destruct (Nat.ltb_spec i per); [reflexivity|lia]. Qed.
Lemma store_len : forall b part p, length p = nb * per -> b < nb -> length part = per -> length (bx_store q b part p) = nb * per.
Proof using.
  intros b part p L H Lp. unfold bx_store. rewrite !app_length, firstn_length, skipn_length, L, Lp.
  assert (b * per + per <= nb * per) by nia. lia.
Qed.
Lemma store_nth : forall b part p k, length p = nb * per -> b < nb -> length part = per ->
  nth k (bx_store q b part p) 0%N = if (per * b <=? k) && (k <? per * b + per) then nth (k - per * b) part 0%N else nth k p 0%N.
Proof using.
  intros b part p k L H Lp. unfold bx_store. assert (Q : b * per + per <= nb * per) by nia.
  assert (L1 : length (firstn (per * b) p) = per * b) by (rewrite firstn_length; lia).
  destruct (Nat.leb_spec (per * b) k) as [A|A]; cbn [andb].
  - rewrite app_nth2 by lia. rewrite L1. destruct (Nat.ltb_spec k (per * b + per)) as [B|B].
    + rewrite app_nth1 by lia. reflexivity.
    + rewrite app_nth2 by lia. rewrite nth_skipn0, Lp. f_equal. lia.
  - rewrite app_nth1 by lia. rewrite nth_firstn0. destruct (Nat.ltb_spec k (per * b)); [reflexivity|lia].
Qed.
Lemma slice_store_same : forall b part p, length p = nb * per -> b < nb -> length part = per -> bin_slice q (bx_store q b part p) b = part.
Proof using.
  intros b part p L H Lp. apply (nth_ext _ _ 0%N 0%N).
  - rewrite slice_len by (try assumption; apply store_len; assumption). symmetry. assumption.
  - rewrite slice_len by (try assumption; apply store_len; assumption). intros i Hi. rewrite slice_nth by assumption. rewrite store_nth by assumption.
    rewrite (proj2 (Nat.leb_le _ _)) by lia. rewrite (proj2 (Nat.ltb_lt _ _)) by lia. cbn [andb]. f_equal. lia.
Qed.
Lemma slice_store_other : forall b b' part p, length p = nb * per -> b < nb -> b' < nb -> length part = per -> b <> b' ->
  bin_slice q (bx_store q b part p) b' = bin_slice q p b'.
Proof using.
  intros b b' part p L H H' Lp D. apply (nth_ext _ _ 0%N 0%N).
  - rewrite !slice_len by (try assumption; apply store_len; assumption). reflexivity.
  - rewrite slice_len by (try assumption; apply store_len; assumption). intros i Hi. rewrite !slice_nth by assumption. rewrite store_nth by assumption.
    destruct (Nat.leb_spec (per * b) (b' * per + i)) as [A|A]; cbn [andb]; [|reflexivity].
    destruct (Nat.ltb_spec (b' * per + i) (per * b + per)) as [B|B]; [|reflexivity]. exfalso. apply D. nia.
Qed.
Lemma slices_eq : forall p p', length p = nb * per -> length p' = nb * per -> (forall b, b < nb -> bin_slice q p b = bin_slice q p' b) -> p = p'.
Proof using.
  intros p p' L L' H. apply (nth_ext _ _ 0%N 0%N); [lia|]. intros k Hk. rewrite L in Hk.
  assert (P : per <> 0) by (intros X; rewrite X in Hk; lia).
  pose proof (Nat.div_mod k per P) as E. pose proof (Nat.mod_upper_bound k per P) as M.
  assert (B : k / per < nb) by (apply Nat.div_lt_upper_bound; lia).
  replace k with (k / per * per + k mod per) by lia. rewrite <- !slice_nth by assumption. rewrite H by assumption. reflexivity.
Qed.
Lemma slice_zeros : forall b, b < nb -> bin_slice q (repeat 0%N (nb * per)) b = repeat 0%N per.
Proof using.
  intros b H. apply (nth_ext _ _ 0%N 0%N).
  - rewrite slice_len by (try assumption; apply repeat_length). rewrite repeat_length. reflexivity.
  - rewrite slice_len by (try assumption; apply repeat_length). intros i Hi. rewrite slice_nth by assumption.
    rewrite !nth_repeat. reflexivity.
Qed.

Variable f : nat -> list N -> outcome (list N).
Hypothesis Hf : forall b r, b < nb -> f b (repeat 0%N per) = Ok r -> length r = per.
Definition bins_fold (order : list nat) (p : list N) : outcome (list N) :=
  ofold (fun b p => do part <- f b (bin_slice q p b); Ok (bx_store q b part p)) order p.

Lemma fold_facts : forall order p P, NoDup order -> (forall b, In b order -> b < nb /\ bin_slice q p b = repeat 0%N per) -> length p = nb * per ->
  bins_fold order p = Ok P -> length P = nb * per /\
  (forall b, In b order -> f b (repeat 0%N per) = Ok (bin_slice q P b)) /\ (forall b, b < nb -> ~ In b order -> bin_slice q P b = bin_slice q p b).
Proof using Hf.
  intros order. induction order as [|b order IH]; intros p P ND Z L H.
  - cbn in H. injection H as <-. split; [assumption|]. split; [intros b []|reflexivity].
  - unfold bins_fold in H. cbn [ofold] in H. apply bind_ok in H. destruct H as (p1 & E & H). apply bind_ok in E. destruct E as (part & E & E1). injection E1 as <-.
    destruct (Z b (or_introl eq_refl)) as [Hb Zb]. rewrite Zb in E. pose proof (Hf b part Hb E) as Lp.
    apply NoDup_cons_iff in ND. destruct ND as [Nb ND].
    apply IH in H; [|assumption| |apply store_len; assumption].
    + destruct H as (A & B & C). split; [assumption|]. split.
      * intros b' [<-|X]; [|auto]. rewrite C by assumption. rewrite slice_store_same by assumption. assumption.
      * intros b' Hb' Nx. cbn [In] in Nx. rewrite C by tauto. apply slice_store_other; try assumption. tauto.
    + intros b' X. destruct (Z b' (or_intror X)) as [Hb' Zb']. split; [assumption|]. rewrite slice_store_other; try assumption. intros <-. contradiction.
Qed.
Lemma fold_prog : forall order p, NoDup order -> (forall b, In b order -> b < nb /\ bin_slice q p b = repeat 0%N per) -> length p = nb * per ->
  (forall b, In b order -> exists r, f b (repeat 0%N per) = Ok r) -> exists P, bins_fold order p = Ok P.
Proof using Hf.
  intros order. induction order as [|b order IH]; intros p ND Z L H; [exists p; reflexivity|].
  unfold bins_fold. cbn [ofold]. destruct (Z b (or_introl eq_refl)) as [Hb Zb]. rewrite Zb. destruct (H b (or_introl eq_refl)) as [r E]. rewrite E. cbn [bind].
  pose proof (Hf b r Hb E) as Lp. apply NoDup_cons_iff in ND. destruct ND as [Nb ND].
  apply IH; [assumption| |apply store_len; assumption|intros; apply H; right; assumption].
  intros b' X. destruct (Z b' (or_intror X)) as [Hb' Zb']. split; [assumption|]. rewrite slice_store_other; try assumption. intros <-. contradiction.
Qed.
End Slices.

Lemma bins_ext : forall q f g order p, (forall b, In b order -> forall out, f b out = g b out) -> bins_fold q f order p = bins_fold q g order p.
Proof.
  intros q f g order. induction order as [|b order IH]; intros p H; [reflexivity|]. unfold bins_fold. cbn [ofold].
  rewrite H by (left; reflexivity). destruct (g b (bin_slice q p b)); cbn [bind]; try reflexivity. apply IH. intros; apply H; right; assumption.
Qed.
