(** Proofs about NtyModel: set intersection and the receiver's map. *)
From Coq Require Import List Arith NArith Bool Lia Permutation Sorted.
From Verif Require Import Base BaseProofs StoreModel JoinModel JoinProofs4 GfModel OkvsModel OkvsProofs OkvsProofs2 OkvsProofs3 OkvsProofs4
  Rr22OprfModel Rr22OprfProofs PaxEncModel PaxEncProofs BaxEncModel BaxEncProps NtyModel NtySpec.
Import ListNotations.
Local Open Scope N_scope.

Lemma nset_inter_cons : forall x a y b, nset_inter (x :: a) (y :: b) =
  if x <? y then nset_inter a (y :: b) else if y <? x then nset_inter (x :: a) b else x :: nset_inter a b.
Proof. reflexivity. Qed.

Lemma times_above : forall z l, Forall (fun y => z < y) l -> times z l = 0%nat.
Proof. intros z l H. apply count_occ_not_In. intros I. rewrite Forall_forall in H. specialize (H z I). lia. Qed.

Lemma nset_inter_times : forall a b z, StronglySorted (fun x y => x <= y) a -> StronglySorted (fun x y => x <= y) b ->
  times z (nset_inter a b) = Nat.min (times z a) (times z b).
Proof.
  unfold times. induction a as [|x a IHa]; intros b z Sa Sb; [reflexivity|].
  induction b as [|y b IHb]; [cbn [nset_inter count_occ]; lia|].
  rewrite nset_inter_cons. inversion Sa as [|? ? Sa' Fa]; subst. inversion Sb as [|? ? Sb' Fb]; subst. rewrite Forall_forall in Fa, Fb.
  destruct (N.ltb_spec x y) as [L|L].
  - rewrite IHa by assumption. cbn [count_occ]. destruct (N.eq_dec x z) as [->|Nx]; [|reflexivity].
    assert (Z : times z (y :: b) = 0%nat). { apply times_above. constructor; [lia|]. rewrite Forall_forall. intros w W. specialize (Fb w W). lia. }
    unfold times in Z. cbn [count_occ] in Z. rewrite Z. lia.
  - destruct (N.ltb_spec y x) as [L'|L'].
    + rewrite IHb by assumption. cbn [count_occ]. destruct (N.eq_dec y z) as [->|Ny]; [|reflexivity].
      assert (Z : times z (x :: a) = 0%nat). { apply times_above. constructor; [lia|]. rewrite Forall_forall. intros w W. specialize (Fa w W). lia. }
      unfold times in Z. cbn [count_occ] in Z. rewrite Z. lia.
    + assert (x = y) by lia. subst y. cbn [count_occ]. rewrite IHa by assumption. destruct (N.eq_dec x z); lia.
Qed.

Lemma nsort_sorted : forall l, StronglySorted (fun x y => x <= y) (sort_by N.leb l).
Proof.
  intros l. assert (S : StronglySorted (fun a b => N.leb a b = true) (sort_by N.leb l)).
  { apply sort_sorted; [intros x y; rewrite !N.leb_le; lia|intros x y z; rewrite !N.leb_le; lia]. }
  induction S as [|x l' S IH F]; constructor; [assumption|]. eapply Forall_impl; [|exact F]. intros y. apply N.leb_le.
Qed.
Lemma times_perm : forall z a b, Permutation a b -> times z a = times z b.
Proof. intros z a b P. unfold times. induction P; cbn [count_occ]; repeat match goal with |- context [N.eq_dec ?a ?b] => destruct (N.eq_dec a b) end; congruence. Qed.
Lemma assist_times : forall z a b, times z (server_assist a b) = Nat.min (times z a) (times z b).
Proof.
  intros z a b. unfold server_assist. rewrite nset_inter_times by apply nsort_sorted.
  rewrite !(times_perm z _ _ (sort_perm _ N.leb _)). reflexivity.
Qed.

(** ** The receiver's map *)
Definition keyed (l : list (nat * N)) : list (N * N) := map (fun ih => (snd ih, N.of_nat (fst ih))) l.
Definition first_of (k : N) (l : list (nat * N)) : option nat := match find (fun ih => snd ih =? k) l with Some ih => Some (fst ih) | None => None end.

Lemma find_app0 : forall (A : Type) p (a b : list A), find p (a ++ b) = match find p a with Some x => Some x | None => find p b end.
Proof. intros A p a b. induction a as [|x a IH]; cbn [app find]; [reflexivity|]. destruct (p x); [reflexivity|assumption]. Qed.
Lemma find_map : forall (A B : Type) (f : A -> B) p l, find p (map f l) = match find (fun x => p (f x)) l with Some x => Some (f x) | None => None end.
Proof. intros A B f p l. induction l as [|x l IH]; cbn [map find]; [reflexivity|]. destruct (p (f x)); [reflexivity|assumption]. Qed.

Lemma dmap_build : forall empty l m m', ofold (fun ih m => dmap_insert empty (snd ih) (u32 (N.of_nat (fst ih))) m) l m = Ok m' ->
  (forall k, dmap_find empty k m' = if k =? empty then UB else
     Ok (match find (fun kv => fst kv =? k) m with Some kv => Some (snd kv) | None =>
           match first_of k l with Some i => Some (u32 (N.of_nat i)) | None => None end end)) /\
  Forall (fun ih => snd ih <> empty) l.
Proof.
  intros empty l. induction l as [|ih l IH]; intros m m' H.
  - cbn in H. injection H as <-. split; [|constructor]. intros k. unfold dmap_find, first_of. cbn [find]. destruct (k =? empty); [reflexivity|]. destruct (find _ m); reflexivity.
  - cbn [ofold] in H. apply bind_ok in H. destruct H as (m1 & E & H). apply IH in H. destruct H as [H F]. unfold dmap_insert in E.
    destruct (N.eqb_spec (snd ih) empty) as [X|X]; [discriminate|]. split; [|constructor; assumption]. intros k. rewrite H. destruct (k =? empty); [reflexivity|]. f_equal.
    destruct (existsb (fun kv => fst kv =? snd ih) m) eqn:EX.
    + injection E as <-. unfold first_of. cbn [find]. destruct (find (fun kv => fst kv =? k) m) as [kv|] eqn:FM; [reflexivity|].
      destruct (N.eqb_spec (snd ih) k) as [Q|Y]; [|reflexivity]. apply existsb_exists in EX. destruct EX as (kv & I & EK).
      pose proof (find_none _ _ FM kv I) as Z. cbv beta in Z. congruence.
    + injection E as <-. rewrite find_app0. destruct (find (fun kv => fst kv =? k) m) as [kv|] eqn:FM; [reflexivity|]. cbn [find fst snd]. unfold first_of. cbn [find].
      destruct (snd ih =? k); reflexivity.
Qed.
Lemma dmap_progress : forall empty l m, Forall (fun ih => snd ih <> empty) l ->
  exists m', ofold (fun ih m => dmap_insert empty (snd ih) (u32 (N.of_nat (fst ih))) m) l m = Ok m'.
Proof.
  intros empty l. induction l as [|ih l IH]; intros m F; [eexists; reflexivity|]. inversion F as [|? ? X F']; subst. cbn [ofold]. unfold dmap_insert at 1.
  rewrite (proj2 (N.eqb_neq _ _) X). destruct (existsb _ m); cbn [bind]; apply IH; assumption.
Qed.

(** The item reported for a raw value. *)
Definition report (R rv : list N) (r : N) : list N :=
  match first_of r (number 0 rv) with Some i => [nth i R 0] | None => [] end.

Lemma first_bound : forall (l : list N) k r i, first_of r (number k l) = Some i -> (k <= i < k + length l)%nat /\ nth (i - k) l 0 = r.
Proof.
  induction l as [|x l IH]; intros k r i H; [discriminate|]. unfold first_of in *. cbn [number find fst snd] in H. destruct (N.eqb_spec x r) as [E|E].
  - injection H as <-. cbn [length nth]. rewrite Nat.sub_diag. split; [lia|assumption].
  - specialize (IH (S k) r i H). destruct IH as [A B]. split; [cbn [length]; lia|]. replace (i - k)%nat with (S (i - S k)) by lia. exact B.
Qed.
Lemma first_some : forall (l : list N) k r, In r l -> exists i, first_of r (number k l) = Some i.
Proof.
  induction l as [|x l IH]; intros k r H; [contradiction|]. unfold first_of in *. cbn [number find fst snd]. destruct (N.eqb_spec x r) as [E|E]; [eexists; reflexivity|].
  destruct H as [H|H]; [contradiction|]. apply IH. assumption.
Qed.

Lemma lookup_fold : forall empty m f raw acc, (forall k, dmap_find empty k m = if k =? empty then UB else Ok (f k)) ->
  ofold (fun r acc => do g <- dmap_find empty r m; Ok (match g with Some i => acc ++ [i] | None => acc end)) raw acc =
  if existsb (fun k => k =? empty) raw then UB else Ok (acc ++ flat_map (fun r => match f r with Some i => [i] | None => [] end) raw).
Proof.
  intros empty m f raw. induction raw as [|r raw IH]; intros acc H; [cbn; rewrite app_nil_r; reflexivity|].
  cbn [ofold existsb flat_map]. rewrite H. destruct (r =? empty); [reflexivity|]. cbn [orb bind]. rewrite IH by assumption.
  destruct (existsb _ raw); [reflexivity|]. f_equal. destruct (f r); [rewrite <- app_assoc; reflexivity|reflexivity].
Qed.
Lemma items_fold : forall (R : list N) idx acc, Forall (fun i => (N.to_nat i < length R)%nat) idx ->
  ofold (fun i acc => do x <- vget R (N.to_nat i); Ok (acc ++ [x])) idx acc = Ok (acc ++ map (fun i => nth (N.to_nat i) R 0) idx).
Proof.
  intros R idx. induction idx as [|i idx IH]; intros acc F; [cbn; rewrite app_nil_r; reflexivity|]. inversion F; subst. cbn [ofold map]. unfold vget.
  rewrite (nth_error_nth' R 0) by assumption. cbn [bind]. rewrite IH by assumption. rewrite <- app_assoc. reflexivity.
Qed.

Lemma inter_is : forall empty R rv raw, length rv = length R -> N.of_nat (length R) <= 2 ^ 32 ->
  ~ In empty rv -> ~ In empty raw -> nty_intersection empty R rv raw = Ok (flat_map (report R rv) raw).
Proof.
  intros empty R rv raw L B E1 E2. unfold nty_intersection.
  destruct (dmap_progress empty (number 0 rv) []) as [m Hm].
  { apply Forall_forall. intros ih I. apply (in_map snd) in I. rewrite number_snd in I. congruence. }
  rewrite Hm. cbn [bind]. destruct (dmap_build _ _ _ _ Hm) as [F _]. cbn [find] in F.
  rewrite (lookup_fold _ _ _ raw [] F). replace (existsb (fun k => k =? empty) raw) with false.
  2:{ symmetry. apply not_true_iff_false. intros X. apply existsb_exists in X. destruct X as (k & I & E). apply N.eqb_eq in E. congruence. }
  cbn [bind app].
  assert (U : forall r i, first_of r (number 0 rv) = Some i -> u32 (N.of_nat i) = N.of_nat i /\ (i < length R)%nat).
  { intros r i X. apply first_bound in X. destruct X as [X _]. split; [|lia]. unfold u32, max32. apply N.mod_small. lia. }
  rewrite items_fold.
  - f_equal. cbn [app]. clear F E2. induction raw as [|r raw IH]; [reflexivity|]. cbn [flat_map]. rewrite map_app, IH. f_equal. unfold report.
    destruct (first_of r (number 0 rv)) as [i|] eqn:X; [|reflexivity]. cbn [map]. rewrite (proj1 (U _ _ X)), Nat2N.id. reflexivity.
  - apply Forall_forall. intros i I. apply in_flat_map in I. destruct I as (r & _ & I). destruct (first_of r (number 0 rv)) as [j|] eqn:X; [|contradiction].
    destruct I as [<-|[]]. destruct (U _ _ X) as [-> Y]. rewrite Nat2N.id. assumption.
Qed.
Lemma inter_ok_empty : forall empty R rv raw res, nty_intersection empty R rv raw = Ok res -> ~ In empty rv /\ ~ In empty raw.
Proof.
  intros empty R rv raw res H. unfold nty_intersection in H. apply bind_ok in H. destruct H as (m & E & H). apply dmap_build in E. destruct E as [F G]. split.
  - intros I. rewrite Forall_forall in G. rewrite <- (number_snd _ rv 0) in I. apply in_map_iff in I. destruct I as (ih & X & I). apply (G ih I). assumption.
  - intros I. cbn [find] in F. rewrite (lookup_fold _ _ _ raw [] F) in H. replace (existsb (fun k => k =? empty) raw) with true in H; [discriminate|].
    symmetry. apply existsb_exists. exists empty. split; [assumption|apply N.eqb_refl].
Qed.

(** What is reported, with distinct values: as often as the value is in raw. *)
Lemma report_times : forall V R raw x, (forall y y', In y R -> In y' R -> V y = V y' -> y = y') -> (forall r, In r raw -> In r (map V R)) ->
  In x R -> times x (flat_map (report R (map V R)) raw) = times (V x) raw.
Proof.
  intros V R raw x Inj Hr Ix. induction raw as [|r raw IH]; [reflexivity|]. cbn [flat_map]. unfold times in *. rewrite count_occ_app. rewrite IH by (intros; apply Hr; right; assumption).
  unfold report. destruct (first_some (map V R) 0 r (Hr r (or_introl eq_refl))) as [i E]. rewrite E. apply first_bound in E. destruct E as [B E].
  rewrite map_length in B. rewrite Nat.sub_0_r in E. rewrite (nth_indep _ 0 (V 0)) in E by (rewrite map_length; lia). rewrite map_nth in E.
  cbn [count_occ]. destruct (N.eq_dec (nth i R 0) x) as [X|X], (N.eq_dec r (V x)) as [Y|Y]; try lia.
  - exfalso. apply Y. rewrite <- X, E. reflexivity.
  - exfalso. apply X. apply Inj; [apply nth_In; lia|assumption|]. congruence.
Qed.
Lemma report_in : forall R rv raw x, length rv = length R -> In x (flat_map (report R rv) raw) -> In x R.
Proof.
  intros R rv raw x L H. apply in_flat_map in H. destruct H as (r & _ & H). unfold report in H. destruct (first_of r (number 0 rv)) as [i|] eqn:E; [|contradiction].
  apply first_bound in E. destruct H as [<-|[]]. apply nth_In. lia.
Qed.
Lemma times_map : forall (f : N -> N) l x, (forall y, In y l -> f y = f x -> y = x) -> times (f x) (map f l) = times x l.
Proof.
  intros f l x H. unfold times. induction l as [|y l IH]; [reflexivity|]. cbn [map count_occ]. rewrite IH by (intros; apply H; [right|]; assumption).
  destruct (N.eq_dec (f y) (f x)) as [E|E], (N.eq_dec y x) as [E'|E']; try reflexivity.
  - exfalso. apply E'. apply H; [left; reflexivity|assumption].
  - exfalso. congruence.
Qed.
