(** Lemmas for C89. *)
From Coq Require Import List NArith Bool String Lia.
From Verif Require Import Base Text PhModel UbFsModel UbFsSpec.
Import ListNotations.
Local Open Scope string_scope.
Local Open Scope list_scope.

Lemma under_inside : forall p q, under p q = true <-> inside p q.
Proof.
  induction p as [|x p IH]; intros q.
  - split; [intros _; exists q; reflexivity|reflexivity].
  - destruct q as [|y q]; [split; [discriminate|intros (r & E); discriminate]|].
    cbn [under]. rewrite andb_true_iff, String.eqb_eq, IH. split.
    + intros (-> & r & ->). exists r. reflexivity.
    + intros (r & E). inversion E; subst. split; [reflexivity|]. exists r. reflexivity.
Qed.
Lemma under_false : forall p q, ~ inside p q -> under p q = false.
Proof. intros p q H. destruct (under p q) eqn:E; [|reflexivity]. exfalso. apply H. apply under_inside. exact E. Qed.
Lemma path_eqb_eq : forall a b, path_eqb a b = true <-> a = b.
Proof.
  induction a as [|x a IH]; intros [|y b]; cbn [path_eqb]; try (split; [discriminate|discriminate]); [split; reflexivity|].
  rewrite andb_true_iff, String.eqb_eq, IH. split; [intros (-> & ->); reflexivity|intros E; inversion E; auto].
Qed.
Lemma under_refl : forall p, under p p = true.
Proof. intros p. apply under_inside. exists []. symmetry. apply app_nil_r. Qed.
Lemma write_outside : forall f cache name b q, ~ inside cache q -> fs_write f (cache ++ [name]) b q = f q.
Proof.
  intros f cache name b q H. unfold fs_write. destruct (path_eqb q (cache ++ [name])) eqn:E; [|reflexivity].
  apply path_eqb_eq in E. exfalso. apply H. exists [name]. exact E.
Qed.
Lemma mkdirs_file : forall f p q n, f q = Some n -> fs_mkdirs f p q = Some n.
Proof. intros f p q n H. unfold fs_mkdirs. rewrite H. destruct (under q p); reflexivity. Qed.
Lemma mkdirs_none : forall f p q, f q = None -> ~ inside q p -> fs_mkdirs f p q = None.
Proof. intros f p q H I. unfold fs_mkdirs. rewrite (under_false _ _ I). exact H. Qed.

Lemma emptied : forall f cache rest, rest <> [] -> fs_mkdirs (fs_remove_all f cache) cache (cache ++ rest) = None.
Proof.
  intros f cache rest NE. apply mkdirs_none.
  - unfold fs_remove_all. replace (under cache (cache ++ rest)) with true; [reflexivity|]. symmetry. apply under_inside. exists rest. reflexivity.
  - intros (r & E). apply (f_equal (@List.length string)) in E. rewrite !app_length in E. destruct rest; [congruence|]. cbn [List.length] in E. lia.
Qed.

Lemma kept_same : forall f f' cache q, f' q = f q -> kept f f' cache q.
Proof. intros f f' cache q E. split; rewrite E; auto. Qed.
Lemma kept_mkdirs : forall f cache q, kept f (fs_mkdirs f cache) cache q.
Proof. intros f cache q. split; [intros n H; apply mkdirs_file; exact H|intros H I; apply mkdirs_none; assumption]. Qed.
Lemma kept_trans : forall f g h cache q, kept f g cache q -> kept g h cache q -> kept f h cache q.
Proof. intros f g h cache q (A & B) (C & D). split; [intros n H; apply C, A, H|intros H I; apply D; auto]. Qed.
Lemma kept_remove : forall f cache q, ~ inside cache q -> kept f (fs_remove_all f cache) cache q.
Proof. intros f cache q H. apply kept_same. unfold fs_remove_all. rewrite (under_false _ _ H). reflexivity. Qed.

Lemma init_kept : forall c cache f f' bad q, uf_cache c = Some cache -> uf_server_init c f = (f', bad) -> ~ inside cache q -> kept f f' cache q.
Proof.
  intros c cache f f' bad q C H O. unfold uf_server_init in H. rewrite C in H.
  destruct (negb _ && negb _); [inversion H; subst; apply kept_same; reflexivity|]. inversion H as [[E1 E2]]. clear H E1 E2.
  assert (K : kept f (if uf_needs_input (uf_mode c) then fs_remove_all f cache else f) cache q).
  { destruct (uf_needs_input (uf_mode c)); [apply kept_remove; exact O|apply kept_same; reflexivity]. }
  destruct (fs_exists _ cache); [exact K|]. eapply kept_trans; [exact K|apply kept_mkdirs].
Qed.
Lemma gen_kept : forall content c cache f f' bad q, uf_gen content c cache f = (f', bad) -> ~ inside cache q -> f' q = f q.
Proof.
  intros content c cache f f' bad q H O. unfold uf_gen in H.
  match type of H with (if ?b then _ else _) = _ => destruct b end; [inversion H; reflexivity|].
  match type of H with match ?m with _ => _ end = _ => destruct m end; inversion H; subst; rewrite !write_outside by exact O; reflexivity.
Qed.

Lemma needs_input : forall m, uf_needs_input m = true <-> builds_cache m.
Proof. intros m. unfold builds_cache. destruct m; cbn [uf_needs_input]; split; intros H; try discriminate; try tauto; intuition discriminate. Qed.
