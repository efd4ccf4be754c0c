From Coq Require Import List NArith ZArith Bool String Lia Permutation.
From Verif Require Import Base BaseProofs Text TextProofs StoreModel PirPackModel PirPackProofs2 GroupDbModel QuoteModel QuoteProofs ShellModel ShellProps
  DkPirModel DkPirSpec DkPirProofs DkTextModel DkTextSpec.
Import ListNotations.
Local Open Scope list_scope.
Local Open Scope N_scope.

Lemma clean_tame : forall s, clean s <-> Forall tame s.
Proof.
  intros s. unfold clean, tame, line_break, newline, creturn, comma, quote. rewrite Forall_forall. split.
  - intros (A & B & C & D) c Hc. repeat split; [apply orb_false_iff; split| |]; apply N.eqb_neq; intros ->; contradiction.
  - intros H. repeat split; intros X; destruct (H _ X) as (P & Q & R); discriminate.
Qed.
Lemma clean_app : forall a b, clean a -> clean b -> clean (a ++ b).
Proof. intros a b. rewrite !clean_tame. intros. apply Forall_app. auto. Qed.
Lemma clean_join : forall sep l, clean [sep] -> Forall clean l -> clean (join_with sep l).
Proof.
  intros sep l S H. induction H as [|x l X H IH]; [cbn; repeat split; intros []|]. cbn [join_with]. destruct l as [|y l]; [exact X|].
  apply clean_app; [exact X|]. apply (clean_app [sep]); assumption.
Qed.

Lemma clean2 : forall a b, clean a -> clean b -> Forall clean [a; b].
Proof. intros a b A B. constructor; [exact A|]. constructor; [exact B|]. constructor. Qed.
Lemma clean3 : forall a b c, clean a -> clean b -> clean c -> Forall clean [a; b; c].
Proof. intros a b c A B C. constructor; [exact A|]. apply clean2; assumption. Qed.
(** One line of clean cells. *)
Lemma cells_csv : forall cells m r t, Forall clean cells -> cells <> [] -> (m = AtLine /\ r = [] /\ cells <> [[]] \/ m = AtValue) ->
  csv m [] r (join_with comma cells ++ newline :: t) = oapp (r ++ cells) (csv AtLine [] [] t).
Proof.
  induction cells as [|x cells IH]; intros m r t H NE M; [congruence|]. inversion H as [|? ? X H']; subst. apply clean_tame in X.
  cbn [join_with]. destruct cells as [|y cells].
  - destruct x as [|c x].
    + destruct M as [(_ & _ & M) | ->]; [exfalso; apply M; reflexivity|]. reflexivity.
    + rewrite csv_first; [reflexivity| |exact X|discriminate]. destruct M as [(A & B & _) | M]; auto.
  - rewrite <- app_assoc. cbn [app].
    assert (E : csv m [] r (x ++ comma :: join_with comma (y :: cells) ++ newline :: t) =
                csv AtValue [] (r ++ [x]) (join_with comma (y :: cells) ++ newline :: t)).
    { destruct x as [|c x]; [destruct M as [(-> & -> & _) | ->]; reflexivity|].
      rewrite csv_first; [apply csv_comma| |exact X|discriminate]. destruct M as [(A & B & _) | M]; auto. }
    rewrite E, IH; [|exact H'|discriminate|right; reflexivity]. rewrite <- app_assoc. reflexivity.
Qed.
Lemma lines_csv : forall rows, Forall (fun c => Forall clean c /\ c <> [] /\ c <> [[]]) rows ->
  csv AtLine [] [] (flat_map (fun c => join_with comma c ++ [newline]) rows) = Some rows.
Proof.
  intros rows H. induction H as [|c rows (A & B & C) H IH]; [reflexivity|]. cbn [flat_map]. rewrite <- app_assoc. cbn [app].
  rewrite cells_csv; auto. rewrite IH. reflexivity.
Qed.
Lemma pairs_csv : forall m, Forall (fun p => clean (fst p) /\ clean (snd p)) m ->
  csv AtLine [] [] (pairs_text m) = Some ([asc "key"; asc "value"] :: map (fun p => [fst p; snd p]) m).
Proof.
  intros m H. replace (pairs_text m) with (flat_map (fun c => join_with comma c ++ [newline]) ([asc "key"; asc "value"] :: map (fun p => [fst p; snd p]) m)).
  - apply lines_csv. constructor.
    + split; [apply clean2; vm_compute; intuition discriminate|split; discriminate].
    + apply Forall_forall. intros c Hc. apply in_map_iff in Hc. destruct Hc as (p & <- & Hp). rewrite Forall_forall in H.
      destruct (H p Hp). split; [apply clean2; assumption|split; discriminate].
  - unfold pairs_text. cbn [flat_map]. change (join_with comma [asc "key"; asc "value"]) with (asc "key,value"). rewrite <- app_assoc. cbn [app]. do 2 f_equal.
    clear H. induction m as [|p m IH]; [reflexivity|]. cbn [map flat_map]. rewrite IH. unfold pair_line. cbn [join_with]. repeat (rewrite <- !app_assoc; cbn [app]). reflexivity.
Qed.
Lemma source_pairs : forall m, Forall (fun p => clean (fst p) /\ clean (snd p)) m -> source_rows (pairs_text m) = Ok (true, m).
Proof.
  intros m H. unfold source_rows. rewrite (pairs_csv m H).
  destruct (list_eq_dec (list_eq_dec N.eq_dec) [asc "key"; asc "value"] [asc "key"; asc "value"]) as [_|X]; [|congruence].
  assert (E : map_out (fun f => match f with [k; v] => Ok (k, v) | _ => Throw end) (map (fun p : bytes * bytes => [fst p; snd p]) m) = Ok m).
  { clear H. induction m as [|[k v] m IH]; [reflexivity|]. cbn [map map_out fst snd bind]. rewrite IH. reflexivity. }
  rewrite E. reflexivity.
Qed.
Lemma repeated_spec : forall l, repeated l = false <-> NoDup l.
Proof.
  induction l as [|x l IH]; cbn [repeated]; [split; [constructor|reflexivity]|]. rewrite orb_false_iff, IH, NoDup_cons_iff.
  assert (E : existsb (beqb x) l = false <-> ~ In x l).
  { rewrite <- not_true_iff_false, existsb_exists. split; intros H X; apply H.
    - exists x. split; [exact X|]. apply beqb_spec. reflexivity.
    - destruct X as (y & Y & B). apply beqb_spec in B. subst. exact Y. }
  rewrite E. reflexivity.
Qed.
Lemma read_pairs : forall m, m <> [] -> NoDup (map fst m) -> Forall (fun p => clean (fst p) /\ clean (snd p)) m -> read_values (pairs_text m) = Ok m.
Proof.
  intros m NE ND H. unfold read_values, read_db. rewrite (source_pairs m H). cbn [bind snd].
  destruct m as [|p m]; [congruence|]. cbn [List.length Nat.eqb negb enforce].
  rewrite (proj2 (repeated_spec _) ND). reflexivity.
Qed.
Lemma queries_csv : forall qs, Forall clean qs ->
  csv AtLine [] [] (flat_map (fun q => q ++ [newline]) qs) = Some (map (fun q => [q]) (filter not_empty qs)).
Proof.
  intros qs H. induction H as [|q qs Q H IH]; [reflexivity|]. cbn [flat_map filter]. rewrite <- app_assoc. cbn [app].
  destruct q as [|c q]; [cbn [app csv not_empty]; exact IH|].
  cbn [not_empty map]. rewrite (cells_csv [c :: q] AtLine []); [rewrite IH; reflexivity|constructor; [exact Q|constructor]|discriminate|].
  left. repeat split. discriminate.
Qed.

(** The merged map: who is in it and that it is clean. *)
Lemma find_In : forall (V : Type) (m : list (bytes * V)) k v, NoDup (map fst m) -> In (k, v) m -> find_key k m = Some v.
Proof.
  intros V m k v. induction m as [|[k' v'] m IH]; cbn [map fst]; intros N; [intros []|]. intros [E | E].
  - injection E as -> ->. cbn [find_key]. rewrite (proj2 (beqb_spec k k) eq_refl). reflexivity.
  - inversion N; subst. cbn [find_key]. destruct (beqb k' k) eqn:B; [|apply IH; assumption].
    apply beqb_spec in B. subst. exfalso. match goal with X : ~ In _ _ |- _ => apply X end. apply in_map_iff. exists (k, v). auto.
Qed.
Lemma merged_entry : forall table m e, Permutation m (merge_all table) -> In e m ->
  rows_with table (fst e) <> [] /\ snd e = (packed (rows_with table (fst e)), N.of_nat (List.length (rows_with table (fst e)))).
Proof.
  intros table m [k v] P H. apply (Permutation_in _ P) in H. apply find_In in H; [|apply merge_all_nodup].
  rewrite merge_all_find in H. cbn [fst snd]. destruct (rows_with table k) eqn:E; [discriminate|]. injection H as <-. split; [discriminate|reflexivity].
Qed.
Lemma rows_with_in : forall table q k ls, In (k, ls) (rows_with table q) -> In (k, ls) table /\ k = q.
Proof. intros table q k ls H. apply filter_In in H. destruct H as (A & B). split; [exact A|]. apply beqb_spec. exact B. Qed.
Lemma packed_clean : forall table q, clean_table table -> clean (packed (rows_with table q)).
Proof.
  intros table q C. unfold packed. apply clean_join; [vm_compute; intuition discriminate|]. apply Forall_forall. intros x Hx.
  apply in_map_iff in Hx. destruct Hx as ((k & ls) & <- & Hx). apply rows_with_in in Hx. destruct Hx as (Hx & _).
  apply clean_join; [vm_compute; intuition discriminate|]. destruct (C k ls Hx) as (_ & F). exact F.
Qed.
Lemma entry_clean : forall table m e, clean_table table -> Permutation m (merge_all table) -> In e m -> clean (fst e) /\ clean (fst (snd e)).
Proof.
  intros table m e C P H. destruct (merged_entry table m e P H) as (NE & E). rewrite E. cbn [fst]. split; [|apply packed_clean; exact C].
  destruct (rows_with table (fst e)) as [|(k & ls) r] eqn:R; [congruence|].
  assert (X : In (k, ls) (rows_with table (fst e))) by (rewrite R; left; reflexivity). apply rows_with_in in X. destruct X as (X & <-).
  destruct (C k ls X) as (K & _). exact K.
Qed.
Lemma merged_ne : forall table m, table <> [] -> Permutation m (merge_all table) -> m <> [].
Proof.
  intros [|(k & ls) table] m NE P ->; [congruence|]. apply Permutation_nil in P.
  pose proof (merge_all_find ((k, ls) :: table) k) as F. match type of F with find_key _ ?x = _ => change x with (merge_all ((k, ls) :: table)) in F end. setoid_rewrite P in F. cbn [find_key] in F. unfold rows_with in F. cbn [filter fst] in F.
  rewrite (proj2 (beqb_spec k k) eq_refl) in F. discriminate F.
Qed.
Lemma merged_nodup : forall table m, Permutation m (merge_all table) -> NoDup (map fst m).
Proof. intros table m P. apply (Permutation_NoDup (Permutation_map fst (Permutation_sym P))). apply merge_all_nodup. Qed.
Lemma clean_dec : forall n, clean (dec n).
Proof. intros n. apply clean_tame. apply dec_tame. Qed.
