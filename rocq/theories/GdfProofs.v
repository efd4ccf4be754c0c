From Coq Require Import List NArith Lia Bool Arith Permutation.
From Verif Require Import Base Text TextProofs StoreModel GroupDbModel GroupDbSpec GroupDbProofs GdfModel GdfSpec.
Import ListNotations.

Lemma digits_app : forall d r, forallb is_digit d = true -> (r = [] \/ exists c t, r = c :: t /\ is_digit c = false) -> digits (d ++ r) = (d, r).
Proof.
  induction d as [|c d IH]; intros r H R; cbn [app].
  - destruct R as [->|(c & t & -> & C)]; cbn [digits]; [reflexivity|now rewrite C].
  - cbn [forallb] in H. apply andb_true_iff in H. destruct H as [H1 H2]. cbn [digits]. now rewrite H1, (IH r H2 R).
Qed.
Lemma dec_head : forall n, exists c t, dec n = c :: t /\ is_digit c = true.
Proof.
  intros n. destruct (dec_spec n) as (D1 & D2 & _). destruct (dec n) as [|c t]; [congruence|].
  exists c, t. split; [reflexivity|]. cbn [forallb] in D2. now apply andb_true_iff in D2.
Qed.
Lemma digit_no_blank : forall c, is_digit c = true -> is_blank c = false.
Proof.
  intros c H. unfold is_digit, is_blank in *. apply andb_true_iff in H. destruct H as [H1 H2]. apply N.leb_le in H1, H2.
  apply orb_false_iff. split; [apply N.eqb_neq; lia|]. apply andb_false_iff. right. apply N.leb_gt. lia.
Qed.
Lemma read_dec : forall ws n r, forallb is_blank ws = true -> (n < 18446744073709551616)%N ->
  (r = [] \/ exists c t, r = c :: t /\ is_digit c = false) ->
  read_size (ws ++ dec n ++ r, false) = (Some n, (r, false)).
Proof.
  intros ws n r W L R. unfold read_size.
  assert (S : skip_ws (ws ++ dec n ++ r) = dec n ++ r).
  { induction ws as [|c ws IH]; cbn [app].
    - destruct (dec_head n) as (c & t & E & D). rewrite E. cbn [app skip_ws]. now rewrite (digit_no_blank c D).
    - cbn [forallb] in W. apply andb_true_iff in W. destruct W as [W1 W2]. cbn [skip_ws]. rewrite W1. now apply IH. }
  rewrite S. destruct (dec_spec n) as (D1 & D2 & D3).
  destruct (dec n ++ r) as [|c t] eqn:E; [destruct (dec n); [congruence|discriminate]|].
  rewrite <- E, (digits_app _ _ D2 R). destruct (dec n) as [|c' t'] eqn:E'; [congruence|]. rewrite <- E' in *.
  rewrite D3. apply N.ltb_lt in L. now rewrite L.
Qed.

(** The entries with what follows them. *)
Fixpoint ent (os : list (N * N)) (t : bytes) : bytes :=
  match os with [] => t | (b, o) :: r => newline :: dec b ++ 32%N :: dec o ++ ent r t end.
Lemma ent_text : forall os, newline :: flat_map meta_line os = ent os [newline].
Proof.
  induction os as [|[b o] os IH]; [reflexivity|]. cbn [flat_map ent]. rewrite <- IH. unfold meta_line. cbn [fst snd].
  rewrite <- !app_assoc. cbn [app]. rewrite <- !app_assoc. reflexivity.
Qed.
Lemma ent_app : forall os t, ent os t = ent os [] ++ t.
Proof.
  induction os as [|[b o] os IH]; intros t; [reflexivity|]. cbn [ent]. rewrite (IH t). cbn [app]. f_equal.
  rewrite <- app_assoc. cbn [app]. now rewrite <- app_assoc.
Qed.
Lemma ent_stop : forall os t, t = [] \/ t = [newline] -> ent os t = [] \/ exists c r, ent os t = c :: r /\ is_digit c = false.
Proof.
  intros [|[b o] os] t T; cbn [ent].
  - destruct T as [-> | ->]; [left; reflexivity|right; do 2 eexists; split; reflexivity].
  - right. do 2 eexists. split; reflexivity.
Qed.
Definition small (p : N * N) : Prop := (fst p < 18446744073709551616)%N /\ (snd p < 18446744073709551616)%N.
Lemma load_ent : forall os t m, t = [] \/ t = [newline] -> Forall small os ->
  load_entries (length os) (ent os t, false) m = Ok (rev os ++ m).
Proof.
  induction os as [|[b o] os IH]; intros t m T F; [reflexivity|]. inversion F as [|? ? [S1 S2] F']; subst. cbn [fst snd] in *.
  cbn [length load_entries ent].
  change (newline :: dec b ++ 32%N :: dec o ++ ent os t) with ([newline] ++ dec b ++ (32%N :: dec o ++ ent os t)).
  rewrite read_dec; [|reflexivity|exact S1|right; do 2 eexists; split; reflexivity].
  change (32%N :: dec o ++ ent os t) with ([32%N] ++ dec o ++ ent os t).
  rewrite read_dec; [|reflexivity|exact S2|now apply ent_stop].
  rewrite IH by assumption. cbn [rev]. now rewrite <- app_assoc.
Qed.
Lemma load_meta_ok : forall max os meta, Forall small os -> (N.of_nat (length os) <= max)%N -> (N.of_nat (length os) < 18446744073709551616)%N ->
  meta = meta_text os \/ meta_text os = meta ++ [newline] -> load_meta max meta = Ok (rev os).
Proof.
  intros max os meta F L L' M. unfold load_meta.
  assert (X : exists t, (t = [] \/ t = [newline]) /\ meta = dec (N.of_nat (length os)) ++ ent os t).
  { unfold meta_text in M. rewrite ent_text in M. destruct M as [->|M]; [exists [newline]; auto|].
    exists []. split; [auto|]. rewrite (ent_app os [newline]), app_assoc in M. now apply app_inj_tail in M. }
  destruct X as (t & T & ->).
  set (meta := dec (N.of_nat (length os)) ++ ent os t : bytes).
  assert (R : read_size (@pair bytes bool meta false) = (Some (N.of_nat (length os)), (ent os t, false)))
    by exact (read_dec [] (N.of_nat (length os)) (ent os t) eq_refl L' (ent_stop os t T)).
  change (dec (N.of_nat (length os)) ++ ent os t) with meta. rewrite R.
  unfold enforce. apply N.leb_le in L. rewrite L, Nnat.Nat2N.id, load_ent by assumption. now rewrite app_nil_r.
Qed.

Section Library.
Variable DB : Type.
Variable build : list row -> DB.
Variable ser : DB -> bytes.
Variable deser : bytes -> option DB.
Variable map_order : list (N * list row) -> list (N * list row).
Variable meta_order : list (N * N) -> list (N * N).
Hypothesis map_perm : forall m, Permutation m (map_order m).
Hypothesis meta_perm : forall m, Permutation m (meta_order m).

Definition wide_entries (d : list (N * nat) * bytes) : list (N * N) := map (fun p => (fst p, N.of_nat (snd p))) (fst d).

Lemma layout_keys : forall m f, map fst (fst (layout DB build ser m f)) = map fst m.
Proof.
  induction m as [|[b rs] m IH]; intros f; [reflexivity|]. cbn [layout]. specialize (IH (f ++ ser (build rs))).
  destruct (layout DB build ser m (f ++ ser (build rs))). cbn [fst map] in *. now rewrite IH.
Qed.
Lemma layout_offsets : forall m f, length f <= length (snd (layout DB build ser m f)) /\
  Forall (fun p => snd p <= length (snd (layout DB build ser m f))) (fst (layout DB build ser m f)).
Proof.
  induction m as [|[b rs] m IH]; intros f; [cbn; auto|]. cbn [layout]. specialize (IH (f ++ ser (build rs))).
  destruct (layout DB build ser m (f ++ ser (build rs))) as [os f']. cbn [fst snd] in *. rewrite app_length in IH.
  destruct IH as [IH1 IH2]. split; [lia|]. constructor; [cbn [snd]; lia|exact IH2].
Qed.
Lemma collect_keys : forall ls m m', collect ls m = Ok m' -> NoDup (map fst m) ->
  NoDup (map fst m') /\ forall b, In b (map fst m') -> In b (map fst m) \/ exists r, In (GRow b r) ls.
Proof.
  induction ls as [|[|b r] ls IH]; intros m m' E D; cbn [collect] in E; [injection E as <-; auto|discriminate|].
  destruct (IH _ _ E) as [H1 H2]; [now apply add_to_nodup|]. split; [exact H1|]. intros c I. destruct (H2 c I) as [J|(r' & J)].
  - apply add_to_keys in J. destruct J as [->|J]; [right; exists r; now left|now left].
  - right. exists r'. now right.
Qed.
Lemma generate_facts : forall max src d, generate DB build ser map_order max src = Ok d ->
  NoDup (map fst (fst d)) /\ (N.of_nat (length (fst d)) <= max)%N /\
  Forall (fun p => (exists r, In (GRow (fst p) r) src) /\ snd p <= length (snd d)) (fst d).
Proof using deser map_perm.
  intros max src d E. unfold generate in E. destruct src as [|[|b r] rows]; try discriminate.
  destruct (collect rows []) as [m| | |] eqn:C; try discriminate. cbn [bind] in E. unfold enforce in E.
  destruct (N.of_nat (length m) <=? max)%N eqn:L; [|discriminate]. destruct (negb _); [|discriminate]. injection E as <-.
  destruct (collect_keys _ _ _ C (NoDup_nil _)) as [H1 H2].
  pose proof (map_perm m) as P. pose proof (Permutation_map fst P) as PK. rewrite !layout_keys.
  split; [eapply Permutation_NoDup; eassumption|]. split.
  - rewrite <- (map_length fst), layout_keys, map_length, <- (Permutation_length P). now apply N.leb_le.
  - destruct (layout_offsets (map_order m) []) as [_ O]. apply Forall_forall. intros p I. split.
    + assert (K : In (fst p) (map fst m)).
      { apply (Permutation_in _ (Permutation_sym PK)). rewrite <- (layout_keys (map_order m) []). now apply in_map. }
      destruct (H2 _ K) as [[]|(r & J)]. exists r. now right.
    + rewrite Forall_forall in O. now apply O.
Qed.

Lemma assoc_wide : forall (l : list (N * nat)) b, assoc b (map (fun p => (fst p, N.of_nat (snd p))) l) = option_map N.of_nat (assoc b l).
Proof.
  induction l as [|[c o] l IH]; intros b; [reflexivity|]. cbn [map assoc fst snd]. destruct (c =? b)%N; [reflexivity|apply IH].
Qed.

(** Files that are read back as what was generated. *)
Lemma reopen_files : forall max src d fs b, generate DB build ser map_order max src = Ok d ->
  (forall b r, In (GRow b r) src -> (b < 18446744073709551616)%N) ->
  (N.of_nat (length (snd d)) < 18446744073709551616)%N -> (max < 18446744073709551616)%N ->
  snd fs = None \/ fst fs = Some (snd d) /\
    (snd fs = Some (snd (gen_files meta_order d)) \/ exists meta, snd fs = Some meta /\ snd (gen_files meta_order d) = meta ++ [newline]) ->
  reopen DB build ser deser map_order max src fs b = Ok (open_bucket DB deser (snd d) (wide_entries d) b).
Proof using deser map_perm meta_perm.
  intros max src d fs b G K L LM H. destruct (generate_facts _ _ _ G) as (ND & LE & F).
  assert (FRESH : (do d <- generate DB build ser map_order max src;
         Ok (open_bucket DB deser (snd d) (map (fun p => (fst p, N.of_nat (snd p))) (fst d)) b)) = Ok (open_bucket DB deser (snd d) (wide_entries d) b))
    by (rewrite G; reflexivity).
  destruct fs as [f1 f2]. cbn [fst snd] in H. destruct H as [->|(-> & H)].
  { unfold reopen. destruct f1; exact FRESH. }
  set (os := meta_order (wide_entries d)).
  assert (P : Permutation (wide_entries d) os) by apply meta_perm.
  assert (NDW : NoDup (map fst (wide_entries d))) by (unfold wide_entries; rewrite map_map; exact ND).
  assert (X : forall meta, meta = meta_text os \/ meta_text os = meta ++ [newline] ->
            reopen DB build ser deser map_order max src (Some (snd d), Some meta) b = Ok (open_bucket DB deser (snd d) (wide_entries d) b)).
  { intros meta M. unfold reopen. assert (LO : length os = length (fst d)) by (rewrite <- (Permutation_length P); unfold wide_entries; apply map_length).
    rewrite (load_meta_ok max os meta).
    - cbn [bind]. f_equal. unfold open_bucket. rewrite (assoc_perm _ (wide_entries d) (rev os) b NDW); [reflexivity|].
      eapply Permutation_trans; [exact P|apply Permutation_rev].
    - eapply Permutation_Forall; [exact P|]. unfold wide_entries. apply Forall_map. eapply Forall_impl; [|exact F].
      intros p [(r & I) O]. split; cbn [fst snd]; [now apply (K _ r)|]. lia.
    - rewrite LO. exact LE.
    - rewrite LO. lia.
    - exact M. }
  destruct H as [->|(meta & -> & M)]; apply X; [left; reflexivity|right; exact M].
Qed.
End Library.
