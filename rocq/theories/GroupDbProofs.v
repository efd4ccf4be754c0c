(** Lemmas for C44. *)
From Coq Require Import List NArith Lia Bool Arith Permutation.
From Verif Require Import Base Text TextProofs StoreModel StoreProofs PirPackModel PirPackProofs2 GroupDbModel GroupDbSpec.
Import ListNotations.

(** * Arithmetic of groups *)
Lemma ceil_bounds : forall n d, (1 <= n -> 1 <= d -> n + d - 1 < 18446744073709551616 ->
  let p := u64 (n + d - 1) / d in 1 <= p /\ n <= p * d /\ (p - 1) * d < n)%N.
Proof.
  intros n d Hn Hd Hw. cbv zeta. unfold u64. rewrite (N.mod_small (n + d - 1)) by exact Hw.
  pose proof (N.div_mod' (n + d - 1) d) as E. pose proof (N.mod_lt (n + d - 1) d ltac:(lia)) as L.
  set (q := ((n + d - 1) / d)%N) in *. set (r := ((n + d - 1) mod d)%N) in *. clearbody q r.
  assert (1 <= q)%N by (destruct q; lia). nia.
Qed.

Definition wide (nb ng : N) : Prop := (1 <= nb <= 2147483648 /\ 1 <= ng < 9223372036854775808)%N.

Lemma per_bounds : forall nb ng, wide nb ng ->
  (1 <= per_group nb ng /\ nb <= per_group nb ng * ng)%N.
Proof.
  intros nb ng [H1 H2]. unfold per_group.
  destruct (ceil_bounds nb ng) as (A & B & _); [lia|lia|lia|]. split; assumption.
Qed.

Lemma group_lt : forall nb ng b, wide nb ng -> (b < nb)%N -> (b / per_group nb ng < ng)%N.
Proof.
  intros nb ng b W H. destruct (per_bounds nb ng W) as [A B].
  apply N.div_lt_upper_bound; [lia|]. lia.
Qed.

Lemma range_spec : forall nb ng g b, wide nb ng ->
  (group_of nb ng b = Ok g <-> fst (group_range nb ng g) <= b < fst (group_range nb ng g) + snd (group_range nb ng g))%N.
Proof.
  intros nb ng g b W. destruct (per_bounds nb ng W) as [A B]. unfold group_of, group_range. cbn [fst snd].
  set (p := per_group nb ng) in *. clearbody p. unfold enforce.
  pose proof (N.div_mod' b p) as E. pose proof (N.mod_lt b p ltac:(lia)) as L.
  set (q := (b / p)%N) in *. set (r := (b mod p)%N) in *. clearbody q r.
  destruct (N.ltb_spec b nb) as [H|H].
  - split.
    + intros X. injection X as ->. rewrite (N.min_r nb (g * p)) by nia. nia.
    + intros [X Y]. f_equal.
      assert (g * p <= b)%N by lia. assert (b < (g + 1) * p)%N by lia. nia.
  - split; [discriminate|]. intros [X Y]. lia.
Qed.

(** * Grouping *)
Section Grouping.
Context {V : Type}.

Definition at_key (b : N) (l : list (N * V)) : list V := map snd (filter (fun p => (fst p =? b)%N) l).

Lemma add_to_assoc : forall b (v : V) m c,
  assoc c (add_to b v m) = if (b =? c)%N then Some (match assoc b m with Some vs => vs ++ [v] | None => [v] end) else assoc c m.
Proof.
  intros b v m c. induction m as [|[b' vs] m IH]; cbn [add_to assoc].
  - reflexivity.
  - destruct (N.eqb_spec b' b) as [->|N1]; cbn [assoc].
    + destruct (N.eqb_spec b c) as [->|]; reflexivity.
    + rewrite IH. destruct (N.eqb_spec b' c) as [->|N2].
      * destruct (N.eqb_spec b c) as [->|]; [contradiction|reflexivity].
      * reflexivity.
Qed.

Lemma add_to_keys : forall b (v : V) m c, In c (map fst (add_to b v m)) <-> c = b \/ In c (map fst m).
Proof.
  intros b v m c. induction m as [|[b' vs] m IH]; cbn [add_to map fst In].
  - intuition.
  - destruct (N.eqb_spec b' b) as [->|N1]; cbn [map fst In]; [intuition|]. rewrite IH. intuition.
Qed.

Lemma add_to_nodup : forall b (v : V) m, NoDup (map fst m) -> NoDup (map fst (add_to b v m)).
Proof.
  intros b v m. induction m as [|[b' vs] m IH]; intros H; cbn [add_to map fst].
  - repeat constructor. intros [].
  - inversion H; subst. destruct (N.eqb_spec b' b) as [->|N1]; cbn [map fst]; constructor; auto.
    rewrite add_to_keys. intros [->|]; contradiction.
Qed.

Lemma add_to_perm : forall b (v : V) m, Permutation (concat (map snd (add_to b v m))) (v :: concat (map snd m)).
Proof.
  intros b v m. induction m as [|[b' vs] m IH]; cbn [add_to map snd concat].
  - reflexivity.
  - destruct (N.eqb_spec b' b) as [->|N1]; cbn [map snd concat].
    + rewrite <- app_assoc. cbn. symmetry. apply Permutation_middle.
    + rewrite IH. symmetry. apply Permutation_middle.
Qed.

Lemma in_assoc : forall (X : Type) (m : list (N * X)) b v, NoDup (map fst m) -> (assoc b m = Some v <-> In (b, v) m).
Proof.
  intros X m b v. induction m as [|[b' x] m IH]; intros H; cbn [assoc]; [split; [discriminate|intros []]|].
  cbn [map fst] in H. inversion H as [|? ? H1 H2]; subst. destruct (N.eqb_spec b' b) as [->|N1].
  - split; [intros E; injection E as ->; left; reflexivity|].
    intros [E|I]; [injection E as ->; reflexivity|]. exfalso. apply H1. apply (in_map fst) in I. exact I.
  - rewrite (IH H2). split; [intros I; right; exact I|]. intros [E|I]; [injection E as; contradiction|exact I].
Qed.

Lemma assoc_perm : forall (X : Type) (m m' : list (N * X)) b, NoDup (map fst m) -> Permutation m m' -> assoc b m' = assoc b m.
Proof.
  intros X m m' b H P. assert (H' : NoDup (map fst m')) by (apply (Permutation_NoDup (Permutation_map fst P) H)).
  destruct (assoc b m) as [v|] eqn:E.
  - apply (in_assoc _ m' b v H'). apply (Permutation_in _ P). apply (in_assoc _ m b v H). exact E.
  - destruct (assoc b m') as [v|] eqn:E'; [|reflexivity]. exfalso.
    apply (in_assoc _ m' b v H') in E'. apply (Permutation_in _ (Permutation_sym P)) in E'.
    apply (in_assoc _ m b v H) in E'. congruence.
Qed.

Definition group_all (l : list (N * V)) (m : list (N * list V)) : list (N * list V) :=
  fold_left (fun m p => add_to (fst p) (snd p) m) l m.

Lemma group_all_nodup : forall l m, NoDup (map fst m) -> NoDup (map fst (group_all l m)).
Proof.
  induction l as [|[b v] l IH]; intros m H; [exact H|]. apply IH. apply add_to_nodup. exact H.
Qed.

Lemma group_all_assoc : forall l m b,
  assoc b (group_all l m) =
  match assoc b m with
  | Some vs => Some (vs ++ at_key b l)
  | None => match at_key b l with [] => None | vs => Some vs end
  end.
Proof.
  induction l as [|[c v] l IH]; intros m b.
  - cbn. destruct (assoc b m); [rewrite app_nil_r|]; reflexivity.
  - cbn [group_all fold_left fst snd]. fold (group_all l (add_to c v m)). rewrite IH, add_to_assoc.
    unfold at_key. cbn [filter fst]. destruct (N.eqb_spec c b) as [->|N1]; cbn [map snd].
    + destruct (assoc b m); [rewrite <- app_assoc|]; reflexivity.
    + reflexivity.
Qed.

Lemma group_all_perm : forall l m, Permutation (concat (map snd (group_all l m))) (concat (map snd m) ++ map snd l).
Proof.
  induction l as [|[b v] l IH]; intros m.
  - cbn. rewrite app_nil_r. reflexivity.
  - cbn [group_all fold_left fst snd]. fold (group_all l (add_to b v m)). rewrite IH, add_to_perm.
    cbn [map snd]. cbn. apply Permutation_middle.
Qed.

Lemma group_all_keys : forall l m b, In b (map fst (group_all l m)) <-> In b (map fst m) \/ In b (map fst l).
Proof.
  induction l as [|[c v] l IH]; intros m b.
  - cbn. tauto.
  - cbn [group_all fold_left fst snd]. fold (group_all l (add_to c v m)). rewrite IH, add_to_keys. cbn [map fst In]. intuition.
Qed.
End Grouping.

Lemma in_at_key : forall (V : Type) b (l : list (N * V)) v, In v (at_key b l) <-> In (b, v) l.
Proof.
  intros V b l v. unfold at_key. rewrite in_map_iff. split.
  - intros ([c w] & <- & I). apply filter_In in I as [I E]. cbn in *. apply N.eqb_eq in E as ->. exact I.
  - intros I. exists (b, v). split; [reflexivity|]. apply filter_In. split; [exact I|]. apply N.eqb_refl.
Qed.

(** * Group files *)
Lemma writes_nth : forall ws fs g,
  nth_error (writes fs ws) g =
  option_map (fun f => f ++ map snd (filter (fun w => Nat.eqb (fst w) g) ws)) (nth_error fs g).
Proof.
  induction ws as [|[i x] ws IH]; intros fs g.
  - cbn. destruct (nth_error fs g); cbn; [rewrite app_nil_r|]; reflexivity.
  - cbn [writes fold_left]. fold (writes (write1 fs (i, x)) ws). rewrite IH. unfold write1. cbn [fst snd].
    rewrite upd_nth. cbn [filter fst]. destruct (Nat.eqb_spec i g) as [->|N1].
    + destruct (nth_error fs g); cbn [option_map map snd]; [|reflexivity]. rewrite <- app_assoc. reflexivity.
    + reflexivity.
Qed.

Lemma writes_length : forall ws fs, length (writes fs ws) = length fs.
Proof.
  induction ws as [|w ws IH]; intros fs; [reflexivity|]. cbn [writes fold_left].
  fold (writes (write1 fs w) ws). rewrite IH. apply upd_length.
Qed.

Lemma head_filter : forall n g, g < n ->
  map snd (filter (fun w => Nat.eqb (fst w) g) (map (fun g => (g, GHead)) (seq 0 n))) = [GHead].
Proof.
  intros n g H.
  assert (G : forall k s, s <= g < s + k ->
    map snd (filter (fun w => Nat.eqb (fst w) g) (map (fun g => (g, GHead)) (seq s k))) = [GHead]).
  { induction k as [|k IH]; intros s Hs; [lia|]. cbn [seq map filter fst].
    destruct (Nat.eqb_spec s g) as [->|N1].
    - cbn [map snd]. f_equal. clear. 
      assert (X : forall j s, g < s -> map snd (filter (fun w => Nat.eqb (fst w) g) (map (fun g => (g, GHead)) (seq s j))) = []).
      { induction j as [|j IH]; intros s Hs; [reflexivity|]. cbn [seq map filter fst].
        destruct (Nat.eqb_spec s g); [lia|]. apply IH. lia. }
      apply X. lia.
    - apply IH. lia. }
  apply G. lia.
Qed.

Section Files.
Variable hash : bytes -> N.

Lemma bucket_ok : forall nb ng k, wide nb ng -> bucket_of hash nb k = Ok (hash k mod nb)%N /\ (hash k mod nb < nb)%N.
Proof.
  intros nb ng k [W _]. unfold bucket_of. destruct (N.eqb_spec nb 0); [lia|].
  pose proof (N.mod_lt (hash k) nb ltac:(lia)). destruct (N.ltb_spec (hash k mod nb) 2147483648); [auto|lia].
Qed.

Definition tagged (nb : N) (rows : list row) : list (N * row) := map (fun r => (hash (fst r) mod nb, r)%N) rows.

Lemma divide_writes_ok : forall nb ng rows, wide nb ng ->
  divide_writes hash nb ng rows =
  Ok (map (fun g => (g, GHead)) (seq 0 (N.to_nat ng)) ++
      map (fun p => (N.to_nat (fst p / per_group nb ng), GRow (fst p) (snd p))) (tagged nb rows)).
Proof.
  intros nb ng rows W. unfold divide_writes, enforce. destruct (N.leb_spec 1 ng); [|destruct W; lia].
  rewrite (map_out_ok _ _ _ (fun r => (N.to_nat (hash (fst r) mod nb / per_group nb ng), GRow (hash (fst r) mod nb) r))).
  - cbn [bind]. f_equal. f_equal. unfold tagged. rewrite map_map. reflexivity.
  - intros r _. unfold divide_row. rewrite (proj1 (bucket_ok nb ng (fst r) W)). reflexivity.
Qed.

(** The rows of a group. *)
Definition group_rows (nb ng : N) (g : nat) (rows : list row) : list (N * row) :=
  filter (fun p => Nat.eqb (N.to_nat (fst p / per_group nb ng)) g) (tagged nb rows).

Lemma row_filter : forall nb ng g rows,
  map snd (filter (fun w => Nat.eqb (fst w) g)
    (map (fun p : N * row => (N.to_nat (fst p / per_group nb ng), GRow (fst p) (snd p))) (tagged nb rows))) =
  map (fun p => GRow (fst p) (snd p)) (group_rows nb ng g rows).
Proof.
  intros nb ng g rows. unfold group_rows. induction (tagged nb rows) as [|p l IH]; [reflexivity|].
  cbn [map filter fst]. destruct (Nat.eqb _ g); cbn [map snd]; rewrite IH; reflexivity.
Qed.

Lemma divided_files : forall nb ng rows, wide nb ng -> rows <> [] ->
  exists d, divide_group hash nb ng rows (fresh_disk ng) = Ok d /\ gd_divided d = true /\
    length (gd_files d) = N.to_nat ng /\
    forall g, g < N.to_nat ng ->
      nth_error (gd_files d) g = Some (GHead :: map (fun p => GRow (fst p) (snd p)) (group_rows nb ng g rows)).
Proof.
  intros nb ng rows W Hr. unfold divide_group, fresh_disk. cbn [gd_divided gd_files].
  rewrite (divide_writes_ok nb ng rows W). cbn [bind]. unfold enforce.
  destruct rows as [|r0 rows]; [contradiction|]. cbn [negb].
  eexists. split; [reflexivity|]. cbn [gd_divided gd_files]. split; [reflexivity|].
  split; [rewrite writes_length, repeat_length; reflexivity|].
  intros g Hg. rewrite writes_nth. rewrite (nth_error_repeat _ Hg). cbn [option_map app]. f_equal.
  rewrite filter_app, map_app, (head_filter _ _ Hg), row_filter. reflexivity.
Qed.

Lemma collect_rows : forall (l : list (N * row)) m,
  collect (map (fun p => GRow (fst p) (snd p)) l) m = Ok (group_all l m).
Proof.
  induction l as [|[b r] l IH]; intros m; [reflexivity|]. cbn [map fst snd collect]. rewrite IH. reflexivity.
Qed.

Lemma dup_spec : forall rs, is_duplicated rs = false <-> NoDup (map fst rs).
Proof.
  unfold is_duplicated. induction rs as [|r rs IH]; [split; [constructor|reflexivity]|].
  cbn [map]. rewrite orb_false_iff, IH. split.
  - intros [A B]. constructor; [|exact B]. intros I. apply in_map_iff in I as (r' & E & I).
    assert (X : existsb (fun r' => beqb (fst r) (fst r')) rs = true).
    { apply existsb_exists. exists r'. split; [exact I|]. apply beqb_spec. congruence. }
    congruence.
  - intros H. inversion H as [|? ? H1 H2]; subst. split; [|exact H2].
    destruct (existsb (fun r' => beqb (fst r) (fst r')) rs) eqn:E; [|reflexivity]. exfalso. apply existsb_exists in E as (r' & I & E).
    apply beqb_spec in E. apply H1. rewrite E. apply in_map. exact I.
Qed.

(** Rows of bucket [b]. *)
Lemma at_group : forall nb ng rows b,
  at_key b (group_rows nb ng (N.to_nat (b / per_group nb ng)) rows) = at_key b (tagged nb rows).
Proof.
  intros nb ng rows b. unfold at_key, group_rows. f_equal. induction (tagged nb rows) as [|p l IH]; [reflexivity|].
  cbn [filter]. destruct (N.eqb_spec (fst p) b) as [E|E].
  - rewrite E, Nat.eqb_refl. cbn [filter]. rewrite E, N.eqb_refl. f_equal. exact IH.
  - destruct (Nat.eqb _ _); [|exact IH]. cbn [filter]. destruct (N.eqb_spec (fst p) b); [contradiction|exact IH].
Qed.

Lemma nodup_filter_map : forall (A B : Type) (f : A -> B) (h : A -> bool) l, NoDup (map f l) -> NoDup (map f (filter h l)).
Proof.
  intros A B f h l. induction l as [|x l IH]; intros H; [constructor|]. cbn [map] in H. inversion H as [|? ? H1 H2]; subst.
  cbn [filter]. destruct (h x); [|auto]. cbn [map]. constructor; [|auto]. intros I. apply H1.
  apply in_map_iff in I as (y & E & I). apply filter_In in I as [I _]. rewrite <- E. apply in_map. exact I.
Qed.

Lemma at_key_tagged : forall nb rows b, at_key b (tagged nb rows) = filter (fun r => (hash (fst r) mod nb =? b)%N) rows.
Proof.
  intros nb rows b. unfold at_key, tagged. induction rows as [|r rows IH]; [reflexivity|].
  cbn [map filter fst]. destruct (_ =? b)%N; cbn [map snd]; rewrite IH; reflexivity.
Qed.

Lemma few_keys : forall nb ng g rows, wide nb ng ->
  (N.of_nat (length (group_all (group_rows nb ng g rows) [])) <= per_group nb ng)%N.
Proof.
  intros nb ng g rows W. destruct (per_bounds nb ng W) as [A _]. set (p := per_group nb ng) in *.
  rewrite <- (map_length fst).
  assert (L : length (map fst (group_all (group_rows nb ng g rows) [])) <=
              length (map (fun i => N.of_nat g * p + N.of_nat i)%N (seq 0 (N.to_nat p)))).
  { apply NoDup_incl_length; [apply group_all_nodup; constructor|]. intros b I.
    apply group_all_keys in I as [[]|I]. apply in_map_iff in I as ([c r] & <- & I). cbn [fst].
    apply filter_In in I as [_ I]. cbn [fst] in I. fold p in I. apply Nat.eqb_eq in I.
    apply in_map_iff. exists (N.to_nat (c - N.of_nat g * p)%N).
    pose proof (N.div_mod' c p) as E. pose proof (N.mod_lt c p ltac:(lia)) as B.
    set (q := (c / p)%N) in *. set (r' := (c mod p)%N) in *. clearbody q r'.
    split; [|apply in_seq]; nia. }
  rewrite (map_length _ (seq _ _)), seq_length in L. lia.
Qed.
End Files.

Lemma forall2_nth : forall (A B : Type) (R : A -> B -> Prop) l l', Forall2 R l l' ->
  forall k x, nth_error l k = Some x -> exists y, nth_error l' k = Some y /\ R x y.
Proof.
  intros A B R l l' H. induction H as [|a b l l' H1 H2 IH]; intros [|k] x Hk; try discriminate.
  - injection Hk as <-. exists b. split; [reflexivity|exact H1].
  - exact (IH k x Hk).
Qed.

Lemma label_filter : forall (h : row -> bool) (q : bytes) rows,
  (forall r, fst r = q -> h r = true) -> label_of (filter h rows) q = label_of rows q.
Proof.
  intros h q rows H. induction rows as [|[k v] rows IH]; [reflexivity|]. cbn [filter label_of].
  destruct (beqb k q) eqn:E.
  - rewrite (H (k, v)) by (apply beqb_spec; exact E). cbn [label_of]. rewrite E. reflexivity.
  - destruct (h (k, v)); [|exact IH]. cbn [label_of]. rewrite E. exact IH.
Qed.

(** * Databases of a group *)
Section Dbs.
Variable hash : bytes -> N.
Variable DB : Type.
Variable build : list row -> DB.
Variable ser : DB -> bytes.
Variable deser : bytes -> option DB.
Hypothesis deser_ser : forall d rest, deser (ser d ++ rest) = Some d.
Variable map_order : list (N * list row) -> list (N * list row).
Hypothesis order_perm : forall m, Permutation m (map_order m).

Lemma layout_spec : forall m f, exists rest, snd (layout DB build ser m f) = f ++ rest /\
  forall b, match assoc b m with
            | None => assoc b (fst (layout DB build ser m f)) = None
            | Some rs => exists o tail, assoc b (fst (layout DB build ser m f)) = Some o /\
                           skipn o (snd (layout DB build ser m f)) = ser (build rs) ++ tail
            end.
Proof using.
  clear. induction m as [|[c rs] m IH]; intros f.
  - exists []. cbn. split; [rewrite app_nil_r; reflexivity|reflexivity].
  - cbn [layout]. destruct (IH (f ++ ser (build rs))) as (rest & E & H).
    destruct (layout DB build ser m (f ++ ser (build rs))) as [os f'] eqn:L. cbn [fst snd] in *.
    exists (ser (build rs) ++ rest). split; [rewrite E, app_assoc; reflexivity|].
    intros b. cbn [assoc]. destruct (N.eqb_spec c b) as [->|N1]; [|apply H].
    exists (length f), rest. split; [reflexivity|]. rewrite E, <- app_assoc, skipn_app, skipn_all, Nat.sub_diag. reflexivity.
Qed.

Definition built (rs : list row) : option DB := match rs with [] => None | _ => Some (build rs) end.

Lemma generate_ok : forall nb ng g rows, wide nb ng -> NoDup (map fst rows) ->
  exists d, generate DB build ser map_order (per_group nb ng)
              (GHead :: map (fun p => GRow (fst p) (snd p)) (group_rows hash nb ng g rows)) = Ok d /\
    (N.of_nat (length (fst d)) <= per_group nb ng)%N /\
    forall b it, (b / per_group nb ng)%N = N.of_nat g -> gi_db it = Some d ->
      load_bucket DB deser it b = Ok (built (at_key b (tagged hash nb rows))).
Proof using deser_ser order_perm.
  intros nb ng g rows W ND. unfold generate. rewrite collect_rows. cbn [bind]. unfold enforce.
  pose proof (few_keys hash nb ng g rows W) as F. set (m := group_all (group_rows hash nb ng g rows) []) in *.
  destruct (N.leb_spec (N.of_nat (length m)) (per_group nb ng)); [|lia].
  assert (Hm : NoDup (map fst m)) by (apply group_all_nodup; constructor).
  assert (Hsub : forall b rs, In (b, rs) m -> rs = at_key b (group_rows hash nb ng g rows)).
  { intros b rs I. apply in_assoc in I; [|exact Hm]. subst m. rewrite group_all_assoc in I. cbn [assoc] in I.
    destruct (at_key b _); congruence. }
  assert (Hd : existsb (fun p => is_duplicated (snd p)) (map_order m) = false).
  { destruct (existsb _ (map_order m)) eqn:E; [|reflexivity]. exfalso.
    apply existsb_exists in E as ([b rs] & I & E). apply (Permutation_in _ (Permutation_sym (order_perm m))) in I.
    apply Hsub in I as ->. cbn [snd] in E.
    assert (X : is_duplicated (at_key b (group_rows hash nb ng g rows)) = false).
    { apply dup_spec. unfold at_key. rewrite map_map. apply nodup_filter_map. unfold group_rows. apply nodup_filter_map.
      unfold tagged. rewrite map_map. cbn [snd]. exact ND. }
    congruence. }
  rewrite Hd. cbn [negb]. eexists. split; [reflexivity|].
  assert (LL : forall m f, length (fst (layout DB build ser m f)) = length m).
  { clear. induction m as [|[c rs] m IH]; intros f; [reflexivity|]. cbn [layout].
    specialize (IH (f ++ ser (build rs))). destruct (layout _ _ _ m _). cbn [fst length] in *. congruence. }
  split.
  - rewrite LL, <- (Permutation_length (order_perm m)). exact F.
  - intros b it Hb Hit. unfold load_bucket. rewrite Hit.
    destruct (layout_spec (map_order m) []) as (rest & _ & Hl). specialize (Hl b).
    rewrite (assoc_perm _ m (map_order m) b Hm (order_perm m)) in Hl.
    subst m. rewrite group_all_assoc in Hl. cbn [assoc] in Hl.
    assert (G : at_key b (group_rows hash nb ng g rows) = at_key b (tagged hash nb rows)).
    { rewrite <- (at_group hash nb ng rows b), Hb, Nnat.Nat2N.id. reflexivity. }
    rewrite G in Hl.
    set (m := group_all (group_rows hash nb ng g rows) []) in *.
    destruct (layout DB build ser (map_order m) []) as [os f]. cbn [fst snd] in Hl.
    destruct (at_key b (tagged hash nb rows)) as [|r rs].
    + rewrite Hl. reflexivity.
    + destruct Hl as (o & tail & -> & E). rewrite E, deser_ser. reflexivity.
Qed.

(** A group is untouched or has been generated. *)
Definition item_of (max_bucket : N) (f : list gline) (it : gitem) : Prop :=
  gi_src it = f /\ (gi_db it = None \/ exists d, generate DB build ser map_order max_bucket f = Ok d /\ gi_db it = Some d).

Lemma get_bucket_ok : forall nb ng rows d items b, wide nb ng -> rows <> [] -> NoDup (map fst rows) ->
  divide_group hash nb ng rows (fresh_disk ng) = Ok d ->
  Forall2 (item_of (per_group nb ng)) (gd_files d) items -> (b < nb)%N ->
  get_bucket_db DB build ser deser map_order nb ng items b = Ok (built (at_key b (tagged hash nb rows))).
Proof using deser_ser order_perm.
  intros nb ng rows d items b W Hr ND Hd Hi Hb.
  destruct (divided_files hash nb ng rows W Hr) as (d' & E & _ & Hl & Hf). rewrite E in Hd. injection Hd as ->.
  unfold get_bucket_db, group_of, enforce. destruct (N.ltb_spec b nb); [|lia]. cbn [bind].
  pose proof (group_lt nb ng b W Hb) as G. set (g := N.to_nat (b / per_group nb ng)).
  assert (Hg : g < N.to_nat ng) by lia. specialize (Hf g Hg).
  assert (X : exists it, nth_error items g = Some it /\ item_of (per_group nb ng)
            (GHead :: map (fun p => GRow (fst p) (snd p)) (group_rows hash nb ng g rows)) it).
  { exact (forall2_nth _ _ _ _ _ Hi _ _ Hf). }
  destruct X as (it & -> & Hs & Hdb).
  destruct (generate_ok nb ng g rows W ND) as (dd & Eg & Lg & Hload).
  assert (Hgb : (b / per_group nb ng)%N = N.of_nat g) by (subst g; rewrite Nnat.N2Nat.id; reflexivity).
  unfold gen_item. destruct Hdb as [H0|(d2 & E2 & H0)]; rewrite H0.
  - rewrite Hs, Eg. cbn [bind]. apply Hload; [exact Hgb|reflexivity].
  - rewrite Eg in E2. injection E2 as <-. destruct dd as [os f]. cbn [fst] in Lg. unfold enforce.
    destruct (N.leb_spec (N.of_nat (length os)) (per_group nb ng)); [|lia]. cbn [bind].
    apply Hload; [exact Hgb|assumption].
Qed.

Lemma generate_dup : forall nb ng rows b, wide nb ng -> ~ NoDup (map fst (at_key b (tagged hash nb rows))) ->
  generate DB build ser map_order (per_group nb ng)
    (GHead :: map (fun p => GRow (fst p) (snd p)) (group_rows hash nb ng (N.to_nat (b / per_group nb ng)) rows)) = Throw.
Proof using order_perm.
  intros nb ng rows b W ND. unfold generate. rewrite collect_rows. cbn [bind]. unfold enforce.
  destruct (_ <=? _)%N; [|reflexivity].
  set (m := group_all _ []).
  assert (Hm : NoDup (map fst m)) by (apply group_all_nodup; constructor).
  destruct (existsb (fun p => is_duplicated (snd p)) (map_order m)) eqn:E; [reflexivity|exfalso].
  assert (A : assoc b m = match at_key b (tagged hash nb rows) with [] => None | vs => Some vs end).
  { subst m. rewrite group_all_assoc. cbn [assoc]. rewrite at_group. reflexivity. }
  destruct (at_key b (tagged hash nb rows)) as [|r rs]; [apply ND; constructor|].
  apply in_assoc in A; [|exact Hm]. apply (Permutation_in _ (order_perm m)) in A.
  assert (X : existsb (fun p => is_duplicated (snd p)) (map_order m) = true).
  { apply existsb_exists. eexists. split; [exact A|]. cbn [snd]. destruct (is_duplicated (r :: rs)) eqn:D; [reflexivity|].
    exfalso. apply ND. apply dup_spec. exact D. }
  congruence.
Qed.

Lemma get_bucket_dup : forall nb ng rows d items b, wide nb ng -> rows <> [] ->
  ~ NoDup (map fst (at_key b (tagged hash nb rows))) ->
  divide_group hash nb ng rows (fresh_disk ng) = Ok d ->
  Forall2 (item_of (per_group nb ng)) (gd_files d) items -> (b < nb)%N ->
  get_bucket_db DB build ser deser map_order nb ng items b = Throw.
Proof using order_perm.
  intros nb ng rows d items b W Hr ND Hd Hi Hb.
  destruct (divided_files hash nb ng rows W Hr) as (d' & E & _ & Hl & Hf). rewrite E in Hd. injection Hd as ->.
  unfold get_bucket_db, group_of, enforce. destruct (N.ltb_spec b nb); [|lia]. cbn [bind].
  pose proof (group_lt nb ng b W Hb) as G.
  specialize (Hf (N.to_nat (b / per_group nb ng)) ltac:(lia)).
  destruct (forall2_nth _ _ _ _ _ Hi _ _ Hf) as (it & -> & Hs & Hdb).
  pose proof (generate_dup nb ng rows b W ND) as Eg.
  unfold gen_item. destruct Hdb as [H0|(d2 & E2 & H0)]; rewrite H0.
  - rewrite Hs, Eg. reflexivity.
  - rewrite Eg in E2. discriminate.
Qed.

Lemma gen_all_items : forall mb files, Forall2 (item_of mb) files (gen_all DB build ser map_order mb (items_of (mk_gdisk true files))).
Proof using.
  intros mb files. unfold gen_all, items_of. cbn [gd_files]. induction files as [|f fs IH]; [constructor|].
  cbn [map]. constructor; [|exact IH]. unfold gen_item. cbn [gi_db gi_src].
  destruct (generate DB build ser map_order mb f) as [d| | |] eqn:E; cbn [bind]; split; try reflexivity; auto.
  right. exists d. split; [exact E|reflexivity].
Qed.

Variable lookup : DB -> bytes -> option bytes.
Hypothesis lookup_build : forall rs q, NoDup (map fst rs) -> lookup (build rs) q = label_of rs q.
Variable query_order : list (N * list bytes) -> list (N * list bytes).
Hypothesis query_perm : forall m, Permutation m (query_order m).

Lemma bucketize_ok : forall nb ng qs m, wide nb ng ->
  bucketize hash nb qs m = Ok (group_all (map (fun q => (hash q mod nb, q)%N) qs) m).
Proof using.
  clear. intros nb ng qs. induction qs as [|q qs IH]; intros m W; [reflexivity|].
  cbn [bucketize]. rewrite (proj1 (bucket_ok hash nb ng q W)). cbn [bind]. rewrite (IH _ W). reflexivity.
Qed.

Lemma flat_perm : forall (A B : Type) (f : A -> list B) l l', Permutation l l' -> Permutation (flat_map f l) (flat_map f l').
Proof using.
  clear. intros A B f l l' P. induction P; cbn [flat_map].
  - reflexivity.
  - apply Permutation_app_head. exact IHP.
  - rewrite !app_assoc. apply Permutation_app_tail. apply Permutation_app_comm.
  - etransitivity; eassumption.
Qed.

Lemma flat_concat : forall (A B : Type) (f : A -> list B) (ls : list (list A)), flat_map f (concat ls) = concat (map (flat_map f) ls).
Proof using.
  clear. intros A B f ls. induction ls as [|l ls IH]; [reflexivity|]. cbn [concat map]. rewrite flat_map_app, IH. reflexivity.
Qed.

Lemma run_dup : forall api nb ng rows d items k, wide nb ng ->
  1 < length (filter (beqb k) (map fst rows)) ->
  divide_group hash nb ng rows (fresh_disk ng) = Ok d ->
  Forall2 (item_of (per_group nb ng)) (gd_files d) items ->
  run_queries hash DB build ser deser map_order lookup query_order api nb ng items [k] = Throw.
Proof using order_perm query_perm.
  clear deser_ser lookup_build. intros api nb ng rows d items k W Hk Hd Hi. unfold run_queries. rewrite (bucketize_ok nb ng [k] [] W).
  cbn [bind map group_all fold_left fst snd add_to].
  rewrite (Permutation_length_1_inv (query_perm [((hash k mod nb)%N, [k])])). cbn [map_out]. unfold answer. cbn [fst snd].
  destruct (bucket_ok hash nb ng k W) as [_ Hb].
  assert (U : u32 (hash k mod nb) = (hash k mod nb)%N) by (unfold u32; apply N.mod_small; destruct W; lia). rewrite U.
  rewrite (get_bucket_dup nb ng rows d items _ W); try assumption; [reflexivity| |].
  - intros ->. cbn in Hk. lia.
  - rewrite at_key_tagged. intros ND. clear - ND Hk. induction rows as [|[x v] rows IH]; [cbn in Hk; lia|].
    cbn [map fst filter] in *. destruct (beqb k x) eqn:E.
    + apply beqb_spec in E as ->. rewrite N.eqb_refl in ND. cbn [map fst] in ND. inversion ND as [|? ? N1 N2]; subst.
      apply N1. cbn [length] in Hk. destruct (filter (beqb x) (map fst rows)) as [|y l] eqn:F; [cbn in Hk; lia|].
      assert (I : In y (filter (beqb x) (map fst rows))) by (rewrite F; left; reflexivity).
      apply filter_In in I as [I E]. apply beqb_spec in E as <-.
      apply in_map_iff in I as (r & Er & I). rewrite <- Er. apply in_map. apply filter_In. split; [exact I|].
      rewrite Er. apply N.eqb_refl.
    + apply IH; [exact Hk|]. destruct (hash x mod nb =? hash k mod nb)%N; [inversion ND; assumption|exact ND].
Qed.

Lemma run_ok : forall api nb ng rows d items qs, wide nb ng -> rows <> [] -> NoDup (map fst rows) ->
  divide_group hash nb ng rows (fresh_disk ng) = Ok d ->
  Forall2 (item_of (per_group nb ng)) (gd_files d) items ->
  (api = true -> forall q, In q qs -> exists r, In r rows /\ (hash (fst r) mod nb = hash q mod nb)%N) ->
  exists res, run_queries hash DB build ser deser map_order lookup query_order api nb ng items qs = Ok res /\
    Permutation res (expected rows qs).
Proof using deser_ser order_perm lookup_build query_perm.
  intros api nb ng rows d items qs W Hr ND Hd Hi Ha. unfold run_queries.
  rewrite (bucketize_ok nb ng qs [] W). cbn [bind].
  set (tq := map (fun q => (hash q mod nb, q)%N) qs). set (m := group_all tq []).
  assert (Hm : NoDup (map fst m)) by (apply group_all_nodup; constructor).
  assert (Hin : forall b l, In (b, l) m -> l <> [] /\ forall q, In q l -> In q qs /\ (hash q mod nb)%N = b).
  { intros b l I. apply in_assoc in I; [|exact Hm]. subst m. rewrite group_all_assoc in I. cbn [assoc] in I.
    assert (E : l = at_key b tq /\ l <> []) by (destruct (at_key b tq); [discriminate|injection I as <-; split; [reflexivity|discriminate]]).
    destruct E as [-> E]. split; [exact E|]. intros q I2. apply in_at_key in I2. subst tq.
    apply in_map_iff in I2 as (q' & E2 & I2). injection E2 as <- ->. split; [exact I2|reflexivity]. }
  rewrite (map_out_ok _ _ _ (fun ctx => expected rows (snd ctx))).
  - cbn [bind]. eexists. split; [reflexivity|].
    rewrite <- (map_map snd (expected rows)). unfold expected at 1. rewrite <- flat_concat. unfold expected. apply flat_perm.
    assert (P1 : Permutation (concat (map snd (query_order m))) (concat (map snd m))).
    { rewrite <- !flat_map_concat_map. apply flat_perm. apply Permutation_sym, query_perm. }
    rewrite P1. subst m. rewrite group_all_perm. cbn [map snd concat app]. subst tq. rewrite map_map. cbn [snd].
    rewrite map_id. reflexivity.
  - intros [b l] I. apply (Permutation_in _ (Permutation_sym (query_perm m))) in I. destruct (Hin b l I) as [Hl Hq].
    assert (Hb : (b < nb)%N).
    { destruct l as [|q l]; [contradiction|]. destruct (Hq q (or_introl eq_refl)) as [_ <-]. apply (bucket_ok hash nb ng q W). }
    unfold answer. cbn [fst snd].
    assert (U : u32 b = b) by (unfold u32; apply N.mod_small; destruct W; lia). rewrite U.
    rewrite (get_bucket_ok nb ng rows d items b W Hr ND Hd Hi Hb). cbn [bind].
    assert (Hlab : forall q, In q l -> label_of (at_key b (tagged hash nb rows)) q = label_of rows q).
    { intros q Iq. rewrite at_key_tagged. apply label_filter. intros r <-. destruct (Hq _ Iq) as [_ <-]. apply N.eqb_refl. }
    assert (Hnd : NoDup (map fst (at_key b (tagged hash nb rows)))).
    { rewrite at_key_tagged. apply nodup_filter_map. exact ND. }
    destruct (at_key b (tagged hash nb rows)) as [|r rs] eqn:E; cbn [built].
    + destruct api.
      * exfalso. destruct l as [|q l]; [contradiction|]. destruct (Hq q (or_introl eq_refl)) as [Iq <-].
        destruct (Ha eq_refl q Iq) as (r & Ir & Er). rewrite at_key_tagged in E.
        assert (X : In r (filter (fun r => (hash (fst r) mod nb =? hash q mod nb)%N) rows)).
        { apply filter_In. split; [exact Ir|]. apply N.eqb_eq. exact Er. }
        rewrite E in X. destruct X.
      * f_equal. unfold expected. clear - Hlab. induction l as [|q l IH]; [reflexivity|]. cbn [flat_map].
        rewrite <- (Hlab q (or_introl eq_refl)). cbn [label_of app]. apply IH. intros q' I. apply Hlab. right. exact I.
    + f_equal. unfold matches, expected. clear - Hlab Hnd lookup_build. induction l as [|q l IH]; [reflexivity|]. cbn [flat_map].
      rewrite (lookup_build _ q Hnd), (Hlab q (or_introl eq_refl)). f_equal. apply IH. intros q' I. apply Hlab. right. exact I.
Qed.
End Dbs.

(** * Processes *)
Lemma proc_prefix : forall ng pn k, (1 <= ng -> 1 <= pn -> ng + pn - 1 < 18446744073709551616 ->
  concat (map (fun i => proc_range ng pn (N.of_nat i)) (seq 0 k)) =
  map N.of_nat (seq 0 (N.to_nat (N.min (u64 (ng + pn - 1) / pn * N.of_nat k) ng))))%N.
Proof.
  intros ng pn k H1 H2 H3. destruct (ceil_bounds ng pn H1 H2 H3) as (A & _ & _).
  unfold proc_range. set (p := (u64 (ng + pn - 1) / pn)%N) in *. clearbody p.
  induction k as [|k IH].
  - replace (N.min (p * N.of_nat 0) ng) with 0%N by lia. reflexivity.
  - rewrite seq_S, map_app, concat_app, IH. cbn [map concat Nat.add]. rewrite app_nil_r.
    destruct (N.leb_spec ng (p * N.of_nat k)) as [L|L].
    + rewrite app_nil_r. rewrite !N.min_r by nia. reflexivity.
    + rewrite (N.min_l (p * N.of_nat k) ng) by lia.
      replace (N.to_nat (N.min (p * N.of_nat (S k)) ng)) with
        (N.to_nat (p * N.of_nat k) + N.to_nat (N.min (p * (N.of_nat k + 1)) ng - p * N.of_nat k)) by nia.
      rewrite seq_app, map_app. f_equal. rewrite Nat.add_0_l.
      generalize (N.to_nat (N.min (p * (N.of_nat k + 1)) ng - p * N.of_nat k)) as n. intros n.
      replace (p * N.of_nat k)%N with (N.of_nat (N.to_nat (p * N.of_nat k))) by lia. rewrite Nnat.Nat2N.id.
      generalize (N.to_nat (p * N.of_nat k)) as c. clear. intros c.
      transitivity (map N.of_nat (map (fun i => c + i) (seq 0 n))).
      * rewrite map_map. apply map_ext. intros i. lia.
      * f_equal. clear. revert c. induction n as [|n IH]; intros c; [reflexivity|]. cbn [seq map]. rewrite Nat.add_0_r. f_equal.
        rewrite <- (IH (S c)). rewrite <- seq_shift, map_map. apply map_ext. intros i. lia.
Qed.

Lemma procs_cover : forall ng pn, (1 <= ng < 9223372036854775808)%N -> (1 <= pn < 9223372036854775808)%N ->
  exists rs, proc_ranges ng pn = Ok rs /\ concat rs = map N.of_nat (seq 0 (N.to_nat ng)).
Proof.
  intros ng pn H1 H2. unfold proc_ranges. destruct (N.eqb_spec pn 0); [lia|]. eexists. split; [reflexivity|].
  rewrite proc_prefix by lia. destruct (ceil_bounds ng pn) as (_ & B & _); [lia|lia|lia|].
  rewrite Nnat.N2Nat.id, N.min_r by exact B. reflexivity.
Qed.
