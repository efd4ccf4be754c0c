(** Property C44: bucketed APSI databases. *)
From Coq Require Import List NArith Lia Bool Arith Permutation.
From Verif Require Import Base Text TextProofs GroupDbModel GroupDbSpec GroupDbProofs.
Import ListNotations.

(** What is assumed of the APSI library: a saved database can be read back from a longer file, and
    a lookup answers from the rows the database was built from. *)
Definition sound_library (DB : Type) (build : list row -> DB) (ser : DB -> bytes) (deser : bytes -> option DB)
    (lookup : DB -> bytes -> option bytes) : Prop :=
  (forall d rest, deser (ser d ++ rest) = Some d) /\
  forall rs q, NoDup (map fst rs) -> lookup (build rs) q = label_of rs q.

(** ** Sender and receiver agree where a bucket lives *)
Theorem C44_groups_partition :
  forall nb ng b : N, wide nb ng -> (b < nb)%N ->
  exists g, (g < ng)%N /\ group_of nb ng b = Ok g /\
    forall g', (g' = g <-> fst (group_range nb ng g') <= b < fst (group_range nb ng g') + snd (group_range nb ng g'))%N.
Proof.
  intros nb ng b W H. exists (b / per_group nb ng)%N. split; [apply group_lt; assumption|].
  assert (E : group_of nb ng b = Ok (b / per_group nb ng)%N).
  { unfold group_of, enforce. destruct (N.ltb_spec b nb); [reflexivity|lia]. }
  split; [exact E|]. intros g'. rewrite <- (range_spec nb ng g' b W), E. split; [intros ->; reflexivity|congruence].
Qed.
Print Assumptions C44_groups_partition.

(** Every group is generated by exactly one process. *)
Theorem C44_processes_cover :
  forall ng pn : N, (1 <= ng < 9223372036854775808)%N -> (1 <= pn < 9223372036854775808)%N ->
  exists rs, proc_ranges ng pn = Ok rs /\ concat rs = map N.of_nat (seq 0 (N.to_nat ng)).
Proof. exact procs_cover. Qed.
Print Assumptions C44_processes_cover.

(** ** Lookups through the dispatcher.  [items] is any state of the generation: each group is
    still untouched or already generated (a failed child process leaves it untouched). *)
Theorem C44_lookup_exact :
  forall (hash : bytes -> N) (DB : Type) build ser deser lookup map_order query_order,
  sound_library DB build ser deser lookup ->
  (forall m, Permutation m (map_order m)) -> (forall m, Permutation m (query_order m)) ->
  forall (nb ng : N) (table : list row) (qs : list bytes), wide nb ng -> table <> [] -> NoDup (map fst table) ->
  exists d, divide_group hash nb ng table (fresh_disk ng) = Ok d /\
  forall items, Forall2 (item_of DB build ser map_order (per_group nb ng)) (gd_files d) items ->
  exists res, run_queries hash DB build ser deser map_order lookup query_order false nb ng items qs = Ok res /\
    Permutation res (expected table qs).
Proof.
  intros hash DB build ser deser lookup mo qo [L1 L2] P1 P2 nb ng table qs W Ht ND.
  destruct (divided_files hash nb ng table W Ht) as (d & E & _). exists d. split; [exact E|]. intros items Hi.
  eapply run_ok; try eassumption. discriminate.
Qed.
Print Assumptions C44_lookup_exact.

(** The state reached by generating all groups in child processes is one of those. *)
Theorem C44_generated_state :
  forall (hash : bytes -> N) (DB : Type) build ser map_order (nb ng : N) (table : list row) d,
  divide_group hash nb ng table (fresh_disk ng) = Ok d ->
  Forall2 (item_of DB build ser map_order (per_group nb ng)) (gd_files d)
    (gen_all DB build ser map_order (per_group nb ng) (items_of d)).
Proof. intros hash DB build ser mo nb ng table [dv fs] _. apply gen_all_items. Qed.
Print Assumptions C44_generated_state.

(** A key stored twice is never answered with one of its labels: its bucket is refused. *)
Theorem C44_duplicates_rejected :
  forall (hash : bytes -> N) (DB : Type) build ser deser lookup map_order query_order,
  (forall m, Permutation m (map_order m)) -> (forall m, Permutation m (query_order m)) ->
  forall api (nb ng : N) (table : list row) k d items, wide nb ng ->
  1 < length (filter (beqb k) (map fst table)) ->
  divide_group hash nb ng table (fresh_disk ng) = Ok d ->
  Forall2 (item_of DB build ser map_order (per_group nb ng)) (gd_files d) items ->
  run_queries hash DB build ser deser map_order lookup query_order api nb ng items [k] = Throw.
Proof. intros. eapply run_dup; eassumption. Qed.
Print Assumptions C44_duplicates_rejected.

(** ** Lookups through the API classes.  Full statement: as [C44_lookup_exact] with [true].
    Missing: queries whose bucket holds no row; for those it is false ([C44_api_refuted]). *)
Theorem C44_api_lookup_exact_partial :
  forall (hash : bytes -> N) (DB : Type) build ser deser lookup map_order query_order,
  sound_library DB build ser deser lookup ->
  (forall m, Permutation m (map_order m)) -> (forall m, Permutation m (query_order m)) ->
  forall (nb ng : N) (table : list row) (qs : list bytes), wide nb ng -> table <> [] -> NoDup (map fst table) ->
  (forall q, In q qs -> exists r, In r table /\ (hash (fst r) mod nb = hash q mod nb)%N) ->
  exists d, divide_group hash nb ng table (fresh_disk ng) = Ok d /\
  forall items, Forall2 (item_of DB build ser map_order (per_group nb ng)) (gd_files d) items ->
  exists res, run_queries hash DB build ser deser map_order lookup query_order true nb ng items qs = Ok res /\
    Permutation res (expected table qs).
Proof.
  intros hash DB build ser deser lookup mo qo [L1 L2] P1 P2 nb ng table qs W Ht ND Hq.
  destruct (divided_files hash nb ng table W Ht) as (d & E & _). exists d. split; [exact E|]. intros items Hi.
  eapply run_ok; try eassumption. intros _. exact Hq.
Qed.
Print Assumptions C44_api_lookup_exact_partial.

(** A library for the examples: the database is its list of rows with one-letter keys and labels,
    stored behind its length. *)
Definition ex_ser (d : list row) : bytes :=
  N.of_nat (length d) :: flat_map (fun r => [hd 0 (fst r); hd 0 (snd r)])%N d.
Fixpoint ex_rows (n : nat) (s : bytes) : option (list row) :=
  match n, s with
  | O, _ => Some []
  | S n', a :: b :: s' => option_map (cons ([a], [b])) (ex_rows n' s')
  | _, _ => None
  end.
Definition ex_deser (s : bytes) : option (list row) :=
  match s with [] => None | n :: s' => ex_rows (N.to_nat n) s' end.
Definition ex_run (api : bool) (items : list gitem) (qs : list bytes) : outcome (list row) :=
  run_queries (fun k => hd 0%N k) (list row) (fun rs => rs) ex_ser ex_deser (fun m => m) label_of (@rev _) api 5 2 items qs.

(** With the API one query for an absent key in an empty bucket makes the whole batch fail. *)
Theorem C44_api_refuted :
  exists (table : list row) (d : gdisk) (qs : list bytes),
    NoDup (map fst table) /\ divide_group (fun k => hd 0%N k) 5 2 table (fresh_disk 2) = Ok d /\
    expected table qs <> [] /\
    ex_run true (gen_all (list row) (fun rs => rs) ex_ser (fun m => m) (per_group 5 2) (items_of d)) qs = Throw /\
    ex_run false (gen_all (list row) (fun rs => rs) ex_ser (fun m => m) (per_group 5 2) (items_of d)) qs =
      Ok (expected table qs).
Proof.
  exists [([1], [7])]%N, (mk_gdisk true [[GHead; GRow 1 ([1], [7])]; [GHead]])%N, [[1]; [4]]%N.
  split; [repeat constructor; intros []|]. split; [reflexivity|]. split; [discriminate|]. split; reflexivity.
Qed.
Print Assumptions C44_api_refuted.

(** ** Restart.  Dividing again after it has completed changes nothing; a restart after a crash
    while dividing should give [C44_lookup_exact] too, but the group files are appended to: *)
Theorem C44_divide_once :
  forall (hash : bytes -> N) (nb ng : N) (table : list row) d d',
  divide_group hash nb ng table d = Ok d' -> divide_group hash nb ng table d' = Ok d'.
Proof.
  intros hash nb ng table d d' H. unfold divide_group in H.
  destruct (gd_divided d) eqn:E.
  - injection H as <-. unfold divide_group. rewrite E. reflexivity.
  - destruct (divide_writes hash nb ng table); try discriminate. cbn [bind] in H. unfold enforce in H.
    destruct (negb _); try discriminate. injection H as <-. reflexivity.
Qed.
Print Assumptions C44_divide_once.

Theorem C44_restart_refuted :
  exists (table : list row) (n : nat) (d1 d2 : gdisk) (q : bytes),
    NoDup (map fst table) /\ divide_crash (fun k => hd 0%N k) 5 2 table n (fresh_disk 2) = Ok d1 /\
    divide_group (fun k => hd 0%N k) 5 2 table d1 = Ok d2 /\
    expected table [q] <> [] /\
    ex_run false (gen_all (list row) (fun rs => rs) ex_ser (fun m => m) (per_group 5 2) (items_of d2)) [q] = Throw.
Proof.
  exists [([1], [7]); ([4], [8])]%N, 1.
  exists (mk_gdisk false [[GHead]; []]).
  exists (mk_gdisk true [[GHead; GHead; GRow 1 ([1], [7])]; [GHead; GRow 4 ([4], [8])]])%N, [1]%N.
  split; [repeat constructor; cbn; intuition discriminate|]. split; [reflexivity|]. split; [reflexivity|].
  split; [discriminate|reflexivity].
Qed.
Print Assumptions C44_restart_refuted.

Example C44_example :
  let table := [([1], [7]); ([6], [8]); ([4], [9])]%N in
  wide 5 2 /\ NoDup (map fst table) /\
  exists d, divide_group (fun k => hd 0%N k) 5 2 table (fresh_disk 2) = Ok d /\
    ex_run false (gen_all (list row) (fun rs => rs) ex_ser (fun m => m) (per_group 5 2) (items_of d)) [[6]; [3]; [4]; [1]]%N =
      Ok [([4], [9]); ([6], [8]); ([1], [7])]%N /\
    map gi_db (gen_all (list row) (fun rs => rs) ex_ser (fun m => m) (per_group 5 2) (items_of d)) =
      [Some ([(1, 0%nat)], [2; 1; 7; 6; 8]); Some ([(4, 0%nat)], [1; 4; 9])]%N /\
  proc_ranges 5 3 = Ok [[0; 1]; [2; 3]; [4]]%N /\ group_range 5 2 1 = (3, 2)%N /\
  exists d2, divide_group (fun k => hd 0%N k) 5 2 (([1], [0]) :: table)%N (fresh_disk 2) = Ok d2 /\
    ex_run false (items_of d2) [[1]]%N = Throw.
Proof.
  cbn zeta. split; [split; lia|]. split; [repeat constructor; cbn; intuition discriminate|].
  eexists. split; [reflexivity|]. split; [reflexivity|]. split; [reflexivity|]. split; [reflexivity|]. split; [reflexivity|].
  eexists. split; reflexivity.
Qed.

(** The example library is sound for one-letter keys and labels; a library sound without
    restriction exists too. *)
Definition any_ser (d : list row) : bytes :=
  N.of_nat (length d) :: flat_map (fun r =>
    (N.of_nat (length (fst r)) :: fst r) ++ (N.of_nat (length (snd r)) :: snd r)) d.
Fixpoint any_rows (n : nat) (s : bytes) : option (list row) :=
  match n with
  | O => Some []
  | S n' =>
    match s with
    | [] => None
    | a :: s1 =>
      match skipn (N.to_nat a) s1 with
      | [] => None
      | b :: s2 => option_map (cons (firstn (N.to_nat a) s1, firstn (N.to_nat b) s2)) (any_rows n' (skipn (N.to_nat b) s2))
      end
    end
  end.
Definition any_deser (s : bytes) : option (list row) :=
  match s with [] => None | n :: s' => any_rows (N.to_nat n) s' end.
Example C44_sound_library_exists : sound_library (list row) (fun rs => rs) any_ser any_deser label_of.
Proof.
  split; [|reflexivity]. intros d rest. unfold any_ser, any_deser. cbn [app]. rewrite Nnat.Nat2N.id.
  induction d as [|[k v] d IH]; [reflexivity|]. cbn [length any_rows flat_map app fst snd].
  rewrite <- !app_assoc. cbn [app]. rewrite !Nnat.Nat2N.id.
  rewrite skipn_app, skipn_all, Nat.sub_diag. cbn [skipn app].
  rewrite firstn_app, firstn_all, Nat.sub_diag. cbn [firstn]. rewrite app_nil_r, !Nnat.Nat2N.id.
  rewrite skipn_app, skipn_all, Nat.sub_diag. cbn [skipn app].
  rewrite firstn_app, firstn_all, Nat.sub_diag. cbn [firstn]. rewrite app_nil_r, IH. reflexivity.
Qed.
