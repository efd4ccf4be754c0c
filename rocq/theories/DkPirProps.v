(** Properties C45, C60 and C61: duplicate-key PIR. *)
From Coq Require Import List NArith ZArith Lia Bool Arith Permutation.
From Verif Require Import Base Text TextProofs StoreModel DkPirModel DkPirSpec DkPirProofs.
Import ListNotations.

(** ** C45: shuffled answers find their way back *)
(** Every query is handled by exactly one task, once. *)
Theorem C45_each_query_once :
  forall threads n : nat, 1 <= threads -> Permutation (concat (task_indices threads n)) (seq 0 n).
Proof. exact tasks_perm. Qed.
Print Assumptions C45_each_query_once.

(** Whatever the permutation and however the threads interleave, the answer to query [i] is at
    position [shuffle i] of the response and nothing else is in it. *)
Theorem C45_response_placed :
  forall (Point : Type) (smul : Z -> Point -> Point) k zero (shuffle sched : list nat) threads (qs : list Point),
  Permutation shuffle (seq 0 (length qs)) -> 1 <= threads ->
  Permutation sched (concat (task_indices threads (length qs))) ->
  exists resp, process_queries Point smul k zero shuffle sched qs = Ok resp /\
    Permutation resp (map (smul k) qs) /\
    forall i q, nth_error qs i = Some q -> nth_error resp (nth i shuffle 0) = Some (smul k q).
Proof.
  intros Point smul k zero shuffle sched threads qs P Ht S.
  destruct (process_placed Point smul k zero shuffle sched threads qs P Ht S) as (resp & E & Pl).
  exists resp. split; [exact E|]. split; [exact (placed_perm _ _ _ _ _ _ P Pl)|exact (proj2 Pl)].
Qed.
Print Assumptions C45_response_placed.

(** Results are written under their own query, in query order. *)
Theorem C45_order_restored :
  forall (shuffle : list nat) (answer : bytes -> option bytes) (qs : list bytes) (inter : list (option bytes)),
  Permutation shuffle (seq 0 (length qs)) -> length inter = length qs ->
  (forall i q, nth_error qs i = Some q -> nth_error inter (nth i shuffle 0) = Some (answer q)) ->
  write_results false shuffle qs inter =
    Ok (flat_map (fun q => match answer q with Some v => [(q, v)] | None => [] end) qs).
Proof.
  intros shuffle answer qs inter P L H. apply (write_placed false); [exact (proj1 (perm_facts _ _ P))|].
  split; assumption.
Qed.
Print Assumptions C45_order_restored.

Example C45_example :
  process_queries Z (fun k p => (k * p) mod 101)%Z 3 0%Z [2; 0; 3; 1] [1; 3; 0; 2] [10; 20; 30; 40]%Z =
    Ok [60; 19; 30; 90]%Z /\
  Permutation [1; 3; 0; 2] (concat (task_indices 2 4)) /\
  write_results false [2; 0; 3; 1] [[1]; [2]; [3]; [4]]%N [Some [7]; None; Some [5]; Some [6]]%N =
    Ok [([1], [5]); ([2], [7]); ([3], [6])]%N.
Proof.
  split; [vm_compute; reflexivity|]. split; [|vm_compute; reflexivity].
  change (concat (task_indices 2 4)) with ([0; 2] ++ [1; 3]). apply (Permutation_app_comm [1; 3] [0; 2]).
Qed.

(** ** Honest runs *)
(** The receiver's scalar cancels, the permutation and the schedule are what the code draws, and
    no two different keys hash alike under the OPRF. *)
Definition honest (Point Hashed : Type) smul (to_point : bytes -> Point) (to_hash : Point -> Hashed)
    (c : choices Point) (table : list drow) (qs : list bytes) : Prop :=
  (forall p, smul (ch_rinv _ c) (smul (ch_k _ c) (smul (ch_r _ c) p)) = smul (ch_k _ c) p) /\
  Permutation (ch_shuffle _ c) (seq 0 (length qs)) /\
  (exists threads, 1 <= threads /\ Permutation (ch_sched _ c) (concat (task_indices threads (length qs)))) /\
  (forall x q, In x (map fst table) -> In q qs ->
     to_hash (smul (ch_k _ c) (to_point x)) = to_hash (smul (ch_k _ c) (to_point q)) -> x = q).

Lemma filter_le : forall (A : Type) (f : A -> bool) l, length (filter f l) <= length l.
Proof. intros A f l. induction l as [|x l IH]; [reflexivity|]. cbn [filter length]. destruct (f x); cbn [length]; lia. Qed.

Section Props.
Variable Point Hashed : Type.
Variable smul : Z -> Point -> Point.
Variable to_point : bytes -> Point.
Variable to_hash : Point -> Hashed.
Variable hashed_eqb : Hashed -> Hashed -> bool.
Variable map_order : kvmap -> kvmap.
Hypothesis heq : forall a b, hashed_eqb a b = true <-> a = b.
Hypothesis hord : forall m, Permutation (map_order m) m.
Local Notation run_plain := (run_plain Point Hashed smul to_point to_hash hashed_eqb map_order).
Local Notation run_checked := (run_checked Point Hashed smul to_point to_hash hashed_eqb map_order).
Local Notation honest := (honest Point Hashed smul to_point to_hash).

Lemma plain_run : forall c n table qs, honest c table qs -> NoDup qs -> qs <> [] ->
  run_plain c n table qs = extract_result n (found_rows (value_for table) qs).
Proof using heq hord.
  intros c n table qs (Hi & P & (th & Ht & S) & D) ND NE.
  destruct (hashed_placed Point Hashed smul to_point to_hash true c th qs ND NE Ht Hi P S) as (hs & E & Pl).
  unfold DkPirModel.run_plain. rewrite E. cbn [bind].
  rewrite (write_placed true _ (value_for table)); [reflexivity|exact (proj1 (perm_facts _ _ P))|].
  apply (values_placed Point Hashed smul to_point to_hash hashed_eqb map_order heq hord); [exact D|exact Pl].
Qed.

Lemma checked_run : forall order x a b rnd report c n table qs, (0 < order)%Z ->
  honest c table qs -> NoDup qs -> qs <> [] -> known table qs <> [] ->
  exists vals, Permutation vals (map (value_for table) qs) /\
    exists ok : bool, run_checked order x a b rnd report c n table qs =
      (if ok then extract_result n (found_rows (value_for table) qs) else Throw) /\
      (ok = true <-> (a * (Z.of_N (report vals) - Z.of_nat (length (rows_of table qs))) +
        b * (Z.of_nat (length qs) - Z.of_nat (length (known table qs)))) mod order = 0)%Z.
Proof using heq hord.
  intros order x a b rnd report c n table qs Ho (Hi & P & (th & Ht & S) & D) ND NE K.
  destruct (hashed_placed Point Hashed smul to_point to_hash false c th qs ND NE Ht Hi P S) as (hs & E & Pl).
  pose proof (values_placed Point Hashed smul to_point to_hash hashed_eqb map_order heq hord c table qs _ hs D Pl) as V.
  pose proof (counts_placed Point Hashed smul to_point to_hash hashed_eqb map_order heq hord order x a b rnd c table qs _ hs D Pl) as C.
  set (vals := value_answers _ _ _ _ _ _ _ _ _ _) in V. set (cnts := count_answers _ _ _ _ _ _ _ _ _ _ _ _ _ _ _) in C.
  exists vals. split; [exact (placed_perm _ _ _ _ _ _ P V)|].
  destruct (check_iff order Ho x a b rnd table qs cnts (report vals) (placed_perm _ _ _ _ _ _ P C) K) as (ct & Ec & Hc).
  exists (check_row_count order x a b (N.of_nat (length qs)) ct (report vals)). split; [|exact Hc].
  unfold DkPirModel.run_checked. rewrite E. cbn [bind]. fold cnts vals. rewrite Ec. unfold enforce.
  destruct (check_row_count _ _ _ _ _ _ _); [|reflexivity].
  rewrite (write_placed false _ (value_for table)); [reflexivity|exact (proj1 (perm_facts _ _ P))|exact V].
Qed.

(** ** C60: the result file *)
Theorem C60_plain_exact_partial : forall c n table qs,
  honest c table qs -> mergeable n table -> NoDup qs -> rows_of table qs <> [] ->
  run_plain c n table qs = Ok (rows_of table qs, N.of_nat (length (rows_of table qs))).
Proof using heq hord.
  intros c n table qs H M ND R. rewrite plain_run; [|assumption|assumption|intros ->; apply R; reflexivity].
  apply extract_found; assumption.
Qed.

(** With the count check the receiver gets the same rows if it gets any. *)
Theorem C60_checked_exact : forall order x a b rnd report c n table qs res, (0 < order)%Z ->
  honest c table qs -> mergeable n table -> NoDup qs -> rows_of table qs <> [] ->
  run_checked order x a b rnd report c n table qs = Ok res ->
  res = (rows_of table qs, N.of_nat (length (rows_of table qs))).
Proof using heq hord.
  intros order x a b rnd report c n table qs res Ho H M ND R E.
  assert (K : known table qs <> []).
  { intros K. apply R. unfold rows_of. clear - K. induction qs as [|q qs IH]; [reflexivity|]. unfold known in *.
    cbn [filter] in K. rewrite known_count in K. cbn [flat_map]. destruct (rows_with table q); [apply IH; exact K|discriminate]. }
  destruct (checked_run order x a b rnd report c n table qs Ho H ND) as (vals & _ & ok & Er & _); [intros ->; apply R; reflexivity|exact K|].
  rewrite E in Er. destruct ok; [|discriminate]. rewrite (extract_found n table qs M R) in Er. congruence.
Qed.

(** A query batch without any match ends in an error, not in an empty result. *)
Theorem C60_no_match_fails : forall c n table qs,
  honest c table qs -> NoDup qs -> qs <> [] -> rows_of table qs = [] -> run_plain c n table qs = Throw.
Proof using heq hord.
  intros c n table qs H ND NE R. rewrite plain_run by assumption. destruct n as [|n]; [reflexivity|].
  apply extract_nothing; [discriminate|exact R].
Qed.

(** ** C61: the row-count check *)
(** If every queried key is in the table the sender accepts exactly the true number of rows,
    whatever the receiver computes its report from. *)
Theorem C61_check_exact_partial : forall order x a b rnd report c n table qs,
  honest c table qs -> mergeable n table -> NoDup qs -> qs <> [] -> Forall (fun q => In q (map fst table)) qs ->
  Z.gcd a order = 1%Z -> (Z.of_nat (length (rows_of table qs)) < order)%Z ->
  (forall vals, Z.of_N (report vals) < order)%Z ->
  exists vals, Permutation vals (map (value_for table) qs) /\
    run_checked order x a b rnd report c n table qs =
    (if (report vals =? N.of_nat (length (rows_of table qs)))%N
     then Ok (rows_of table qs, N.of_nat (length (rows_of table qs))) else Throw).
Proof using heq hord.
  intros order x a b rnd report c n table qs H M ND NE F G To Tr.
  assert (KQ : known table qs = qs).
  { unfold known. clear - F. induction F as [|q qs I F IH]; [reflexivity|]. cbn [filter].
    rewrite (proj2 (existsb_exists _ _)); [f_equal; exact IH|]. apply in_map_iff in I as (r & E & I).
    exists r. split; [exact I|]. apply beqb_spec. exact E. }
  assert (R : rows_of table qs <> []).
  { destruct qs as [|q qs]; [contradiction|]. intros R. unfold known in KQ. cbn [filter] in KQ. rewrite known_count in KQ.
    unfold rows_of in R. cbn [flat_map] in R. apply app_eq_nil in R as [R _]. rewrite R in KQ.
    assert (X : length (filter (fun q => existsb (fun r => beqb (fst r) q) table) qs) = S (length qs)) by (rewrite KQ; reflexivity).
    pose proof (filter_le _ (fun q => existsb (fun r => beqb (fst r) q) table) qs). lia. }
  assert (Ho : (0 < order)%Z) by lia.
  destruct (checked_run order x a b rnd report c n table qs Ho H ND NE) as (vals & P & ok & E & I); [rewrite KQ; exact NE|].
  exists vals. split; [exact P|]. rewrite E, (extract_found n table qs M R). rewrite KQ, Z.sub_diag, Z.mul_0_r, Z.add_0_r in I.
  specialize (Tr vals). set (T := length (rows_of table qs)) in *. set (rep := report vals) in *. clearbody T rep.
  assert (X : ok = true <-> rep = N.of_nat T).
  { rewrite I. split; [|intros ->; rewrite nat_N_Z, Z.sub_diag, Z.mul_0_r; apply Z.mod_0_l; lia].
    intros Z0. apply Z.mod_divide in Z0; [|lia]. apply Z.gauss in Z0; [|rewrite Z.gcd_comm; exact G].
    destruct Z0 as [q Hq]. assert (q = 0)%Z by nia. subst q. lia. }
  destruct (N.eqb_spec rep (N.of_nat T)) as [Y|Y]; destruct ok; try reflexivity.
  - pose proof (proj2 X Y). discriminate.
  - exfalso. apply Y, X. reflexivity.
Qed.

(** An honest receiver's report is that number. *)
Theorem C61_honest_report : forall n table qs vals, mergeable n table ->
  Permutation vals (map (value_for table) qs) -> compute_row_count vals = N.of_nat (length (rows_of table qs)).
Proof using.
  clear. intros n table qs vals M P. rewrite (row_count_perm _ _ P). exact (row_count_total n table qs M).
Qed.

(** If some but not all queried keys are in the table an honest receiver is refused. *)
Theorem C61_missing_key_refused : forall order x a b rnd c n table qs,
  honest c table qs -> mergeable n table -> NoDup qs -> known table qs <> [] -> length (known table qs) < length qs ->
  Z.gcd b order = 1%Z -> (Z.of_nat (length qs) < order)%Z ->
  run_checked order x a b rnd compute_row_count c n table qs = Throw.
Proof using heq hord.
  intros order x a b rnd c n table qs H M ND K L G B.
  assert (Ho : (0 < order)%Z) by lia.
  destruct (checked_run order x a b rnd compute_row_count c n table qs Ho H ND) as (vals & P & ok & E & I);
    [intros ->; cbn in L; lia|exact K|].
  rewrite (row_count_perm _ _ P), (row_count_total n table qs M) in I. rewrite nat_N_Z, Z.sub_diag, Z.mul_0_r, Z.add_0_l in I.
  rewrite E. destruct ok; [|reflexivity]. exfalso. pose proof (proj1 I eq_refl) as Z0.
  apply Z.mod_divide in Z0; [|lia]. apply Z.gauss in Z0; [|rewrite Z.gcd_comm; exact G].
  destruct Z0 as [q Hq]. assert (0 < q)%Z by nia. nia.
Qed.
End Props.
Print Assumptions C60_plain_exact_partial.
Print Assumptions C60_checked_exact.
Print Assumptions C60_no_match_fails.
Print Assumptions C61_check_exact_partial.
Print Assumptions C61_honest_report.
Print Assumptions C61_missing_key_refused.

(** ** A toy instance: the additive group modulo 101, keys of one byte *)
Definition toy_smul (k p : Z) : Z := (k * p mod 101)%Z.
Definition toy_point (x : bytes) : Z := match x with [c] => Z.of_N c | _ => 0%Z end.
Definition toy_table : list drow :=
  [([5], [[65]; [66]]); ([7], [[67]; [68]]); ([5], [[69]; []]); ([9], [[70]; [71]])]%N.
Definition toy_choices (n : nat) (shuffle : list nat) : choices Z := mk_choices Z 3 4 76 0%Z shuffle (concat (task_indices 2 n)).
Definition toy_queries : list bytes := [[7]; [5]; [9]]%N.
Definition toy_order : kvmap -> kvmap := @rev _.

Lemma toy_honest : forall n shuffle qs, length qs = n -> Permutation shuffle (seq 0 n) ->
  (forall q, In q qs -> exists v, q = [v] /\ v < 20)%N ->
  honest Z Z toy_smul toy_point (fun p => p) (toy_choices n shuffle) toy_table qs.
Proof.
  intros n shuffle qs <- P Q. repeat split.
  - intros p. unfold toy_smul, toy_choices. cbn [ch_k ch_r ch_rinv].
    rewrite Z.mul_mod_idemp_r, Z.mul_assoc, Z.mul_mod_idemp_r by lia. replace (76 * 3 * (4 * p))%Z with (3 * p + (9 * p) * 101)%Z by lia.
    apply Z.mod_add. lia.
  - exact P.
  - exists 2. split; [lia|]. reflexivity.
  - intros x q Ix Iq. destruct (Q q Iq) as (v & -> & Hv). unfold toy_smul, toy_choices, toy_point. cbn [ch_k].
    cbn in Ix. destruct Ix as [<-|[<-|[<-|[<-|[]]]]]; rewrite !Z.mod_small by lia; intros E; f_equal; lia.
Qed.

Lemma toy_mergeable : mergeable 2 toy_table.
Proof.
  split; [discriminate|]. intros k ls l I. cbn in I.
  destruct I as [I|[I|[I|[I|[]]]]]; injection I as <- <-; (split; [reflexivity|]);
    intros J; cbn in J; destruct J as [<-|[<-|[]]]; split; cbn; intros X; intuition discriminate.
Qed.

Example C60_example :
  let c := toy_choices 3 [1; 2; 0] in
  honest Z Z toy_smul toy_point (fun p => p) c toy_table toy_queries /\ mergeable 2 toy_table /\
  run_plain Z Z toy_smul toy_point (fun p => p) Z.eqb toy_order c 2 toy_table toy_queries =
    Ok ([([7], [[67]; [68]]); ([5], [[65]; [66]]); ([5], [[69]; []]); ([9], [[70]; [71]])], 4)%N /\
  run_checked Z Z toy_smul toy_point (fun p => p) Z.eqb toy_order 101 17 23 42 (fun k => Z.of_N (hd 0%N k)) compute_row_count
    c 2 toy_table toy_queries =
    Ok ([([7], [[67]; [68]]); ([5], [[65]; [66]]); ([5], [[69]; []]); ([9], [[70]; [71]])], 4)%N /\
  run_checked Z Z toy_smul toy_point (fun p => p) Z.eqb toy_order 101 17 23 42 (fun k => Z.of_N (hd 0%N k)) (fun _ => 3%N)
    c 2 toy_table toy_queries = Throw.
Proof.
  cbv zeta. split; [|split; [exact toy_mergeable|]].
  - apply toy_honest; [reflexivity| |].
    + apply NoDup_Permutation_bis; [repeat constructor; cbn; intuition discriminate|cbn; lia|].
      intros i I. cbn in *. intuition.
    + intros q I. cbn in I. destruct I as [<-|[<-|[<-|[]]]]; eexists; (split; [reflexivity|lia]).
  - split; [vm_compute; reflexivity|]. split; vm_compute; reflexivity.
Qed.

(** The full claims fail: no match is an error, and an honest batch with one unknown key is refused. *)
Theorem C60_refuted : exists c n table qs,
  honest Z Z toy_smul toy_point (fun p => p) c table qs /\ mergeable n table /\ NoDup qs /\ qs <> [] /\
  run_plain Z Z toy_smul toy_point (fun p => p) Z.eqb toy_order c n table qs <>
    Ok (rows_of table qs, N.of_nat (length (rows_of table qs))).
Proof.
  exists (toy_choices 1 [0]), 2, toy_table, [[6%N]]. split.
  { apply toy_honest; [reflexivity|reflexivity|]. intros q [<-|[]]. exists 6%N. split; [reflexivity|lia]. }
  split; [exact toy_mergeable|]. split; [repeat constructor; intros []|]. split; [discriminate|].
  vm_compute. discriminate.
Qed.
Print Assumptions C60_refuted.

Theorem C61_refuted : exists order x a b rnd c n table qs,
  honest Z Z toy_smul toy_point (fun p => p) c table qs /\ mergeable n table /\ NoDup qs /\
  Z.gcd a order = 1%Z /\ Z.gcd b order = 1%Z /\ rows_of table qs <> [] /\
  run_checked Z Z toy_smul toy_point (fun p => p) Z.eqb toy_order order x a b rnd compute_row_count c n table qs = Throw.
Proof.
  exists 101%Z, 17%Z, 23%Z, 42%Z, (fun k => Z.of_N (hd 0%N k)), (toy_choices 2 [1; 0]), 2, toy_table, [[5]; [6]]%N. split.
  { apply toy_honest; [reflexivity|apply perm_swap|]. intros q [<-|[<-|[]]]; eexists; (split; [reflexivity|lia]). }
  split; [exact toy_mergeable|]. split; [repeat constructor; cbn; intuition discriminate|].
  split; [reflexivity|]. split; [reflexivity|]. split; [discriminate|]. vm_compute. reflexivity.
Qed.
Print Assumptions C61_refuted.
