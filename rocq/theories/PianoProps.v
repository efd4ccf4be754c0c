(** C75, C76: PIANO returns the entries asked for, and the server's view does not depend on them. *)
From Coq Require Import List NArith Bool Arith Lia Permutation.
From Verif Require Import Base PianoModel PianoSpec PianoProofs PianoPriv PianoProofs2.
Import ListNotations.

(** A database is cut into chunks whose size is the least power of two that is at least twice the
    square root of the number of entries. *)
Theorem C75_chunks : forall n, (N.of_nat n <= 2 ^ 126)%N ->
  let '(chunk, sets) := chunk_params n in
  (exists k, chunk = 2 ^ k) /\ 4 * n <= chunk * chunk /\ (chunk = 1 \/ exists h, chunk = 2 * h /\ h * h < 4 * n) /\
  n <= chunk * sets < n + chunk.
Proof.
  intros n H. unfold chunk_params. destruct (chunk_loop_ok 64 1 n) as [A B].
  { change (N.of_nat 1 * N.of_nat 1 * 4 ^ N.of_nat 64)%N with (4 * 2 ^ 126)%N. lia. }
  destruct (chunk_loop_pow 64 1 n) as [k P]. rewrite Nat.mul_1_l in P.
  assert (C : 0 < chunk_loop 64 1 n) by (rewrite P; pose proof (Nat.pow_nonzero 2 k); lia).
  revert A B P C. generalize (chunk_loop 64 1 n) as c. intros c A B P C.
  split; [exists k; exact P|]. split; [exact A|]. split; [exact B|].
  pose proof (Nat.div_mod (n + c - 1) c ltac:(lia)) as D. pose proof (Nat.mod_upper_bound (n + c - 1) c ltac:(lia)). lia.
Qed.
Print Assumptions C75_chunks.

(** Whatever the pseudorandom function, the replacements, the order in which the chunks arrive and
    the number of threads: every query yields the entry asked for unless an error is logged, and then
    it yields zeroes.  The server is sent one index in every chunk. *)
Theorem C75_retrieves : forall prf db num size threads tq bk seed rnd order qs,
  length db = num * size -> Permutation order (seq 0 (snd (chunk_params num))) -> (forall q, In q qs -> fst q < num) ->
  exists res, pn_run prf db num size threads tq bk seed rnd order qs = Ok res /\
    Forall2 (fun q r => let '(e, sent, err) := r in
      (err = false -> e = db_entry size db (fst q)) /\ (err = true -> e = repeat 0%N size) /\
      one_per_chunk (fst (chunk_params num)) (snd (chunk_params num)) sent) qs res.
Proof. intros prf db num size threads tq bk seed rnd order qs L P H. exact (run_good prf db num size threads tq bk seed rnd order L P qs H). Qed.
Print Assumptions C75_retrieves.

(** No error is logged for an index as long as fewer than all backup sets of its chunk can have been
    used, and either more primary sets contained it at first than there were queries before, or none. *)
Theorem C75_no_error : forall prf db num size threads tq bk seed rnd order pre idx r post,
  length db = num * size -> Permutation order (seq 0 (snd (chunk_params num))) ->
  (forall q, In q (pre ++ (idx, r) :: post) -> fst q < num) ->
  let chunk := fst (chunk_params num) in
  let thr := if Nat.ltb 0 threads then threads else 1 in
  length (filter (fun q => Nat.eqb (fst q / chunk) (idx / chunk)) pre) < round_up bk thr ->
  length pre < hits_at prf chunk (round_up tq thr) idx \/ hits_at prf chunk (round_up tq thr) idx = 0 ->
  exists res sent, pn_run prf db num size threads tq bk seed rnd order (pre ++ (idx, r) :: post) = Ok res /\
    nth_error res (length pre) = Some (db_entry size db idx, sent, false).
Proof. intros prf db num size threads tq bk seed rnd order pre idx r post L P H chunk thr. exact (run_noerr prf db num size threads tq bk seed rnd order L P pre idx r post H). Qed.
Print Assumptions C75_no_error.

(** The first query is answered whatever the sets contain. *)
Theorem C75_first_query : forall prf db num size threads tq bk seed rnd order idx r post,
  length db = num * size -> Permutation order (seq 0 (snd (chunk_params num))) ->
  (forall q, In q ((idx, r) :: post) -> fst q < num) -> 0 < bk ->
  exists sent res, pn_run prf db num size threads tq bk seed rnd order ((idx, r) :: post) = Ok ((db_entry size db idx, sent, false) :: res).
Proof.
  intros prf db num size threads tq bk seed rnd order idx r post L P H B.
  set (thr := if Nat.ltb 0 threads then threads else 1).
  assert (T : 0 < thr) by (unfold thr; destruct (Nat.ltb_spec 0 threads); lia).
  assert (R : 0 < round_up bk thr).
  { unfold round_up. pose proof (Nat.div_mod (bk + thr - 1) thr ltac:(lia)). pose proof (Nat.mod_upper_bound (bk + thr - 1) thr ltac:(lia)). lia. }
  destruct (C75_no_error prf db num size threads tq bk seed rnd order [] idx r post L P H) as (res & sent & E & N).
  - exact R.
  - cbn [length]. fold thr. destruct (hits_at prf (fst (chunk_params num)) (round_up tq thr) idx); [right; reflexivity|left; apply Nat.lt_0_succ].
  - cbn [app length] in E, N. destruct res as [|x res]; [discriminate|]. injection N as ->. exists sent, res. exact E.
Qed.
Print Assumptions C75_first_query.

(** An index answered once is answered whenever it is asked again. *)
Theorem C75_repeat : forall prf db num size threads tq bk seed rnd order qs,
  length db = num * size -> Permutation order (seq 0 (snd (chunk_params num))) -> (forall q, In q qs -> fst q < num) ->
  forall res, pn_run prf db num size threads tq bk seed rnd order qs = Ok res ->
  forall a b ra rb idx ea qa eb qb err, a < b -> nth_error qs a = Some (idx, ra) -> nth_error qs b = Some (idx, rb) ->
    nth_error res a = Some (ea, qa, false) -> nth_error res b = Some (eb, qb, err) -> err = false.
Proof. intros prf db num size threads tq bk seed rnd order qs L P H res E. exact (run_repeat prf db num size threads tq bk seed rnd order L P qs H res E). Qed.
Print Assumptions C75_repeat.

(** Not every query is answered: with the numbers of sets the code uses for nine entries (276 primary
    sets and 3684 backup sets for each of the two chunks) there is a function for which the second
    query yields zeroes instead of entry 8, and nothing but a line in the log tells the caller.
    Answering the first query replaced the only set that contained entry 8. *)
Definition one_set_prf (tag x : N) : N := if N.eqb tag 0 then 0%N else 1%N.
Definition nine : list N := [11; 12; 13; 14; 15; 16; 17; 18; 19]%N.
Theorem C75_answers_refuted : exists prf rnd r,
  pn_run prf nine 9 1 1 276 3684 7 rnd [0; 1] [(0, r); (8, r)] = Ok [([11%N], [2; 8], false); ([0%N], [3; 11], true)] /\
  db_entry 1 nine 8 = [19%N].
Proof. exists one_set_prf, (fun _ _ => 2%N), (fun _ => 3%N). split; vm_compute; reflexivity. Qed.
Print Assumptions C75_answers_refuted.

(** With a random function, random replacements and random masks: any sequence of distinct indices,
    at most as many from one chunk as the chunk has backup sets, makes the server see every sequence
    of queries (one index in every chunk each) with the same probability. *)
Theorem C76_uniform : forall db num size threads tq bk seed order qs,
  length db = num * size -> Permutation order (seq 0 (snd (chunk_params num))) ->
  (forall q, In q qs -> q < num) -> NoDup qs ->
  let '(chunk, sets) := chunk_params num in
  let thr := if Nat.ltb 0 threads then threads else 1 in
  let m1 := round_up tq thr in let m2 := round_up bk thr in
  (N.of_nat (m1 + m2 * sets) <= 2 ^ 32)%N ->
  (forall ci, length (filter (fun q => Nat.eqb (q / chunk) ci) qs) <= m2) ->
  forall view, length view = length qs -> (forall v, In v view -> one_per_chunk chunk sets v) ->
  let coins := all_coins chunk sets m1 m2 (length qs) in
  length (filter (fun w => sees (pn_run (coin_prf w) db num size threads tq bk seed (coin_repl w) order (coin_queries w qs)) view) coins)
    * (chunk ^ sets) ^ length qs = length coins.
Proof.
  intros db num size threads tq bk seed order qs L P H ND. destruct (chunk_params num) as [chunk sets] eqn:E.
  assert (EC : chunk = pn_chunk num) by (unfold pn_chunk; rewrite E; reflexivity).
  assert (ES : sets = pn_sets num) by (unfold pn_sets; rewrite E; reflexivity). cbn [snd] in P. subst chunk sets.
  intros thr m1 m2 HT HU view LV HV coins.
  apply (views_uniform db num size threads tq bk seed order qs L P); auto.
  intros q Hq. specialize (H q Hq). pose proof (num_total (fun _ _ => 0%N) db num size threads tq bk seed L). lia.
Qed.
Print Assumptions C76_uniform.

(** So two sequences of indices of the same length cannot be told apart. *)
Theorem C76_indistinguishable : forall db num size threads tq bk seed order qs qs',
  length db = num * size -> Permutation order (seq 0 (snd (chunk_params num))) -> length qs' = length qs ->
  (forall q, In q (qs ++ qs') -> q < num) -> NoDup qs -> NoDup qs' ->
  let '(chunk, sets) := chunk_params num in
  let thr := if Nat.ltb 0 threads then threads else 1 in
  let m1 := round_up tq thr in let m2 := round_up bk thr in
  (N.of_nat (m1 + m2 * sets) <= 2 ^ 32)%N ->
  (forall ci, length (filter (fun q => Nat.eqb (q / chunk) ci) qs) <= m2 /\ length (filter (fun q => Nat.eqb (q / chunk) ci) qs') <= m2) ->
  forall view, length view = length qs -> (forall v, In v view -> one_per_chunk chunk sets v) ->
  let seen qs := filter (fun w => sees (pn_run (coin_prf w) db num size threads tq bk seed (coin_repl w) order (coin_queries w qs)) view)
                        (all_coins chunk sets m1 m2 (length qs)) in
  length (seen qs) = length (seen qs').
Proof.
  intros db num size threads tq bk seed order qs qs' L P LQ H ND ND'.
  pose proof (C76_uniform db num size threads tq bk seed order qs L P (fun q Hq => H q (in_or_app _ _ _ (or_introl Hq))) ND) as U.
  pose proof (C76_uniform db num size threads tq bk seed order qs' L P (fun q Hq => H q (in_or_app _ _ _ (or_intror Hq))) ND') as U'.
  pose proof (chunk_pos (fun _ _ => 0%N) db num size threads tq bk seed L) as C. unfold pn_chunk in C.
  destruct (chunk_params num) as [chunk sets]. cbn [fst] in C. intros thr m1 m2 HT HU view LV HV seen.
  specialize (U HT (fun ci => proj1 (HU ci)) view LV HV). specialize (U' HT (fun ci => proj2 (HU ci)) view ltac:(congruence) HV).
  cbv zeta in U, U'. fold thr in U, U'. fold m1 m2 in U, U'. rewrite LQ in U'. unfold seen. rewrite LQ.
  assert (NZ : (chunk ^ sets) ^ length qs <> 0) by (apply Nat.pow_nonzero, Nat.pow_nonzero; lia).
  apply (Nat.mul_cancel_r _ _ _ NZ). rewrite U. symmetry. exact U'.
Qed.
Print Assumptions C76_indistinguishable.

(** ** Examples *)
Definition mix_prf (tag x : N) : N := (tag * 5 + x * 3)%N.
Definition ex_rnd (ci k : nat) : N := N.of_nat (3 * ci + 5 * k + 6).
Definition ex_mask (i : nat) : N := N.of_nat (7 * i + 100).
(** Nine entries of two bytes in two chunks of eight, three threads, six primary sets and three
    backup sets for every chunk; the second chunk arrives first. *)
Definition ex_db : list N := map (fun i => N.of_nat (200 - i)) (seq 0 18).
Example C75_ex_run :
  pn_run mix_prf ex_db 9 2 3 5 2 7 ex_rnd [1; 0] [(0, ex_mask); (8, ex_mask); (0, ex_mask); (7, ex_mask)] =
  Ok [([200; 199]%N, [6; 11], false); ([184; 183]%N, [5; 9], false); ([200; 199]%N, [4; 11], false); ([186; 185]%N, [3; 10], false)].
Proof. vm_compute. reflexivity. Qed.
Example C75_ex_hits : map (hits_at mix_prf 8 6) (seq 0 9) = [1; 1; 1; 0; 1; 1; 0; 1; 1] /\ chunk_params 9 = (8, 2).
Proof. vm_compute. split; reflexivity. Qed.
Example C75_ex_hyps : length ex_db = 9 * 2 /\ Permutation [1; 0] (seq 0 (snd (chunk_params 9))).
Proof. split; [reflexivity|]. apply perm_swap. Qed.
(** Two sequences of three indices with the sizes the code uses for nine entries. *)
Example C76_ex : forall view, length view = 3 -> (forall v, In v view -> one_per_chunk 8 2 v) ->
  let seen qs := filter (fun w => sees (pn_run (coin_prf w) nine 9 1 4 276 3684 7 (coin_repl w) [0; 1] (coin_queries w qs)) view)
                        (all_coins 8 2 (round_up 276 4) (round_up 3684 4) (length qs)) in
  length (seen [0; 8; 3]) = length (seen [1; 2; 4]).
Proof.
  intros view LV HV. apply (C76_indistinguishable nine 9 1 4 276 3684 7 [0; 1] [0; 8; 3] [1; 2; 4]); try reflexivity; try assumption.
  - intros q Hq. cbn in Hq. lia.
  - repeat constructor; cbn; lia.
  - repeat constructor; cbn; lia.
  - vm_compute. discriminate.
  - intros ci. change (round_up 3684 (if 0 <? 4 then 4 else 1)) with (round_up 3684 4).
    assert (B : 3 <= round_up 3684 4) by (apply Nat.leb_le; vm_compute; reflexivity).
    assert (F : forall (f : nat -> bool) a b c, length (filter f [a; b; c]) <= 3) by (intros f a b c; cbn; destruct (f a), (f b), (f c); cbn; lia).
    split; eapply Nat.le_trans; [apply F|exact B|apply F|exact B].
Qed.
