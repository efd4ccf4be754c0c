(** C79, C80: threshold unbalanced PSI gives both sides the same selection, of the size asked;
    what its shuffle hides from the client in one run, and what two runs over one cache give away. *)
From Coq Require Import List NArith Bool Arith Lia Permutation.
From Verif Require Import Base BaseProofs Text TextProofs StoreModel StoreSpec StoreProofs2 EcdhModel BucketProofs
  ShufModel ShufSpec ShufProofs UbCacheModel UbCacheSpec UbCacheProofs UbCacheProps UbPsiModel UbPsiSpec UbPsiProofs UbPsiProofs2.
From Verif Require Import UbPsiProps ThrSpec UbThrModel UbThrSpec UbThrProofs UbThrProofs2 UbThrProofs3 UbThrProofs4.
Import ListNotations.

(** Setting as in C35_both_sides; [shuf] is the server's arrangement, [th] the threshold of both
    parties.  There is a selection [sel] of exactly min(th, |common|) common keys such that the
    client is given, for each of them, its place in the client's own table and the server's extra
    copies; the server is given the places of the same keys in its own table and the client's extra
    copies; and each is told the size of the whole intersection and of the selection. *)
Theorem C79_threshold :
  forall (Item : Type) (eqb : Item -> Item -> bool)
    (simple_eval blind : Item -> bytes) (evaluate finalize : bytes -> bytes) (cl pl : nat),
  (forall x y, eqb x y = true <-> x = y) ->
  0 < cl < max_cipher -> 0 < pl ->
  (forall x, length (simple_eval x) = cl) -> (forall x, length (blind x) = pl) ->
  (forall x, length (evaluate (blind x)) = pl) ->
  (forall x, finalize (evaluate (blind x)) = simple_eval x) ->
  forall src (client : list (list (Item * N))) priv moved bsg bst bso bsc threads sched shuf cg sg th,
  let srv := concat (map (rb_items Item) src) in
  let cli := concat client in
  let common := map fst (rows_with Item eqb (map fst srv) cli) in
  Forall (fun b => rb_items Item b <> [] /\ Permutation (rb_left Item b) (seq 0 (length (rb_items Item b)))) src ->
  (N.of_nat (length srv) < max32)%N -> Forall (fun e => (snd e < max32)%N) srv -> (N.of_nat (length cli) < max32)%N ->
  NoDup (map fst srv) -> NoDup (map fst cli) ->
  (forall x y, In x (map fst srv ++ map fst cli) -> In y (map fst srv ++ map fst cli) -> simple_eval x = simple_eval y -> x = y) ->
  0 < bsg -> 0 < bst -> 0 < bso -> 0 < bsc -> 0 < threads -> (forall i n, valid_schedule n threads (sched i n)) ->
  good_shuf shuf ->
  exists c d sel out_c out_s,
    offline_server Item simple_eval cl priv bsg moved src = Ok c /\ offline_transfer cl bst c = Ok d /\
    ubt_online Item blind evaluate finalize cl pl bso bsc threads sched shuf cg sg th th c d client = Ok (out_c, out_s) /\
    NoDup sel /\ incl sel common /\ N.of_nat (length sel) = N.min th (N.of_nat (length common)) /\
    (if cg then exists r, out_c = Some r /\ ur_peer r = total_rows Item srv /\
                  Forall2 (fun x e => stands_at Item cli x (fst e) /\ In (x, snd e) srv) sel (ur_rows r) /\
                  ur_real r = N.of_nat (length common) /\ ur_final r = N.of_nat (length sel)
     else out_c = None) /\
    (if sg then exists r, out_s = Some r /\ ur_peer r = total_rows Item cli /\
                  Permutation (ur_rows r) (joined Item eqb srv (rows_with Item eqb sel cli)) /\
                  ur_real r = N.of_nat (length common) /\ ur_final r = N.of_nat (length sel)
     else out_s = None).
Proof.
  intros Item eqb simple_eval blind evaluate finalize cl pl HE [H1 H2] H3 L1 L2 L3 HO
    src client priv moved bsg bst bso bsc threads sched shuf cg sg th srv cli common A1 A2 A3 A4 A5 A6 A7 G1 G2 G3 G4 G5 G6 G7.
  destruct (thr_run Item eqb simple_eval blind evaluate finalize cl pl HE H1 H2 H3 L1 L2 L3 HO
    src client priv moved bsg bst bso bsc threads sched shuf cg sg th A1 A2 A3 A4 A5 A6 A7 G1 G2 G3 G4 G5 G6 G7)
    as (c & d & sel & E1 & E2 & N1 & I1 & S1 & rc & rs & nc & ns & T1 & _ & T3 & RC & RS).
  exists c, d, sel, (if cg then Some (mk_ubtr rc nc (N.of_nat (length common)) (N.of_nat (length sel))) else None),
    (if sg then Some (mk_ubtr rs ns (N.of_nat (length common)) (N.of_nat (length sel))) else None).
  split; [exact E1|]. split; [exact E2|]. split.
  { destruct sg; [apply (T1 th eq_refl); symmetry; exact S1|exact (T3 th eq_refl)]. }
  split; [exact N1|]. split; [exact I1|]. split; [exact S1|]. split.
  - destruct cg; [|reflexivity]. destruct (RC eq_refl) as (-> & F). eexists. split; [reflexivity|]. auto.
  - destruct sg; [|reflexivity]. destruct (RS eq_refl) as (-> & F). eexists. split; [reflexivity|]. auto.
Qed.
Print Assumptions C79_threshold.

(** The parties' thresholds may differ.  If the server gets a result and the two thresholds select
    different numbers of keys, the run is refused. *)
Theorem C79_thresholds_differ :
  forall (Item : Type) (eqb : Item -> Item -> bool)
    (simple_eval blind : Item -> bytes) (evaluate finalize : bytes -> bytes) (cl pl : nat),
  (forall x y, eqb x y = true <-> x = y) ->
  0 < cl < max_cipher -> 0 < pl ->
  (forall x, length (simple_eval x) = cl) -> (forall x, length (blind x) = pl) ->
  (forall x, length (evaluate (blind x)) = pl) ->
  (forall x, finalize (evaluate (blind x)) = simple_eval x) ->
  forall src (client : list (list (Item * N))) priv moved bsg bst bso bsc threads sched shuf cg th_s th_c,
  let srv := concat (map (rb_items Item) src) in
  let cli := concat client in
  let common := map fst (rows_with Item eqb (map fst srv) cli) in
  Forall (fun b => rb_items Item b <> [] /\ Permutation (rb_left Item b) (seq 0 (length (rb_items Item b)))) src ->
  (N.of_nat (length srv) < max32)%N -> Forall (fun e => (snd e < max32)%N) srv -> (N.of_nat (length cli) < max32)%N ->
  NoDup (map fst srv) -> NoDup (map fst cli) ->
  (forall x y, In x (map fst srv ++ map fst cli) -> In y (map fst srv ++ map fst cli) -> simple_eval x = simple_eval y -> x = y) ->
  0 < bsg -> 0 < bst -> 0 < bso -> 0 < bsc -> 0 < threads -> (forall i n, valid_schedule n threads (sched i n)) ->
  good_shuf shuf ->
  N.min th_s (N.of_nat (length common)) <> N.min th_c (N.of_nat (length common)) ->
  exists c d,
    offline_server Item simple_eval cl priv bsg moved src = Ok c /\ offline_transfer cl bst c = Ok d /\
    ubt_online Item blind evaluate finalize cl pl bso bsc threads sched shuf cg true th_s th_c c d client = Throw.
Proof.
  intros Item eqb simple_eval blind evaluate finalize cl pl HE [H1 H2] H3 L1 L2 L3 HO
    src client priv moved bsg bst bso bsc threads sched shuf cg th_s th_c srv cli common A1 A2 A3 A4 A5 A6 A7 G1 G2 G3 G4 G5 G6 G7 D.
  destruct (thr_run Item eqb simple_eval blind evaluate finalize cl pl HE H1 H2 H3 L1 L2 L3 HO
    src client priv moved bsg bst bso bsc threads sched shuf cg true th_c A1 A2 A3 A4 A5 A6 A7 G1 G2 G3 G4 G5 G6 G7)
    as (c & d & sel & E1 & E2 & _ & _ & S1 & rc & rs & nc & ns & _ & T2 & _).
  exists c, d. split; [exact E1|]. split; [exact E2|]. apply (T2 th_s eq_refl). fold srv cli common in S1 |- *. rewrite S1. exact D.
Qed.
Print Assumptions C79_thresholds_differ.

(** A toy OPRF on numbers and the tables of C35: server keys 5 7 9 6 (7 three times), client keys
    9 1 7 (9 twice); common keys 9 and 7.  With threshold 1 one of them is selected. *)
Definition c79_shuf (n : nat) : list nat := if n =? 3 then [2; 0; 1] else seq 0 n.
Definition c79_run (cg sg : bool) (th_s th_c : N) :=
  do c <- offline_server N (fun x => [x; 1]%N) 2 [] 3 0%N c35_src;
  do d <- offline_transfer 2 2 c;
  ubt_online N (fun x => [x; 3; 4]%N) (fun b => firstn 1 b ++ [1%N; 4%N]) (firstn 2) 2 3 2 3 2 c35_sched c79_shuf cg sg th_s th_c c d c35_client.
Example C79_example :
  c79_run true true 1 1 = Ok (Some (mk_ubtr [(2, 2)] 6 2 1), Some (mk_ubtr [(1, 0)] 4 2 1))%N /\
  c79_run true true 8 8 = Ok (Some (mk_ubtr [(2, 2); (0, 0)] 6 2 2), Some (mk_ubtr [(1, 0); (2, 1)] 4 2 2))%N /\
  c79_run true true 1 2 = Throw /\
  map fst (rows_with N N.eqb (map fst (concat (map (rb_items N) c35_src))) (concat c35_client)) = [9; 7]%N.
Proof. repeat split; vm_compute; reflexivity. Qed.
Example C79_example_hypotheses : good_shuf c79_shuf.
Proof.
  intros n. unfold c79_shuf. destruct (n =? 3) eqn:E; [|reflexivity]. apply Nat.eqb_eq in E. subst n.
  apply C35_example_hypotheses.
Qed.

(** The claim that the client never gets more keys than the server's threshold allows is false:
    when the server gets no result it never looks at its own threshold. *)
Theorem C79_server_threshold_refuted :
  exists (c : cache) (d : cdisk) (client : list (list (N * N))) (th_s th_c : N) r,
    offline_server N (fun x => [x; 1]%N) 2 [] 3 0%N c35_src = Ok c /\ offline_transfer 2 2 c = Ok d /\
    ubt_online N (fun x => [x; 3; 4]%N) (fun b => firstn 1 b ++ [1%N; 4%N]) (firstn 2) 2 3 2 3 2 c35_sched c79_shuf true false
      th_s th_c c d client = Ok (Some r, None) /\
    (th_s < N.of_nat (length (ur_rows r)))%N.
Proof.
  destruct (offline_server N (fun x => [x; 1]%N) 2 [] 3 0%N c35_src) as [c| | |] eqn:E1; try (vm_compute in E1; discriminate E1).
  destruct (offline_transfer 2 2 c) as [d| | |] eqn:E2;
    try (vm_compute in E1; injection E1 as <-; vm_compute in E2; discriminate E2).
  exists c, d, c35_client, 1%N, 2%N, (mk_ubtr [(2, 2); (0, 0)] 6 2 2)%N. split; [reflexivity|]. split; [exact E2|].
  assert (R : c79_run true false 1 2 = Ok (Some (mk_ubtr [(2, 2); (0, 0)] 6 2 2), None)%N) by (vm_compute; reflexivity).
  unfold c79_run in R. rewrite E1 in R. cbn [bind] in R. rewrite E2 in R. cbn [bind] in R. split; [exact R|reflexivity].
Qed.
Print Assumptions C79_server_threshold_refuted.

(** What the client is sent in one online run, beside the server's cache: the evaluated items and
    the restored indexes.  Take two worlds, with OPRF keys and server tables whose values agree row
    by row ([simple_eval1], [src1] and [simple_eval2], [src2]), so that the caches are the same.  For
    the client's table, the values of the items are the same set in both worlds, but may be
    assigned differently to items that the client is not told about.  Then any view the client can
    have comes from equally many of the server's arrangements in both worlds: the view says nothing
    about which unselected items are in the server's table. *)
Theorem C80_unselected_hidden :
  forall (Item : Type) (simple_eval1 simple_eval2 blind : Item -> bytes) (evaluate1 evaluate2 finalize : bytes -> bytes) (cl pl : nat),
  0 < pl -> (forall x, length (blind x) = pl) ->
  (forall x, length (evaluate1 (blind x)) = pl) -> (forall x, length (evaluate2 (blind x)) = pl) ->
  forall src1 src2 moved priv bsg,
  simple_eval1 moved = simple_eval2 moved ->
  Forall2 (fun a b => rb_left Item a = rb_left Item b /\
             Forall2 (fun x y => simple_eval1 (fst x) = simple_eval2 (fst y) /\ snd x = snd y) (rb_items Item a) (rb_items Item b)) src1 src2 ->
  offline_server Item simple_eval1 cl priv bsg moved src1 = offline_server Item simple_eval2 cl priv bsg moved src2 /\
  forall bso bsc threads sched cg sg th d (client : list (list (Item * N))) P
    (dec : forall x y : outcome (list pmsg * list N), {x = y} + {x <> y}) msgs indexes,
  let cli := concat client in
  let view evaluate (s : list nat) :=
    omap (fun t => (snd (fst (fst t)), snd t))
      (ubt_exchange Item blind evaluate finalize cl pl bso bsc threads sched (fun _ => s) cg sg th d client) in
  0 < bso -> (N.of_nat (length cli) < max32)%N ->
  NoDup (map (fun e => evaluate1 (blind (fst e))) cli) ->
  Permutation (map (fun e => evaluate1 (blind (fst e))) cli) (map (fun e => evaluate2 (blind (fst e))) cli) ->
  all_arrangements (length cli) P ->
  (forall i e, In i indexes -> nth_error cli (N.to_nat i) = Some e -> evaluate1 (blind (fst e)) = evaluate2 (blind (fst e))) ->
  count_occ dec (map (view evaluate1) P) (Ok (msgs, indexes)) = count_occ dec (map (view evaluate2) P) (Ok (msgs, indexes)).
Proof.
  intros Item e1 e2 blind ev1 ev2 finalize cl pl H1 H2 L1 L2 src1 src2 moved priv bsg HM HF. split.
  - exact (same_cache Item e1 e2 moved HM cl priv bsg src1 src2 HF).
  - intros bso bsc threads sched cg sg th d client P dec msgs indexes cli view HB HL HN HP HA HI.
    exact (hidden_count Item blind finalize cl pl H1 H2 ev1 ev2 bso bsc threads sched cg sg th d client P dec (msgs, indexes)
             L1 L2 HB HL HN HP HA HI).
Qed.
Print Assumptions C80_unselected_hidden.

(** Client keys 9 1 7 and threshold 1; the server's table has 5 7 9 6 in one world and 5 7 1 6 in the
    other, where the OPRF gives 1 and 9 each other's values.  Of the six arrangements, in each world one gives
    the client the values in the order 7 9 1 and the index of 7. *)
Definition c80_swap (x : N) : N := if (x =? 9)%N then 1%N else if (x =? 1)%N then 9%N else x.
Definition c80_src2 : list (raw_batch N) := [mk_raw N [(5, 0); (7, 2)]%N [1; 0]; mk_raw N [(1, 0); (6, 0)]%N [1; 0]].
Definition c80_orders : list (list nat) := [[0; 1; 2]; [0; 2; 1]; [1; 0; 2]; [1; 2; 0]; [2; 0; 1]; [2; 1; 0]].
Definition c80_view (f : N -> N) (src : list (raw_batch N)) (s : list nat) :=
  do c <- offline_server N (fun x => [f x; 1]%N) 2 [] 3 0%N src;
  do d <- offline_transfer 2 2 c;
  omap (fun t => (snd (fst (fst t)), snd t))
    (ubt_exchange N (fun x => [x; 3; 4]%N) (fun b => map f (firstn 1 b) ++ [1%N; 4%N]) (firstn 2) 2 3 3 3 2 c35_sched (fun _ => s) true false 1%N d c35_client).
Definition c80_dec : forall x y : outcome (list pmsg * list N), {x = y} + {x <> y}.
Proof. repeat (decide equality; try apply N.eq_dec). Defined.
Example C80_example :
  let seen := Ok ([([7; 1; 4; 9; 1; 4; 1; 1; 4]%N, [])], [2%N]) in
  map (fun p => count_occ c80_dec (map (c80_view (fst p) (snd p)) c80_orders) seen) [(fun x => x, c35_src); (c80_swap, c80_src2)] = [1; 1] /\
  c80_view (fun x => x) c35_src [2; 0; 1] = seen /\ c80_view c80_swap c80_src2 [2; 1; 0] = seen /\
  offline_server N (fun x => [x; 1]%N) 2 [] 3 0%N c35_src = offline_server N (fun x => [c80_swap x; 1]%N) 2 [] 3 0%N c80_src2.
Proof. repeat split; vm_compute; reflexivity. Qed.

(** Over two runs on one cache the shuffle hides nothing: the values of the items are the same in
    both, whatever the arrangements, thresholds and blinding keys of the runs.  A client that leaves
    out one key [y] in the second run learns whether [y] is in the server's table, selected or not,
    from the evaluated items of the two runs and the cache. *)
Theorem C80_two_runs_refuted :
  exists infer : (bytes -> bytes) -> (bytes -> bytes) -> nat -> nat -> list pmsg -> list pmsg -> cdisk -> outcome bool,
  forall (Item : Type) (simple_eval blind1 blind2 : Item -> bytes) (evaluate fin1 fin2 : bytes -> bytes) (cl pl : nat),
  0 < cl < max_cipher -> 0 < pl ->
  (forall x, length (simple_eval x) = cl) -> (forall x, length (blind1 x) = pl) -> (forall x, length (blind2 x) = pl) ->
  (forall x, length (evaluate (blind1 x)) = pl) -> (forall x, length (evaluate (blind2 x)) = pl) ->
  (forall x, fin1 (evaluate (blind1 x)) = simple_eval x) -> (forall x, fin2 (evaluate (blind2 x)) = simple_eval x) ->
  forall src (client1 client2 : list (list (Item * N))) y dy priv moved bsg bst bs1 bs2 shuf1 shuf2 sg1 sg2 c d,
  let srv := concat (map (rb_items Item) src) in
  let cli := concat client1 in
  Forall (fun b => rb_items Item b <> [] /\ Permutation (rb_left Item b) (seq 0 (length (rb_items Item b)))) src ->
  (N.of_nat (length srv) < max32)%N -> Forall (fun e => (snd e < max32)%N) srv -> (N.of_nat (length cli) < max32)%N ->
  NoDup (map fst cli) -> Permutation cli ((y, dy) :: concat client2) ->
  (forall x z, In x (map fst srv ++ map fst cli) -> In z (map fst srv ++ map fst cli) -> simple_eval x = simple_eval z -> x = z) ->
  0 < bsg -> 0 < bst -> 0 < bs1 -> 0 < bs2 -> good_shuf shuf1 -> good_shuf shuf2 ->
  offline_server Item simple_eval cl priv bsg moved src = Ok c -> offline_transfer cl bst c = Ok d ->
  exists info1 info2 ev1 ev2 b,
    ubt_serve evaluate pl bs1 shuf1 (map (blind_msg Item blind1 sg1) client1) = Ok (info1, ev1) /\
    ubt_serve evaluate pl bs2 shuf2 (map (blind_msg Item blind2 sg2) client2) = Ok (info2, ev2) /\
    infer fin1 fin2 cl pl ev1 ev2 d = Ok b /\ (b = true <-> In y (map fst srv)).
Proof.
  exists infer. intros Item e b1 b2 ev f1 f2 cl pl [H1 H2] H3 L1 L2 L3 L4 L5 O1 O2.
  exact (two_runs Item e b1 b2 ev f1 f2 cl pl H1 H2 H3 L1 L2 L3 L4 L5 O1 O2).
Qed.
Print Assumptions C80_two_runs_refuted.

(** Threshold 1 again: key 7 is selected in a run with 9 1 7 and in a run with 1 7; the difference of
    the replies shows that 9 is in the server's table.  A run with 9 7 shows that 1 is not. *)
Definition c80_replies (client : list (list (N * N))) :=
  do c <- offline_server N (fun x => [x; 1]%N) 2 [] 3 0%N c35_src;
  do d <- offline_transfer 2 2 c;
  omap (fun t => (snd (fst (fst t)), snd t, d))
    (ubt_exchange N (fun x => [x; 3; 4]%N) (fun b => firstn 1 b ++ [1%N; 4%N]) (firstn 2) 2 3 3 3 2 c35_sched c79_shuf true false 1%N d client).
Definition c80_learn (client1 client2 : list (list (N * N))) :=
  do (a, d) <- c80_replies client1;
  do (b, _) <- c80_replies client2;
  omap (fun x => (snd a, snd b, x)) (infer (firstn 2) (firstn 2) 2 3 (fst a) (fst b) d).
Example C80_two_runs_example :
  c80_learn c35_client [[(1, 0); (7, 0)]]%N = Ok ([2], [1], true)%N /\
  c80_learn c35_client [[(9, 1); (7, 0)]]%N = Ok ([2], [1], false)%N.
Proof. repeat split; vm_compute; reflexivity. Qed.
