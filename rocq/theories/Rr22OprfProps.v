(** C27: the two sides of the RR22 OPRF. *)
From Coq Require Import List Arith NArith Bool Lia.
From Verif Require Import Base BaseProofs StoreModel GfModel GfSpec GfProofs GfProofs2 OkvsModel OkvsSpec OkvsProofs OkvsProofs2 OkvsProofs3 OkvsProofs4 Rr22OprfModel Rr22OprfSpec Rr22OprfProofs.
Import ListNotations.
Local Open Scope N_scope.

(** C27.  Whenever Solve returns a table in which the receiver's keys decode to their
    hashes, the run ends normally and both sides return the values of one and the same
    function on their inputs - fast and low-communication mode, semi-honest and malicious,
    any thread counts and CPUs on the two sides. *)
Theorem C27_same_function :
  forall aes crh dm ro solve t malicious wr ws delta a b c avxR threadsR xs avxS threadsS ys p,
  (forall x, aes x < 2 ^ 128) -> (forall x, crh x < 2 ^ 128) ->
  table_ok t -> delta < 2 ^ 128 -> vole delta a b c -> (t_size t <= length b)%nat ->
  solve t xs (map (item_hash crh t) xs) = Ok p ->
  length p = t_size t -> Forall (fun v => v < 2 ^ 128) p ->
  (exists avx threads, decode_table aes avx threads t p xs = Ok (map (item_hash crh t) xs)) ->
  exists F : N -> N,
    run_oprf aes crh dm ro solve t malicious wr ws delta a b c avxR threadsR xs avxS threadsS ys =
    Ok (map F xs, map F ys).
Proof. intros. eexists. apply run_oprf_ok; eassumption. Qed.
Print Assumptions C27_same_function.

Lemma ok_pair_inj : forall A B (a a' : A) (b b' : B), Ok (a, b) = Ok (a', b') -> a = a' /\ b = b'.
Proof. intros A B a a' b b' H. injection H as -> ->. split; reflexivity. Qed.
Lemma some_inj : forall A (a b : A), Some a = Some b -> a = b.
Proof. intros A a b H. injection H as ->. reflexivity. Qed.
Lemma ok_inj : forall A (a b : A), Ok a = Ok b -> a = b.
Proof. intros A a b H. injection H as ->. reflexivity. Qed.
Lemma map_eq_nth : forall A B (f g : A -> B) l i x, map f l = map g l -> nth_error l i = Some x -> f x = g x.
Proof.
  intros A B f g l. induction l as [|z r IH]; intros [|i] x H I; try discriminate.
  - apply some_inj in I. subst z. cbn [map] in H. injection H as H _. exact H.
  - cbn [map] in H. injection H as _ H. apply (IH i x H I).
Qed.

(** A wrong match needs one particular delta: if in two semi-honest runs with different
    deltas (same receiver randomness) the sender's item y gets the value of a receiver's
    item x, then y decodes to its own hash in the receiver's table. *)
Theorem C27_wrong_match_fixes_delta :
  forall aes crh dm ro solve t wr ws delta delta' a b b' c avxR threadsR xs avxS threadsS ys p oR oS oR' oS' x y,
  (forall x, aes x < 2 ^ 128) -> (forall x, crh x < 2 ^ 128) ->
  (forall u v, u < 2 ^ 128 -> v < 2 ^ 128 -> crh u = crh v -> u = v) ->
  table_ok t -> delta < 2 ^ 128 -> delta' < 2 ^ 128 -> delta <> delta' ->
  vole delta a b c -> vole delta' a b' c -> (t_size t <= length b)%nat ->
  solve t xs (map (item_hash crh t) xs) = Ok p ->
  length p = t_size t -> Forall (fun v => v < 2 ^ 128) p ->
  (exists avx threads, decode_table aes avx threads t p xs = Ok (map (item_hash crh t) xs)) ->
  run_oprf aes crh dm ro solve t false wr ws delta a b c avxR threadsR xs avxS threadsS ys = Ok (oR, oS) ->
  run_oprf aes crh dm ro solve t false wr ws delta' a b' c avxR threadsR xs avxS threadsS ys = Ok (oR', oS') ->
  forall i j, nth_error xs i = Some x -> nth_error ys j = Some y ->
  nth_error oR i = nth_error oS j -> nth_error oR' i = nth_error oS' j ->
  decode_table aes avxS threadsS t p [y] = Ok [item_hash crh t y].
Proof.
  intros aes crh dm ro solve t wr ws delta delta' a b b' c avxR threadsR xs avxS threadsS ys p oR oS oR' oS' x y
    Ha Hc Hinj Ht Hd Hd' Hne HV HV' HL Hs Lp Bp HD R R' i j Ix Iy E E'.
  assert (HL' : (t_size t <= length b')%nat) by (destruct HV as (A & B & _), HV' as (A' & B' & _); lia).
  rewrite (run_oprf_ok aes crh dm ro solve t false wr ws delta a b c _ _ _ _ _ _ p) in R by assumption.
  rewrite (run_oprf_ok aes crh dm ro solve t false wr ws delta' a b' c _ _ _ _ _ _ p) in R' by assumption.
  apply ok_pair_inj in R. destruct R as [<- <-]. apply ok_pair_inj in R'. destruct R' as [<- <-].
  rewrite !nth_error_map, Ix, Iy in E. rewrite !nth_error_map, Ix, Iy in E'.
  cbn [option_map] in E, E'. apply some_inj in E. apply some_inj in E'.
  destruct (vole_update true delta a b c p Hd HV Bp ltac:(lia)) as (_ & Bc & Lc).
  destruct HD as (avx & threads & HD). rewrite decode_table_ok in HD by assumption. apply ok_inj in HD.
  assert (HX : dec t p (aes x) = item_hash crh t x).
  { apply (map_eq_nth _ _ (fun x => dec t p (aes x)) (item_hash crh t) xs i x HD Ix). }
  rewrite decode_table_ok by assumption. cbn [map].
  cut (dec t p (aes y) = item_hash crh t y); [intros ->; reflexivity|].
  unfold oprf_fun, final_hash in E, E'.
  assert (K1 : forall z, dec t p (aes z) < 2 ^ 128) by (intros; apply dec_below; [assumption|apply Ha]).
  assert (K2 : forall z, item_hash crh t z < 2 ^ 128) by (intros; apply item_hash_below; assumption).
  assert (K3 : forall z, dec t (firstn (length p) c) (aes z) < 2 ^ 128) by (intros; apply dec_below; [assumption|apply Ha]).
  assert (K4 : forall z, N.lxor (dec t p (aes z)) (item_hash crh t z) < 2 ^ 128) by (intros; apply lxor_below; auto).
  apply Hinj in E; [|apply lxor_below; auto; apply mul_red; auto|apply lxor_below; auto; apply mul_red; auto].
  apply Hinj in E'; [|apply lxor_below; auto; apply mul_red; auto|apply lxor_below; auto; apply mul_red; auto].
  rewrite HX, N.lxor_nilpotent in E, E'.
  rewrite (mul_comm delta 0) in E by (try assumption; apply red0). rewrite mul_0_l, N.lxor_0_r in E by assumption.
  rewrite (mul_comm delta' 0) in E' by (try assumption; apply red0). rewrite mul_0_l, N.lxor_0_r in E' by assumption.
  set (u := N.lxor (dec t p (aes y)) (item_hash crh t y)) in *.
  assert (Q : gf_mul true delta u = gf_mul true delta' u).
  { rewrite E in E'. apply (f_equal (N.lxor (dec t (firstn (length p) c) (aes y)))) in E'.
    rewrite <- !N.lxor_assoc, N.lxor_nilpotent, !N.lxor_0_l in E'. exact E'. }
  assert (Z : gf_mul true (N.lxor delta delta') u = 0).
  { rewrite mul_lxor_l by (try assumption; apply K4). rewrite Q. apply N.lxor_nilpotent. }
  apply no_zero_divisors in Z; [|apply lxor_below; assumption|apply K4].
  destruct Z as [Z|Z]; apply N.lxor_eq in Z; [contradiction|exact Z].
Qed.
Print Assumptions C27_wrong_match_fixes_delta.

(** One receiver's item, two sender's items, malicious mode, two bins: the common item 5
    gets one value on both sides, item 6 another. *)
Example C27_example :
  let aes x := 0x9e3779b97f4a7c15f39cc0605cedc835 * (x + 1) mod 2 ^ 128 in
  let crh x := (x * 0x2545f4914f6cdd1d + 12345) mod 2 ^ 128 in
  let dm v x := N.lxor (crh v) (N.lxor x v) in
  let q := mk_okvs 3 4 2 DGF128 in
  let t := mk_table q 2 FastMode in
  let zeros := repeat 0 12 in
  (* row of item 5 is (2, 0, 1) in bin 0 *)
  let solve (_ : oprf_table) (xs hs : list N) :=
    Ok (upd (6 * bno 2 (aes 5) + N.to_nat (hd 0 (row_of q (aes 5)))) (fun _ => hd 0 hs) zeros) in
  let a := map (fun i => 1000 + N.of_nat i) (seq 0 12) in
  let c := map (fun i => 77 * N.of_nat i + 2 ^ 100) (seq 0 12) in
  let delta := 0xdeadbeef in
  let b := zip_with (fun ci ai => N.lxor ci (gf_mul true delta ai)) c a in
  decode_table aes true 2 t (match solve t [5] [crh 5] with Ok p => p | _ => [] end) [5] = Ok [crh 5] /\
  match run_oprf aes crh dm (fun x => x + 1) solve t true 3 9 delta a b c true 2 [5] false 4 [6; 5] with
  | Ok ([r], [s6; s5]) => r = s5 /\ r <> s6
  | _ => False
  end.
Proof. vm_compute. split; [reflexivity|]. split; [reflexivity|discriminate]. Qed.
