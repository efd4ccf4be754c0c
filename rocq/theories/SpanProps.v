(** C92: the batched hashes of RR22 give the values of the single-value versions, also
    when they write over their own input. *)
From Coq Require Import List NArith Lia Bool Arith.
From Verif Require Import Base Rr22OprfModel SpanModel SpanSpec SpanProofs.
Import ListNotations.

(** AesCrHash::Hash on words, for every length (batches of 8 and a rest). *)
Theorem C92_words :
  forall aes m p c, same_or_apart p c -> s_len p <= s_len c ->
  exists m', cr_hash_words aes m p c = Ok m' /\ written m m' c (map (cr_hash_one aes) (contents m p)).
Proof. exact words_exact. Qed.
Print Assumptions C92_words.

(** On bytes: block by block. *)
Theorem C92_bytes :
  forall aes m p c, (forall b, length b = k_block -> length (aes b) = k_block) ->
  same_or_apart p c -> s_len p <= s_len c -> Nat.divide k_block (s_len p) ->
  exists m', cr_hash_bytes aes m p c = Ok m' /\
    written m m' c (zip N.lxor (flat_map aes (chunks k_block (contents m p))) (contents m p)).
Proof. exact bytes_exact. Qed.
Print Assumptions C92_bytes.

(** Other lengths never succeed. *)
Theorem C92_bytes_whole_blocks :
  forall aes m p c m', cr_hash_bytes aes m p c = Ok m' -> Nat.divide k_block (s_len p).
Proof. exact bytes_refused. Qed.
Print Assumptions C92_bytes_whole_blocks.

(** DavisMeyerHash, with and without vector instructions; the output may be the span
    of the keys or of the values. *)
Theorem C92_davis_meyer :
  forall aes avx m key val out,
  same_or_apart key out -> same_or_apart val out -> s_len val = s_len key -> s_len key <= s_len out ->
  exists m', dm_hash aes avx m key val out = Ok m' /\ written m m' out (zip (dm_one aes) (contents m key) (contents m val)).
Proof. exact dm_exact. Qed.
Print Assumptions C92_davis_meyer.

Theorem C92_davis_meyer_sizes :
  forall aes avx m key val out, s_len val <> s_len key -> dm_hash aes avx m key val out = Throw.
Proof.
  intros aes avx m key val out H. unfold dm_hash. destruct (Nat.eqb (s_len key) (s_len val)) eqn:E; [ | reflexivity].
  apply Nat.eqb_eq in E. congruence.
Qed.
Print Assumptions C92_davis_meyer_sizes.

(** The final hash of the RR22 OPRF, in place, is the one-element function assumed in
    the model of the OPRF (Rr22OprfModel.v), on any machine. *)
Theorem C92_final_hash :
  forall crh_aes dm_aes avx (malicious : bool) m inputs outputs w vs,
  s_len inputs = s_len outputs ->
  (s_at inputs + s_len inputs <= s_at outputs \/ s_at outputs + s_len outputs <= s_at inputs) ->
  contents m outputs = map (fun v => if malicious then N.lxor v w else v) vs ->
  exists m', final_span crh_aes dm_aes avx malicious m inputs outputs = Ok m' /\
    written m m' outputs
      (zip (fun v x => final_hash (cr_hash_one crh_aes) (dm_one dm_aes) malicious w x v) vs (contents m inputs)).
Proof.
  intros crh_aes dm_aes avx malicious m inputs outputs w vs L A C. unfold final_span, final_hash.
  assert (LV : length vs = s_len outputs) by (rewrite <- (contents_length m outputs), C, map_length; reflexivity).
  destruct malicious.
  - destruct (C92_davis_meyer dm_aes avx m outputs inputs outputs) as (m' & E & W); unfold same_or_apart; auto; try lia.
    exists m'. split; [exact E | ].
    replace (zip (fun v x => dm_one dm_aes (N.lxor v w) x) vs (contents m inputs))
      with (zip (dm_one dm_aes) (contents m outputs) (contents m inputs)); [exact W | ].
    rewrite C. clear. revert vs. generalize (contents m inputs) as xs.
    intros xs vs. revert xs. induction vs as [ | v vs IH]; intros [ | x xs]; cbn; try reflexivity. now rewrite IH.
  - destruct (C92_words crh_aes m outputs outputs) as (m' & E & W); unfold same_or_apart; auto.
    exists m'. split; [exact E | ].
    replace (zip (fun v _ => cr_hash_one crh_aes v) vs (contents m inputs))
      with (map (cr_hash_one crh_aes) (contents m outputs)); [exact W | ].
    rewrite C, map_id. assert (LI : length (contents m inputs) = length vs) by (rewrite contents_length; lia).
    clear - LI. revert LI. generalize (contents m inputs) as xs. induction vs as [ | v vs IH]; intros [ | x xs] H; try discriminate H; cbn; auto.
    rewrite <- IH; auto.
Qed.
Print Assumptions C92_final_hash.

(* ------------------------------------------------------------------ *)
Definition ex_mem : mem := fun a => (N.of_nat a * 1000 + 7)%N.
Definition ex_aes (x : N) : N := (x * x + 1)%N.
Definition ex_dm (k v : N) : N := (k * 31 + v * v)%N.

(** 11 words (a batch and a rest), in place; 19 keys, hashed in place with values
    behind them, with and without vector instructions. *)
Example C92_example :
  omap (fun m' => contents m' (mk_span 4 13)) (cr_hash_words ex_aes ex_mem (mk_span 5 11) (mk_span 5 11)) =
    Ok (ex_mem 4 :: map (cr_hash_one ex_aes) (contents ex_mem (mk_span 5 11)) ++ [ex_mem 16]) /\
  (forall avx, omap (fun m' => contents m' (mk_span 0 19)) (dm_hash ex_dm avx ex_mem (mk_span 0 19) (mk_span 40 19) (mk_span 0 19)) =
    Ok (zip (dm_one ex_dm) (contents ex_mem (mk_span 0 19)) (contents ex_mem (mk_span 40 19)))) /\
  same_or_apart (mk_span 0 19) (mk_span 0 19) /\ same_or_apart (mk_span 40 19) (mk_span 0 19).
Proof.
  split; [vm_compute; reflexivity | ]. split; [intros []; vm_compute; reflexivity | ].
  split; unfold same_or_apart; cbn; lia.
Qed.

Example C92_bytes_example :
  let aes := @rev N in
  omap (fun m' => contents m' (mk_span 500 144)) (cr_hash_bytes aes ex_mem (mk_span 0 144) (mk_span 500 144)) =
    Ok (zip N.lxor (flat_map aes (chunks 16 (contents ex_mem (mk_span 0 144)))) (contents ex_mem (mk_span 0 144))) /\
  cr_hash_bytes aes ex_mem (mk_span 0 150) (mk_span 500 150) = Throw.
Proof. split; vm_compute; reflexivity. Qed.

Example C92_final_example :
  let inputs := mk_span 100 10 in let outputs := mk_span 0 10 in
  let m := fun a => if Nat.ltb a 10 then N.lxor (N.of_nat a + 3) 5 else ex_mem a in
  contents m outputs = map (fun v => N.lxor v 5) [3; 4; 5; 6; 7; 8; 9; 10; 11; 12]%N /\
  omap (fun m' => contents m' outputs) (final_span ex_aes ex_dm true true m inputs outputs) =
    Ok (zip (fun v x => final_hash (cr_hash_one ex_aes) (dm_one ex_dm) true 5 x v) [3; 4; 5; 6; 7; 8; 9; 10; 11; 12]%N (contents m inputs)).
Proof. split; vm_compute; reflexivity. Qed.

(** Spans that overlap without being the same: the values are not the single-value
    ones, and on bytes or words of Davis-Meyer they depend on the machine. *)
Theorem C92_overlap_refuted :
  exists aes m p c m', s_len p = s_len c /\ cr_hash_words aes m p c = Ok m' /\
    contents m' c <> map (cr_hash_one aes) (contents m p).
Proof.
  exists ex_aes, ex_mem, (mk_span 0 3), (mk_span 1 3).
  destruct (cr_hash_words ex_aes ex_mem (mk_span 0 3) (mk_span 1 3)) as [m' | | | ] eqn:E; try (vm_compute in E; discriminate E).
  exists m'. split; [reflexivity | ]. split; [reflexivity | ].
  assert (X : omap (fun m' => contents m' (mk_span 1 3)) (cr_hash_words ex_aes ex_mem (mk_span 0 3) (mk_span 1 3)) = Ok (contents m' (mk_span 1 3)))
    by now rewrite E.
  intros C. rewrite C in X. vm_compute in X. discriminate X.
Qed.
Print Assumptions C92_overlap_refuted.

Theorem C92_overlap_machine_refuted :
  exists aes m key val out m1 m2, s_len key = s_len val /\ s_len out = s_len val /\
    dm_hash aes true m key val out = Ok m1 /\ dm_hash aes false m key val out = Ok m2 /\ contents m1 out <> contents m2 out.
Proof.
  exists ex_dm, ex_mem, (mk_span 0 8), (mk_span 40 8), (mk_span 1 8).
  destruct (dm_hash ex_dm true ex_mem (mk_span 0 8) (mk_span 40 8) (mk_span 1 8)) as [m1 | | | ] eqn:E1; try (vm_compute in E1; discriminate E1).
  destruct (dm_hash ex_dm false ex_mem (mk_span 0 8) (mk_span 40 8) (mk_span 1 8)) as [m2 | | | ] eqn:E2; try (vm_compute in E2; discriminate E2).
  exists m1, m2. split; [reflexivity | ]. split; [reflexivity | ]. split; [reflexivity | ]. split; [reflexivity | ].
  assert (X1 : omap (fun m' => contents m' (mk_span 1 8)) (dm_hash ex_dm true ex_mem (mk_span 0 8) (mk_span 40 8) (mk_span 1 8)) = Ok (contents m1 (mk_span 1 8))) by now rewrite E1.
  assert (X2 : omap (fun m' => contents m' (mk_span 1 8)) (dm_hash ex_dm false ex_mem (mk_span 0 8) (mk_span 40 8) (mk_span 1 8)) = Ok (contents m2 (mk_span 1 8))) by now rewrite E2.
  intros C. rewrite <- C in X2. rewrite <- X1 in X2. vm_compute in X2. discriminate X2.
Qed.
Print Assumptions C92_overlap_machine_refuted.

(** Neither function compares the size of the output with that of the input: a
    shorter output is written past its end. *)
Theorem C92_output_size_refuted :
  exists aes dm m p v c, s_len c < s_len p /\ s_len v = s_len p /\
    cr_hash_words aes m p c = UB /\ forall avx, dm_hash dm avx m p v c = UB.
Proof.
  exists ex_aes, ex_dm, ex_mem, (mk_span 0 9), (mk_span 20 9), (mk_span 50 8).
  cbn [s_len]. split; [lia | ]. split; [reflexivity | ]. split; [vm_compute; reflexivity | ].
  intros []; vm_compute; reflexivity.
Qed.
Print Assumptions C92_output_size_refuted.
