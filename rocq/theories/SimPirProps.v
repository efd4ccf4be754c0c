(** C74: SimplePIR. *)
From Coq Require Import List ZArith NArith Bool Arith Lia.
From Verif Require Import Base BaseProofs Text Rr22MatchModel Rr22MatchProofs OkvsModel OkvsProofs SpDecodeSpec SpDecodeProofs2 SimPirModel SimPirProofs.
Import ListNotations.
Local Open Scope Z_scope.

(** The sum of the errors of a query, weighted with the database row that is asked. *)
Definition row_noise (m : nat) (db : list (list Z)) (errs : list Z) (idx : nat) : Z :=
  zsum m (fun j => nth j (nth (Nat.div idx m) db []) 0 * nth j errs 0).
(** The noise Recover tolerates with modulus q, plaintext modulus p and delta = q / p.  The two
    remainders are there because q need not be a multiple of p and because the difference of
    answer and hint is taken modulo 2^64 and not modulo q. *)
Definition tolerated (q p noise : Z) : Prop :=
  - (q / p - q / p / 2) <= noise /\ noise + q mod p + (2 ^ 64 - q) mod (q / p * p) < q / p / 2.

Theorem C74_retrieves : forall (dim m : nat) (q p : Z) (rv : list Z) (db : list (list Z)) rounds,
  (0 < dim)%nat -> (0 < m)%nat -> (q | 2 ^ 64) -> 0 < p -> 2 * p <= q ->
  length db = m -> (forall r, In r db -> length r = m /\ Forall (fun x => 0 <= x < p) r) ->
  (forall secret errs idx, In (secret, errs, idx) rounds -> (idx < m * m)%nat /\ tolerated q p (row_noise m db errs idx)) ->
  exists s c vs, sim_offline dim q (m * m) p rv db = Ok (s, c) /\ sim_rounds s c rounds = Ok vs /\
    map (fun r => sim_value s (snd r)) rounds = map Ok vs.
Proof.
  intros dim m q p rv db rounds Hdim Hm Dq Hp H2 Ldb Hrow HR.
  assert (Hq : 1 < q) by lia.
  assert (Lrow : forall r, In r db -> length r = m) by (intros r Hr; apply Hrow, Hr).
  exists (server dim m q rv db), (client dim m q p rv db 0 []), (map (fun r => datum m db (snd r)) rounds).
  split; [apply offline_ok; assumption|].
  assert (HV : forall idx, (idx < m * m)%nat -> sim_value (server dim m q rv db) idx = Ok (datum m db idx)).
  { intros idx Hi. eapply (value_ok dim m q p rv db); eassumption || exact []. }
  split.
  - generalize 0%nat as r. generalize (@nil Z) as sv0. revert HR. induction rounds as [|[[secret errs] idx] rest IH]; intros HR sv0 r; [reflexivity|].
    cbn [sim_rounds map snd]. destruct (HR secret errs idx (or_introl eq_refl)) as (Hi & HL & HU).
    assert (D2 : 2 <= q / p) by (apply Z.div_le_lower_bound; lia).
    rewrite (round_ok dim m q p rv db) by (assumption || lia). cbn [bind].
    rewrite IH by (intros; apply (HR secret0 errs0 idx0); right; assumption). cbn [bind]. do 2 f_equal.
    apply recover_value; try assumption.
    unfold datum. assert (DL : (Nat.div idx m < m)%nat) by (apply Nat.div_lt_upper_bound; lia).
    assert (Ir : In (nth (Nat.div idx m) db []) db) by (apply nth_In; lia).
    destruct (Hrow _ Ir) as [Lr Fr]. rewrite Forall_forall in Fr. apply Fr, nth_In. rewrite Lr. apply Nat.mod_upper_bound. lia.
  - rewrite map_map. apply map_ext_in. intros [[secret errs] idx] H. cbn [snd]. apply HV. apply (HR secret errs idx H).
Qed.
Print Assumptions C74_retrieves.

(** The parameters of the test (q = 2^32, p = 991, 64 rows, errors of at most 28): no run fails. *)
Theorem C74_test_parameters : forall (dim : nat) (rv : list Z) (db : list (list Z)) rounds,
  (0 < dim)%nat -> length db = 64%nat -> (forall r, In r db -> length r = 64%nat /\ Forall (fun x => 0 <= x < 991) r) ->
  (forall secret errs idx, In (secret, errs, idx) rounds -> (idx < 4096)%nat /\ forall j, Z.abs (nth j errs 0) <= 28) ->
  exists s c vs, sim_offline dim (2 ^ 32) 4096 991 rv db = Ok (s, c) /\ sim_rounds s c rounds = Ok vs /\
    map (fun r => sim_value s (snd r)) rounds = map Ok vs.
Proof.
  intros dim rv db rounds Hdim Ldb Hrow HR. change 4096%nat with (64 * 64)%nat.
  apply (C74_retrieves dim 64 (2 ^ 32) 991); try assumption; try lia.
  - exists (2 ^ 32). reflexivity.
  - intros secret errs idx H. destruct (HR secret errs idx H) as [Hi He]. split; [exact Hi|].
    assert (B : Z.abs (row_noise 64 db errs idx) <= zsum 64 (fun _ => 990 * 28)).
    { apply zsum_abs. intros j Hj.
      assert (Ir : In (nth (Nat.div idx 64) db []) db).
      { apply nth_In. rewrite Ldb. apply Nat.div_lt_upper_bound; [lia|exact Hi]. }
      destruct (Hrow _ Ir) as [Lr Fr]. rewrite Forall_forall in Fr.
      assert (F : 0 <= nth j (nth (Nat.div idx 64) db []) 0 < 991) by (apply Fr, nth_In; rewrite Lr; exact Hj).
      rewrite Z.abs_mul. apply Z.mul_le_mono_nonneg; try apply Z.abs_nonneg; [lia|apply He]. }
    change (zsum 64 (fun _ => 990 * 28)) with 1774080 in B. unfold tolerated.
    change (2 ^ 32 / 991) with 4333973. change (4333973 / 2) with 2166986. change (2 ^ 32 mod 991) with 53.
    change ((2 ^ 64 - 2 ^ 32) mod (4333973 * 991)) with 2756. lia.
Qed.
Print Assumptions C74_test_parameters.

(** The difference is not reduced modulo q: with q = 2^32, p = 2039 and no error at all the client
    can recover a value that is not in the database. *)
Theorem C74_reduction_refuted : exists (dim m : nat) (q p : Z) (rv : list Z) (db : list (list Z)) secret errs idx s c vs,
  (0 < dim)%nat /\ (0 < m)%nat /\ (q | 2 ^ 64) /\ 0 < p /\ 2 * p <= q /\
  length db = m /\ (forall r, In r db -> length r = m /\ Forall (fun x => 0 <= x < p) r) /\ (idx < m * m)%nat /\
  row_noise m db errs idx = 0 /\ 1000 * p < q / p /\
  sim_offline dim q (m * m) p rv db = Ok (s, c) /\ sim_rounds s c [(secret, errs, idx)] = Ok vs /\
  sim_value s idx <> Ok (nth 0 vs 0).
Proof.
  exists 1%nat, 1%nat, (2 ^ 32), 2039, [1], [[5]], [2 ^ 32 - 1], [0], 0%nat. do 3 eexists.
  split; [lia|]. split; [lia|]. split; [exists (2 ^ 32); reflexivity|]. split; [lia|]. split; [lia|].
  split; [reflexivity|]. split; [intros r [<-|[]]; split; [reflexivity|]; repeat constructor; lia|]. split; [lia|].
  split; [reflexivity|]. split; [vm_compute; reflexivity|].
  split; [vm_compute; reflexivity|]. split; [vm_compute; reflexivity|]. vm_compute. discriminate.
Qed.
Print Assumptions C74_reduction_refuted.

(** The wire format of queries, answers and hints. *)
Lemma sim_read_app : forall (data : list N) rest, (forall x, In x data -> (x < 2 ^ 64)%N) ->
  sim_read (length data) (concat (map (to_bytes 8) data) ++ rest) = Ok data.
Proof.
  intros data rest. induction data as [|x r IH]; intros H; [reflexivity|]. cbn [length sim_read map concat].
  rewrite <- app_assoc. assert (L8 : length (to_bytes 8 x) = 8%nat) by apply to_bytes_len.
  rewrite app_length, L8. replace (Nat.ltb (8 + _) 8) with false by (symmetry; apply Nat.ltb_ge; lia).
  rewrite skipn_app, skipn_all2, L8, Nat.sub_diag by lia. cbn [app skipn].
  rewrite IH by (intros y Hy; apply H; right; exact Hy). cbn [bind].
  rewrite firstn_app, L8, Nat.sub_diag, firstn_O, app_nil_r, firstn_all2 by lia.
  rewrite of_to_bytes. change (8 * N.of_nat 8)%N with 64%N. rewrite N.mod_small by (apply H; left; reflexivity). reflexivity.
Qed.
Theorem C74_wire : forall data, (forall x, In x data -> (x < 2 ^ 64)%N) -> (N.of_nat (length data) < 2 ^ 64)%N ->
  sim_decode (sim_encode data) = Ok data.
Proof.
  intros data H L. unfold sim_decode, sim_encode. assert (L8 : forall x, length (to_bytes 8 x) = 8%nat) by (intros; apply to_bytes_len).
  rewrite app_length, L8. replace (Nat.ltb (8 + _) 8) with false by (symmetry; apply Nat.ltb_ge; lia).
  rewrite firstn_app, L8, Nat.sub_diag, firstn_O, app_nil_r, firstn_all2 by (rewrite L8; lia).
  rewrite of_to_bytes. change (8 * N.of_nat 8)%N with 64%N. rewrite N.mod_small by exact L. rewrite Nat2N.id.
  rewrite skipn_app, skipn_all2, L8, Nat.sub_diag by (rewrite L8; lia). cbn [app skipn].
  rewrite <- (app_nil_r (concat _)). apply sim_read_app, H.
Qed.
Print Assumptions C74_wire.

(** A 2 x 2 database, two queries with errors of both signs. *)
Example C74_example :
  bind (sim_offline 2 (2 ^ 32) 4 991 [12345678901234567890; 7; 4294967295; 3000000000] [[990; 17]; [0; 500]])
    (fun sc => sim_rounds (fst sc) (snd sc)
       [([4294967290; 18446744073709551615], [-27; 14], 3%nat); ([77; 4000000000], [28; -28], 0%nat)]) = Ok [500; 990].
Proof. vm_compute. reflexivity. Qed.
Example C74_example_tolerated :
  tolerated (2 ^ 32) 991 (row_noise 2 [[990; 17]; [0; 500]] [-27; 14] 3) /\
  tolerated (2 ^ 32) 991 (row_noise 2 [[990; 17]; [0; 500]] [28; -28] 0).
Proof. unfold tolerated. repeat split; vm_compute; (reflexivity || discriminate). Qed.
Example C74_wire_example : sim_decode (sim_encode [0; 18446744073709551615; 258]%N) = Ok [0; 18446744073709551615; 258]%N /\
  sim_decode (firstn 20 (sim_encode [0; 1; 2]%N)) = UB.
Proof. split; vm_compute; reflexivity. Qed.
