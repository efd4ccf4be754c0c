(** Properties of the OKVS encoder (Paxos). *)
From Coq Require Import List Arith NArith Bool Lia.
From Verif Require Import Base StoreModel GfModel OkvsModel OkvsSpec OkvsProofs OkvsProofs2
  PaxEncModel PaxEncSpec PaxEncProofs PaxEncProofs5 PaxEncProofs6 PaxEncProofs8 PaxEncProofs9 PaxEncProofs10.
Import ListNotations.
Local Open Scope N_scope.

Lemma init_facts : forall w q n m, paxos_init w q n = Ok m -> ok_sparse q < 2 ^ w - 1.
Proof. intros w q n m H. unfold paxos_init in H. apply enf_ok in H. destruct H as [H _]. apply N.ltb_lt. assumption. Qed.
Lemma zeros_at : forall n i, at0 (repeat 0 n) i = 0.
Proof. intros n. induction n as [|n IH]; intros [|i]; cbn; auto. apply IH. Qed.

(** C62.  Whenever Init, SetInput and Encode into a zeroed table return, the table has
    sparse_size + dense_size entries of the value type and Decode gives every key the value
    it was encoded with, in order - on either side's CPU, with any wide enough index type
    and whatever gap rows there were. *)
Theorem C62_encode_decode : forall aes q avx avx' w w' vw gmax num inputs values P,
  (forall x, aes x < 2 ^ 128) ->
  (1 <= ok_weight q)%nat -> N.of_nat (ok_weight q) <= ok_sparse q -> ok_sparse q <= 2 ^ 63 -> ok_sparse q <= 2 ^ w' ->
  (ok_dt q = DGF128 -> vw = 128 /\ (1 <= ok_dense q)%nat) ->
  (ok_dt q = DBinary -> vw <= 128 /\ (ok_dense q <= 64)%nat) ->
  Forall (fun v => v < 2 ^ vw) values ->
  paxos_encode aes avx w q gmax num inputs values (repeat 0 (N.to_nat (ok_sparse q) + ok_dense q)) = Ok P ->
  length P = (N.to_nat (ok_sparse q) + ok_dense q)%nat /\ Forall (fun x => x < 2 ^ vw) P /\
  (length inputs <= length values)%nat /\
  paxos_decode aes avx' w' vw q P inputs = Ok (firstn (length inputs) values).
Proof.
  intros aes q avx avx' w w' vw gmax num inputs values P Ha H1 H2 H3 H4 HG HB Hv H.
  assert (Hs : shape_ok vw q) by (unfold shape_ok; destruct (ok_dt q); auto).
  unfold paxos_encode in H. apply bind_ok in H. destruct H as (n & E & H). apply init_facts in E.
  assert (Hq : param_ok w q) by (repeat split; try assumption; lia).
  assert (Hq' : param_ok w' q) by (repeat split; assumption).
  apply bind_ok in H. destruct H as (r & E1 & H). apply set_input_facts in E1; [|assumption..]. destruct E1 as [_ ->]. cbn [fst snd] in H.
  pose proof (solve_facts w vw q (map aes inputs) values Hq Hs (aes_all _ _ Ha) Hv avx gmax _ P (zeros_at _) H) as S.
  split; [apply S|]. split; [apply all_below_at, S|].
  pose proof (solved_decode aes avx' w' vw q inputs values P Ha Hq' Hs S) as D. split; [|assumption].
  destruct S as (_ & _ & S). rewrite map_length in S.
  destruct (Nat.eq_dec (length inputs) 0) as [X|X]; [lia|]. destruct (S (length inputs - 1)%nat) as [Y _]; lia.
Qed.
Print Assumptions C62_encode_decode.

(** C62.  Encode returns whenever the rows of the keys can be peeled - every non-empty set
    of them has a column that belongs to exactly one - no column is in 200 rows or more and
    the table has two columns to spare: it never gives up on a set of keys it needs no
    dense columns for. *)
Theorem C62_peelable : forall aes q avx w gmax inputs values rows,
  (forall x, aes x < 2 ^ 128) ->
  (1 <= ok_weight q)%nat -> N.of_nat (ok_weight q) <= ok_sparse q -> ok_sparse q <= 2 ^ 63 -> ok_sparse q < 2 ^ w - 1 ->
  (ok_dt q = DBinary -> ok_dense q <= 64)%nat ->
  N.of_nat (length inputs) + 2 <= ok_sparse q -> (length inputs <= length values)%nat ->
  omapM (build_row avx w q) (map aes inputs) = Ok rows ->
  peelable rows -> (forall c, column_below 200 rows c) ->
  exists P, paxos_encode aes avx w q gmax (length inputs) inputs values (repeat 0 (N.to_nat (ok_sparse q) + ok_dense q)) = Ok P.
Proof.
  intros aes q avx w gmax inputs values rows Ha H1 H2 H3 H4 HB Hn Hv Hr Hp Hc.
  assert (Hq : param_ok w q) by (repeat split; try assumption; lia).
  assert (E : rows = map (row_of q) (map aes inputs)).
  { rewrite (omapM_ok _ _ _ (row_of q)) in Hr; [congruence|]. intros h X. pose proof (aes_all aes inputs Ha) as F. rewrite Forall_forall in F.
    apply build_row_ok; auto. }
  subst rows. unfold paxos_encode, paxos_init. rewrite (proj2 (N.ltb_lt _ _)) by assumption. rewrite (proj2 (N.leb_le _ _)) by lia. cbn [enforce bind].
  unfold cast. rewrite N.mod_small by lia. rewrite Nat2N.id, set_input_ok by assumption. cbn [bind fst snd].
  apply (solve_peel w); try assumption; [apply aes_all; assumption| | |apply repeat_length]; rewrite map_length; [lia|assumption].
Qed.
Print Assumptions C62_peelable.

(** C62.  Encode always stops: with a table, an exception or undefined behaviour, never by
    looping. *)
Theorem C62_stops : forall aes q avx w gmax num inputs values output,
  (forall x, aes x < 2 ^ 128) ->
  (1 <= ok_weight q)%nat -> N.of_nat (ok_weight q) <= ok_sparse q -> ok_sparse q <= 2 ^ 63 ->
  paxos_encode aes avx w q gmax num inputs values output <> Diverge.
Proof.
  intros aes q avx w gmax num inputs values output Ha H1 H2 H3. unfold paxos_encode. apply bind_nodiv.
  { unfold paxos_init. nodiv. }
  intros n E. apply init_facts in E. assert (Hq : param_ok w q) by (repeat split; try assumption; lia).
  apply bind_nodiv.
  { unfold set_input. rewrite build_rows_ok by (try assumption; apply aes_all; assumption). nodiv. }
  intros r E1. apply set_input_facts in E1; [|assumption..]. destruct E1 as [_ ->]. cbn [fst snd].
  apply (solve_nodiv w); [assumption|apply aes_all; assumption].
Qed.
Print Assumptions C62_stops.

(** The keys 5 .. 12 under a multiplicative hash. *)
Definition ex_aes (x : N) : N := 0x9e3779b97f4a7c15f39cc0605cedc835 * (x + 1) mod 2 ^ 128.
Definition ex_keys : list N := [5; 6; 7; 8; 9; 10; 11; 12].
Definition ex_vals : list N := [105; 106; 107; 108; 109; 1010; 1011; 1012].

(** It is not true that Encode either returns or throws: with GF128 dense columns and two
    gap rows - Encode checks that there are at most dense_size - it writes outside the
    vector made in MatrixGf128Inv. *)
Theorem C62_two_gap_rows_refuted : exists aes q avx w inputs values,
  (forall x, aes x < 2 ^ 128) /\ ok_dt q = DGF128 /\ NoDup inputs /\ length values = length inputs /\
  (exists r t, set_input aes avx w q (length inputs) inputs = Ok r /\
     triangulate (N.to_nat (ok_sparse q)) (fst r) (snd r) = Ok t /\ length (t_gap t) = 2%nat /\ (2 <= ok_dense q)%nat) /\
  paxos_encode aes avx w q 0 (length inputs) inputs values (repeat 0 (N.to_nat (ok_sparse q) + ok_dense q)) = UB.
Proof.
  exists ex_aes, (mk_okvs 3 8 3 DGF128), true, 8, ex_keys, ex_vals. split.
  { intros x. apply N.mod_lt. discriminate. }
  split; [reflexivity|]. split.
  { repeat constructor; cbn; intuition discriminate. }
  split; [reflexivity|]. split; [|vm_compute; reflexivity].
  eexists. eexists. split; [vm_compute; reflexivity|]. split; [vm_compute; reflexivity|]. split; [reflexivity|]. cbn. lia.
Qed.
Print Assumptions C62_two_gap_rows_refuted.

(** The table must be zeroed by the caller: in a table whose dense part is not, the keys
    do not get their values. *)
Theorem C62_any_table_refuted : exists aes q avx w inputs values output P,
  (forall x, aes x < 2 ^ 128) /\ length output = (N.to_nat (ok_sparse q) + ok_dense q)%nat /\
  paxos_encode aes avx w q 0 (length inputs) inputs values output = Ok P /\
  paxos_decode aes avx w 128 q P inputs <> Ok values.
Proof.
  exists ex_aes, (mk_okvs 3 14 3 DGF128), true, 8, (firstn 4 ex_keys), (firstn 4 ex_vals), (repeat 0 14 ++ [1; 0; 0]). eexists. split.
  { intros x. apply N.mod_lt. discriminate. }
  split; [reflexivity|]. split; [vm_compute; reflexivity|]. vm_compute. discriminate.
Qed.
Print Assumptions C62_any_table_refuted.

(** The inputs must be as many as Init was told: with fewer, SetInput reads past them. *)
Theorem C62_fewer_inputs_refuted : exists aes q avx w num inputs values,
  (forall x, aes x < 2 ^ 128) /\ (length inputs < num)%nat /\
  paxos_encode aes avx w q 0 num inputs values (repeat 0 (N.to_nat (ok_sparse q) + ok_dense q)) = UB.
Proof.
  exists ex_aes, (mk_okvs 3 14 3 DGF128), true, 8, 8%nat, (firstn 4 ex_keys), (firstn 4 ex_vals). split.
  { intros x. apply N.mod_lt. discriminate. }
  split; [cbn; lia|]. vm_compute. reflexivity.
Qed.
Print Assumptions C62_fewer_inputs_refuted.

(** Eight keys: 14 + 3 columns over GF(2^128), and 9 + 10 binary columns with gap rows;
    encoded on an AVX2 machine with 8-bit indices, decoded on another with 16-bit ones. *)
Example C62_example :
  (do P <- paxos_encode ex_aes true 8 (mk_okvs 3 14 3 DGF128) 0 8 ex_keys ex_vals (repeat 0 17);
   paxos_decode ex_aes false 16 128 (mk_okvs 3 14 3 DGF128) P ex_keys) = Ok ex_vals /\
  (do P <- paxos_encode ex_aes true 8 (mk_okvs 3 9 10 DBinary) 4 8 ex_keys ex_vals (repeat 0 19);
   paxos_decode ex_aes false 16 64 (mk_okvs 3 9 10 DBinary) P ex_keys) = Ok ex_vals /\
  (do r <- set_input ex_aes true 8 (mk_okvs 3 9 10 DBinary) 8 ex_keys;
   do t <- triangulate 9 (fst r) (snd r); Ok (length (t_gap t))) = Ok 1%nat.
Proof. vm_compute. repeat split; reflexivity. Qed.

(** Three rows that can be peeled: the hypotheses of C62_peelable are met. *)
Example C62_peelable_example :
  exists rows, omapM (build_row true 8 (mk_okvs 3 14 3 DGF128)) (map ex_aes [5; 6; 7]) = Ok rows /\
  peelable rows /\ forall c, column_below 200 rows c.
Proof.
  eexists. split; [vm_compute; reflexivity|]. split.
  - intros U UN UD UB. assert (X : In 0%nat U \/ In 1%nat U \/ In 2%nat U).
    { destruct U as [|r U]; [contradiction|]. specialize (UB r (or_introl eq_refl)). cbn in UB.
      destruct r as [|[|[|r]]]; [left|right; left|right; right|lia]; left; reflexivity. }
    assert (B : forall r, In r U -> r = 0%nat \/ r = 1%nat \/ r = 2%nat) by (intros r I; specialize (UB r I); cbn in UB; lia).
    destruct X as [X|[X|X]]; [exists 0, 0%nat|exists 12, 1%nat|exists 4, 2%nat]; (split; [assumption|]); (split; [cbn; tauto|]);
      intros r' I J; destruct (B r' I) as [->|[->| ->]]; cbn in J; intuition discriminate.
  - intros c U D H. assert (X : incl U (seq 0 3)) by (intros r I; apply in_seq; specialize (H r I); cbn in H; lia).
    apply NoDup_incl_length in X; [|assumption]. rewrite seq_length in X. lia.
Qed.
