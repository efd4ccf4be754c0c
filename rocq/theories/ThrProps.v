(** Properties C77 and C78: threshold ECDH PSI. *)
From Coq Require Import List NArith Lia Bool Arith Permutation.
From Coq Require Strings.Byte.
From Verif Require Import Base Text StoreModel StoreSpec EcdhModel EcdhSpec EcdhProps DigestModel.
From Verif Require Import ThrModel ThrSpec ThrProofs3.
Import ListNotations.

(** C77.  Full statement: both parties' outputs list the same min(threshold, number
    of common keys) distinct common keys, each with its own position and the other
    side's extra count.  [sent rp] and [sent sp] are the rows (key, extra count) of
    the receiver and the sender.  Proved for every shuffle, binning, batch cut and
    threshold; missing: the counts the sender writes when the receiver's input has
    repeated keys (refuted below), and runs that take the equal-input shortcut
    (refuted below). *)
Theorem C77_threshold_partial :
  forall (Point : Type) (hash_point : bytes -> Point) (mask : bool -> Point -> Point)
         (ser : Point -> bytes) (deser : bytes -> Point) (dual_mask_size L : nat)
         (hash : bytes -> N) (num : nat),
  let dual x := last_bytes dual_mask_size (ser (mask false (mask true (hash_point x)))) in
  (forall x, deser (ser x) = x) -> (forall x, length (ser x) = L) -> (forall x, Forall is_byte (ser x)) ->
  (forall x, mask true (mask false x) = mask false (mask true x)) -> 0 < num ->
  forall check ri si (th : N) broadcast bsz rp sp shufs,
  digest_equal check [ri; si] = Ok false ->
  good_provider rp -> good_provider sp -> good_shuffles rp shufs ->
  (th < max32)%N -> (0 < u32 bsz)%N ->
  (N.of_nat (length (sent rp)) < max32)%N -> (N.of_nat (length (sent sp)) < max32)%N ->
  NoDup (map fst (sent rp)) ->
  (forall x y, In x (map fst (sent rp)) -> In y (map fst (sent sp)) -> dual y = dual x -> y = x) ->
  exists out sel,
    thr_run Point hash_point mask ser deser dual_mask_size hash num check ri si th broadcast bsz rp sp shufs = Ok out /\
    NoDup sel /\
    N.of_nat (length sel) = N.min th (N.of_nat (length (common_rows (sent rp) (sent sp)))) /\
    Forall2 (fun x e => is_at (sent rp) x (fst e) /\ In (x, snd e) (sent sp)) sel (to_recv out) /\
    to_recv_cnt out = Some (N.of_nat (length (common_rows (sent rp) (sent sp))), N.of_nat (length sel)) /\
    (if broadcast
     then Forall2 (fun x e => is_at (sent sp) x (fst e)) sel (to_send out) /\ to_send_cnt out = to_recv_cnt out /\
          (Forall (fun r => snd r = 0%N) (sent rp) -> Forall2 (fun x e => In (x, snd e) (sent rp)) sel (to_send out))
     else to_send out = [] /\ to_send_cnt out = None).
Proof. exact run_exact. Qed.
Print Assumptions C77_threshold_partial.

(** The toy group of EcdhProps; one bin per residue of the length. *)
Definition toy_run := thr_run Byte.byte toy_hash_point toy_mask toy_ser toy_deser 1 (fun x => fold_right N.add 0%N x) 3.
Definition toy_dual (x : bytes) : bytes := last_bytes 1 (toy_ser (toy_mask false (toy_mask true (toy_hash_point x)))).
Definition toy_info (keys : list bytes) (dup : N) : kinfo := mk_kinfo keys (concat keys) dup (N.of_nat (length keys)).

Lemma toy_ok : (forall x, toy_deser (toy_ser x) = x) /\ (forall x, length (toy_ser x) = 2) /\
  (forall x, Forall is_byte (toy_ser x)) /\
  (forall x, toy_mask true (toy_mask false x) = toy_mask false (toy_mask true x)).
Proof.
  split; [intros []; reflexivity|]. split; [reflexivity|]. split; [intros []; repeat constructor; reflexivity|].
  intros []; reflexivity.
Qed.

(** Receiver: keys 1, 2 (five times), 3 in two batches; sender: 3 (twice), 9, 1. *)
Definition ex_rp : list (list bytes * dupmap) := [([[1]; [2]], [(1%nat, 4)]); ([[3]], [])]%N.
Definition ex_sp : list (list bytes * dupmap) := [([[3]; [9]], [(0%nat, 1)]); ([[1]], [])]%N.

Example C77_example :
  digest_equal true [toy_info [[1]; [2]; [3]]%N 4; toy_info [[3]; [9]; [1]]%N 1] = Ok false /\
  good_provider ex_rp /\ good_provider ex_sp /\ good_shuffles ex_rp [[1; 0]; [0]] /\
  NoDup (map fst (sent ex_rp)) /\
  (forall x y, In x (map fst (sent ex_rp)) -> In y (map fst (sent ex_sp)) -> toy_dual y = toy_dual x -> y = x) /\
  length (common_rows (sent ex_rp) (sent ex_sp)) = 2 /\
  toy_run true (toy_info [[1]; [2]; [3]]%N 4) (toy_info [[3]; [9]; [1]]%N 1) 1 false 4096 ex_rp ex_sp [[1; 0]; [0]] =
    Ok (mk_tout [(0, 0)] (Some (2, 1)) [] None)%N /\
  toy_run true (toy_info [[1]; [2]; [3]]%N 4) (toy_info [[3]; [9]; [1]]%N 1) 7 false 4096 ex_rp ex_sp [[1; 0]; [0]] =
    Ok (mk_tout [(0, 0); (2, 1)] (Some (2, 2)) [] None)%N.
Proof.
  split; [reflexivity|].
  split; [repeat constructor; try discriminate; cbn; try lia; reflexivity|].
  split; [repeat constructor; try discriminate; cbn; try lia; reflexivity|].
  split; [repeat constructor|].
  split; [cbn; repeat constructor; cbn; intuition discriminate|].
  split; [|vm_compute; auto].
  intros x y Hx Hy. cbn in Hx, Hy.
  repeat (destruct Hx as [<-|Hx]); try contradiction; repeat (destruct Hy as [<-|Hy]); try contradiction;
    intros E; try reflexivity; exfalso; vm_compute in E; discriminate.
Qed.

(** The counts the sender writes: the cache records the count of the item that stood
    at the shuffled position instead of the item's own.  Here the sender is told that
    key 1 occurs five times at the receiver; it occurs once. *)
Theorem C77_sender_counts_refuted :
  exists (rp sp : list (list bytes * dupmap)) shufs out x e,
    good_provider rp /\ good_provider sp /\ good_shuffles rp shufs /\ NoDup (map fst (sent rp)) /\
    (forall x y, In x (map fst (sent rp)) -> In y (map fst (sent sp)) -> toy_dual y = toy_dual x -> y = x) /\
    toy_run false (toy_info [] 0) (toy_info [] 0) 7 true 4096 rp sp shufs = Ok out /\
    In e (to_send out) /\ is_at (sent sp) x (fst e) /\ In x (map fst (sent rp)) /\ ~ In (x, snd e) (sent rp).
Proof.
  exists ex_rp, ex_sp, [[1; 0]; [0]]. eexists. exists [1%N], (2, 4)%N.
  destruct C77_example as (_ & H1 & H2 & H3 & H4 & H5 & _).
  split; [exact H1|]. split; [exact H2|]. split; [exact H3|]. split; [exact H4|]. split; [exact H5|].
  split; [vm_compute; reflexivity|]. cbn [to_send In fst snd].
  split; [left; reflexivity|]. split; [exists 0%N; reflexivity|]. split; [left; reflexivity|].
  cbn. intuition discriminate.
Qed.
Print Assumptions C77_sender_counts_refuted.

(** Full statement: no output lists more than [th] keys.  False when the inputs are
    equal and check_hash_digest is set: everything is output, on both sides. *)
Theorem C77_equal_inputs_refuted :
  exists (keys : list bytes) (th : N) bs shufs out,
    NoDup keys /\ (0 < th)%N /\ map fst (sent bs) = keys /\
    digest_equal true [toy_info keys 0; toy_info keys 0] = Ok true /\
    toy_run true (toy_info keys 0) (toy_info keys 0) th true 4096 bs bs shufs = Ok out /\
    (th < N.of_nat (length (to_recv out)))%N /\ to_recv_cnt out = None.
Proof.
  exists [[1]; [2]; [3]]%N, 1%N, [([[1]; [2]; [3]]%N, [])], [[0; 1; 2]]. eexists.
  split; [repeat constructor; cbn; intuition discriminate|]. split; [reflexivity|]. split; [reflexivity|].
  split; [reflexivity|]. split; [vm_compute; reflexivity|]. split; reflexivity.
Qed.
Print Assumptions C77_equal_inputs_refuted.

(** A batch size that is a positive multiple of 2^32 is cut to 0 on the way to the
    cache's reader, so no index is restored and every row of the receiver's output
    names its row 0. *)
Theorem C77_batch_size_refuted :
  exists (rp sp : list (list bytes * dupmap)) shufs bsz out,
    good_provider rp /\ good_provider sp /\ good_shuffles rp shufs /\ NoDup (map fst (sent rp)) /\
    (0 < bsz < 2 ^ 64)%N /\ u32 bsz = 0%N /\
    toy_run false (toy_info [] 0) (toy_info [] 0) 7 false bsz rp sp shufs = Ok out /\
    length (to_recv out) = length (common_rows (sent rp) (sent sp)) /\
    ~ NoDup (map fst (to_recv out)).
Proof.
  exists ex_rp, ex_sp, [[1; 0]; [0]], 4294967296%N. eexists.
  destruct C77_example as (_ & H1 & H2 & H3 & H4 & _).
  split; [exact H1|]. split; [exact H2|]. split; [exact H3|]. split; [exact H4|].
  split; [split; reflexivity|]. split; [reflexivity|].
  split; [vm_compute; reflexivity|]. split; [reflexivity|].
  cbn. intros N. inversion N as [|? ? N1 N2]; subst. apply N1. left. reflexivity.
Qed.
Print Assumptions C77_batch_size_refuted.

(** C78.  Over all outcomes of the shuffles (each equally likely), the messages the
    sender returns are the same, with the same multiplicities, for every order of the
    receiver's items within each batch: the reply does not say which item of a batch
    a doubly masked value belongs to. *)
Theorem C78_order_hidden_partial :
  forall (Point : Type) (hash_point : bytes -> Point) (mask : bool -> Point -> Point)
         (ser : Point -> bytes) (deser : bytes -> Point) (dual_mask_size L : nat),
  let reply broadcast rp sh :=
    omap snd (thr_shuffle_peer Point mask ser deser dual_mask_size 0 0
                (thr_mask_self Point hash_point mask ser true broadcast 0 rp) sh) in
  (forall x, deser (ser x) = x) -> (forall x, length (ser x) = L) ->
  (forall x, mask true (mask false x) = mask false (mask true x)) ->
  forall b1 b2 rp1 rp2 Ps,
  good_provider rp1 -> good_provider rp2 ->
  Forall2 (fun x y : list bytes * dupmap => Permutation (fst x) (fst y)) rp1 rp2 ->
  Forall2 (fun (b : list bytes * dupmap) P => all_arrangements (length (fst b)) P) rp1 Ps ->
  Permutation (map (reply b1 rp1) (choices Ps)) (map (reply b2 rp2) (choices Ps)) /\
  Forall (fun sh => exists ms, reply b1 rp1 sh = Ok ms) (choices Ps).
Proof.
  intros P hp mask ser deser dms L reply D1 D2 D3. exact (reply_hidden P hp mask ser deser dms L 1 D1 D2 D3 Nat.lt_0_1).
Qed.
Print Assumptions C78_order_hidden_partial.

Example C78_example :
  all_arrangements 2 [[0; 1]; [1; 0]] /\
  (let reply broadcast rp sh :=
     omap snd (thr_shuffle_peer Byte.byte toy_mask toy_ser toy_deser 1 0 0
                 (thr_mask_self Byte.byte toy_hash_point toy_mask toy_ser true broadcast 0 rp) sh) in
   map (reply true [([[1]; [2]]%N, [(0, 3%N)])]) (choices [[[0; 1]; [1; 0]]]) =
     [Ok [mk_msg false 2 0 [9; 10]%N []; mk_msg true 0 1 [] []]; Ok [mk_msg false 2 0 [10; 9]%N []; mk_msg true 0 1 [] []]] /\
   map (reply true [([[2]; [1]]%N, [])]) (choices [[[0; 1]; [1; 0]]]) =
     [Ok [mk_msg false 2 0 [10; 9]%N []; mk_msg true 0 1 [] []]; Ok [mk_msg false 2 0 [9; 10]%N []; mk_msg true 0 1 [] []]]).
Proof.
  split.
  - split; [repeat constructor; cbn; intuition discriminate|]. intros s. split.
    + cbn. intros [<-|[<-|[]]]; [constructor; constructor; constructor|apply perm_swap].
    + intros P. apply Permutation_sym, Permutation_length_2_inv in P. cbn. destruct P as [->| ->]; auto.
  - vm_compute. auto.
Qed.

(** Full statement: beyond the selected keys the receiver cannot tell which of its
    items are shared.  The shuffle stays inside a batch, so for items that are alone
    in their batch it hides nothing: what the receiver holds before any index is
    restored gives it the whole intersection, whatever the threshold. *)
Theorem C78_single_item_batches :
  forall (Point : Type) (hash_point : bytes -> Point) (mask : bool -> Point -> Point)
         (ser : Point -> bytes) (deser : bytes -> Point) (dual_mask_size L : nat),
  let dual x := last_bytes dual_mask_size (ser (mask false (mask true (hash_point x)))) in
  (forall x, deser (ser x) = x) -> (forall x, length (ser x) = L) ->
  (forall x, mask true (mask false x) = mask false (mask true x)) ->
  forall broadcast rp sp sh,
  good_provider rp -> good_provider sp -> good_shuffles rp sh -> Forall (fun b => length (fst b) = 1) rp ->
  (forall x y, In x (map fst (sent rp)) -> In y (map fst (sent sp)) -> dual y = dual x -> y = x) ->
  exists cache self peer,
    thr_online Point hash_point mask ser deser dual_mask_size broadcast rp sp sh = Ok (cache, self, peer) /\
    matches self peer = matches (sent rp) (sent sp).
Proof. exact single_reveal. Qed.
Print Assumptions C78_single_item_batches.

Theorem C78_beyond_threshold_refuted :
  exists (rp sp : list (list bytes * dupmap)) (th : N),
    good_provider rp /\ good_provider sp /\ (0 < th < N.of_nat (length (matches (sent rp) (sent sp))))%N /\
    forall sh, good_shuffles rp sh ->
    exists cache self peer out,
      thr_online Byte.byte toy_hash_point toy_mask toy_ser toy_deser 1 false rp sp sh = Ok (cache, self, peer) /\
      toy_run false (toy_info [] 0) (toy_info [] 0) th false 4096 rp sp sh = Ok out /\
      N.of_nat (length (to_recv out)) = th /\
      matches self peer = matches (sent rp) (sent sp).
Proof.
  exists [([[1]]%N, []); ([[2]]%N, []); ([[3]]%N, [])], ex_sp, 1%N.
  split; [repeat constructor; try discriminate|].
  split; [apply C77_example|]. split; [vm_compute; auto|].
  intros sh H. inversion H as [|? s1 ? sh1 P1 H1]; subst. inversion H1 as [|? s2 ? sh2 P2 H2]; subst.
  inversion H2 as [|? s3 ? sh3 P3 H3]; subst. inversion H3; subst. cbn in P1, P2, P3.
  apply Permutation_sym, Permutation_length_1_inv in P1. apply Permutation_sym, Permutation_length_1_inv in P2.
  apply Permutation_sym, Permutation_length_1_inv in P3. subst.
  eexists _, _, _, _. split; [vm_compute; reflexivity|]. split; [vm_compute; reflexivity|]. split; reflexivity.
Qed.
Print Assumptions C78_beyond_threshold_refuted.
