(** Properties C10-C13: two-party ECDH PSI. *)
From Coq Require Import List NArith Lia Bool Permutation Arith.
From Coq Require Strings.Byte.
From Verif Require Import Base Text StoreModel StoreSpec EcdhModel EcdhSpec EcdhProofs2.
Import ListNotations.

(** C10.  [pb p] are the batches (item, count) party p's provider returns; both
    parties may cut their items differently.  [dual p x] is the transmitted
    doubly masked form of p's item x.  A party entitled to the result ends, in
    the in-memory branch, with [matches own peer]: its positions present at the
    peer, in order, with the peer's count. *)
Theorem C10_two_party_exact :
  forall (Point : Type) (hash_point : bytes -> Point) (mask : bool -> Point -> Point)
         (ser : Point -> bytes) (deser : bytes -> Point) (dual_mask_size L : nat)
         (target : option bool) (window : option nat) (pb : bool -> list (list (bytes * N))),
  let dual p x := last_bytes dual_mask_size (ser (mask (negb p) (mask p (hash_point x)))) in
  (forall x, deser (ser x) = x) -> (forall x, length (ser x) = L) ->
  (forall p, Forall (fun b => b <> []) (pb p)) ->
  (forall x, mask true (mask false x) = mask false (mask true x)) ->
  forall tr s p,
  (forall x y, In x (map fst (concat (pb p))) -> In y (map fst (concat (pb (negb p)))) ->
     dual p y = dual p x -> y = x) ->
  Forall good_count (concat (pb (negb p))) ->
  (N.of_nat (length (concat (pb p))) < max64)%N -> (N.of_nat (length (concat (pb (negb p)))) < max64)%N ->
  runs Point hash_point mask ser deser dual_mask_size target window
       (start target (fun p => map wrap (pb p))) tr s ->
  finished s -> can_touch target p = true ->
  on_end_memory (ms_save_all ms_empty (self_store (s p))) (ms_save_all ms_empty (peer_store (s p))) =
  matches (concat (pb p)) (concat (pb (negb p))).
Proof. exact psi_exact_memory. Qed.
Print Assumptions C10_two_party_exact.

(** The bucketed branch gives the same pairs, for every number of bins. *)
Theorem C10_two_party_exact_bins :
  forall (Point : Type) (hash_point : bytes -> Point) (mask : bool -> Point -> Point)
         (ser : Point -> bytes) (deser : bytes -> Point) (dual_mask_size L : nat)
         (target : option bool) (window : option nat) (pb : bool -> list (list (bytes * N))),
  let dual p x := last_bytes dual_mask_size (ser (mask (negb p) (mask p (hash_point x)))) in
  (forall x, deser (ser x) = x) -> (forall x, length (ser x) = L) ->
  (forall p, Forall (fun b => b <> []) (pb p)) ->
  (forall x, mask true (mask false x) = mask false (mask true x)) ->
  forall (hash : bytes -> N) num tr s p,
  (forall x, Forall is_byte (ser x)) -> 0 < num ->
  (forall x y, In x (map fst (concat (pb p))) -> In y (map fst (concat (pb (negb p)))) ->
     dual p y = dual p x -> y = x) ->
  Forall good_count (concat (pb (negb p))) ->
  (N.of_nat (length (concat (pb p))) < max64)%N -> (N.of_nat (length (concat (pb (negb p)))) < max64)%N ->
  runs Point hash_point mask ser deser dual_mask_size target window
       (start target (fun p => map wrap (pb p))) tr s ->
  finished s -> can_touch target p = true ->
  exists cs cp m,
    omap (fun c => hb_write_all hash c (self_store (s p))) (hb_open [] num) = Ok cs /\
    omap (fun c => hb_write_all hash c (peer_store (s p))) (hb_open [] num) = Ok cp /\
    on_end_bins cs cp = Ok m /\
    Permutation m (matches (concat (pb p)) (concat (pb (negb p)))).
Proof. exact psi_exact_bins. Qed.
Print Assumptions C10_two_party_exact_bins.

(** RunEcdhPsi returning items: the own items the peer also has, in order, for an
    entitled party; nothing for the other one. *)
Theorem C10_in_memory_items :
  forall (Point : Type) (hash_point : bytes -> Point) (mask : bool -> Point -> Point)
         (ser : Point -> bytes) (deser : bytes -> Point) (dual_mask_size L : nat)
         (target : option bool) (window : option nat) (pb : bool -> list (list (bytes * N))),
  let dual p x := last_bytes dual_mask_size (ser (mask (negb p) (mask p (hash_point x)))) in
  (forall x, deser (ser x) = x) -> (forall x, length (ser x) = L) ->
  (forall p, Forall (fun b => b <> []) (pb p)) ->
  (forall x, mask true (mask false x) = mask false (mask true x)) ->
  forall tr s p,
  (forall x y, In x (map fst (concat (pb p))) -> In y (map fst (concat (pb (negb p)))) ->
     dual p y = dual p x -> y = x) ->
  runs Point hash_point mask ser deser dual_mask_size target window
       (start target (fun p => map wrap (pb p))) tr s ->
  finished s ->
  in_memory_result (map fst (concat (pb p))) (map fst (peer_store (s p))) (map fst (self_store (s p))) =
  Ok (if can_touch target p
      then filter (fun x => existsb (beqb x) (map fst (concat (pb (negb p))))) (map fst (concat (pb p)))
      else []).
Proof. exact psi_exact_items. Qed.
Print Assumptions C10_in_memory_items.

(** What [matches] says when the peer's items are distinct (as its key summary
    makes them): each position once, and exactly the common items with the peer's
    count. *)
Theorem C10_result_meaning :
  forall self peer, NoDup (map fst peer) ->
  NoDup (map fst (matches self peer)) /\
  forall i c, In (i, c) (matches self peer) <->
     exists x d, nth_error self (N.to_nat i) = Some (x, d) /\ In (x, c) peer.
Proof. exact matches_meaning. Qed.
Print Assumptions C10_result_meaning.

(** C11.  In every state reachable by any interleaving: no activity can fail, the
    run is finished or some activity can move (for every throttle window of at
    least one message), and runs have bounded length. *)
Theorem C11_no_failure_no_deadlock :
  forall (Point : Type) (hash_point : bytes -> Point) (mask : bool -> Point -> Point)
         (ser : Point -> bytes) (deser : bytes -> Point) (dual_mask_size L : nat)
         (target : option bool) (window : option nat) (pb : bool -> list (list (bytes * N))),
  (forall x, deser (ser x) = x) -> (forall x, length (ser x) = L) ->
  match window with Some w => 0 < w | None => True end ->
  (forall p, Forall (fun b => b <> []) (pb p)) ->
  forall tr s,
  runs Point hash_point mask ser deser dual_mask_size target window
       (start target (fun p => map wrap (pb p))) tr s ->
  (forall p a, step Point hash_point mask ser deser dual_mask_size target window p a s <> SFail) /\
  (finished s \/ exists p a s', step Point hash_point mask ser deser dual_mask_size target window p a s = SNext s') /\
  length tr <= 8 + 4 * (length (pb true) + length (pb false)).
Proof. exact sched_safe. Qed.
Print Assumptions C11_no_failure_no_deadlock.

(** All finished runs end in the same state, and there is one. *)
Theorem C11_schedule_independent :
  forall (Point : Type) (hash_point : bytes -> Point) (mask : bool -> Point -> Point)
         (ser : Point -> bytes) (deser : bytes -> Point) (dual_mask_size L : nat)
         (target : option bool) (window : option nat) (pb : bool -> list (list (bytes * N))),
  (forall x, deser (ser x) = x) -> (forall x, length (ser x) = L) ->
  (forall p, Forall (fun b => b <> []) (pb p)) ->
  forall tr1 s1 tr2 s2,
  runs Point hash_point mask ser deser dual_mask_size target window
       (start target (fun p => map wrap (pb p))) tr1 s1 ->
  runs Point hash_point mask ser deser dual_mask_size target window
       (start target (fun p => map wrap (pb p))) tr2 s2 ->
  finished s1 -> finished s2 -> forall p, s1 p = s2 p.
Proof. exact sched_unique. Qed.
Print Assumptions C11_schedule_independent.

Theorem C11_finished_run_exists :
  forall (Point : Type) (hash_point : bytes -> Point) (mask : bool -> Point -> Point)
         (ser : Point -> bytes) (deser : bytes -> Point) (dual_mask_size L : nat)
         (target : option bool) (window : option nat) (pb : bool -> list (list (bytes * N))),
  (forall x, deser (ser x) = x) -> (forall x, length (ser x) = L) ->
  match window with Some w => 0 < w | None => True end ->
  (forall p, Forall (fun b => b <> []) (pb p)) ->
  exists tr s,
  runs Point hash_point mask ser deser dual_mask_size target window
       (start target (fun p => map wrap (pb p))) tr s /\ finished s.
Proof. exact sched_finishes. Qed.
Print Assumptions C11_finished_run_exists.

(** C12.  In every reachable state (hence at every moment of every run) a party
    not entitled to the result has empty stores, no doubly masked message is on
    its way to it, and the messages to it carry no duplicate counts. *)
Theorem C12_outsider_gets_nothing :
  forall (Point : Type) (hash_point : bytes -> Point) (mask : bool -> Point -> Point)
         (ser : Point -> bytes) (deser : bytes -> Point) (dual_mask_size L : nat)
         (target : option bool) (window : option nat) (pb : bool -> list (list (bytes * N))),
  (forall x, deser (ser x) = x) -> (forall x, length (ser x) = L) ->
  (forall p, Forall (fun b => b <> []) (pb p)) ->
  forall tr s p,
  runs Point hash_point mask ser deser dual_mask_size target window
       (start target (fun p => map wrap (pb p))) tr s ->
  can_touch target p = false ->
  self_store (s p) = [] /\ peer_store (s p) = [] /\ out_dual (s (negb p)) = [] /\
  Forall (fun m => m_dup m = []) (out_main (s (negb p))).
Proof. exact sched_outsider. Qed.
Print Assumptions C12_outsider_gets_nothing.

(** A toy group: points are bytes, masking adds 3 or 5 modulo 256. *)
Definition toy_of_n (n : N) : Byte.byte :=
  match Byte.of_N (n mod 256) with Some b => b | None => Byte.x00 end.
Definition toy_hash_point (x : bytes) : Byte.byte := toy_of_n (fold_right N.add 0%N x).
Definition toy_mask (p : bool) (x : Byte.byte) : Byte.byte := toy_of_n (Byte.to_N x + if p then 3 else 5)%N.
Definition toy_ser (x : Byte.byte) : bytes := [7%N; Byte.to_N x].
Definition toy_deser (b : bytes) : Byte.byte := match b with [_; x] => toy_of_n x | _ => Byte.x00 end.
Fixpoint toy_exec (w : option nat) (t : option bool) (s : system) (tr : list (bool * activity)) : option system :=
  match tr with
  | [] => Some s
  | (p, a) :: r =>
    match step Byte.byte toy_hash_point toy_mask toy_ser toy_deser 1 t w p a s with
    | SNext s' => toy_exec w t s' r
    | _ => None
    end
  end.
Definition toy_pb (p : bool) : list (list (bytes * N)) :=
  if p then [[([1], 1); ([2; 2], 3)]; [([9], 1)]]%N else [[([9], 2)]; [([1], 7)]; [([8], 1)]]%N.
(** One party runs ahead as far as the window of two messages lets it. *)
Definition toy_schedule : list (bool * activity) :=
  let mp p := [(p, MaskPeerRecv); (p, MaskPeerSend)] in
  [(true, MaskSelf); (true, MaskSelf)] ++ mp false ++ [(false, MaskSelf)] ++ mp false ++ mp true ++
  [(true, MaskSelf); (true, RecvDual); (true, RecvDual)] ++ mp false ++ [(true, RecvDual); (false, RecvDual)] ++
  [(false, MaskSelf)] ++ mp true ++ [(false, RecvDual); (false, MaskSelf)] ++ mp true ++
  [(false, RecvDual); (false, MaskSelf)] ++ mp true ++ [(false, RecvDual)].


(** The hypotheses hold for the toy group and the schedule above is a finished
    run with the expected results on both sides. *)
Example C10_C11_example :
  (forall x, toy_deser (toy_ser x) = x) /\ (forall x, length (toy_ser x) = 2) /\
  (forall x, toy_mask true (toy_mask false x) = toy_mask false (toy_mask true x)) /\
  (forall x, Forall is_byte (toy_ser x)) /\
  match toy_exec (Some 2) None (start None (fun p => map wrap (toy_pb p))) toy_schedule with
  | None => False
  | Some s =>
    (forall p, ms_done (s p) = true /\ mp_done (s p) = true /\ rd_done (s p) = true) /\
    on_end_memory (ms_save_all ms_empty (self_store (s true))) (ms_save_all ms_empty (peer_store (s true))) =
      [(0, 7); (2, 2)]%N /\
    on_end_memory (ms_save_all ms_empty (self_store (s false))) (ms_save_all ms_empty (peer_store (s false))) =
      [(0, 1); (1, 1)]%N
  end /\
  Forall good_count (concat (toy_pb false)).
Proof.
  split; [intros []; reflexivity|]. split; [reflexivity|]. split; [intros []; reflexivity|].
  split; [intros []; repeat constructor; reflexivity|]. split.
  - vm_compute. split; [intros []; auto|]. auto.
  - repeat constructor; cbn; try lia; reflexivity.
Qed.

(** Target rank: only party [true] gets the result. *)
Example C12_example :
  can_touch (Some true) false = false /\
  match toy_exec None (Some true) (start (Some true) (fun p => map wrap (toy_pb p)))
     [(true, MaskSelf); (false, MaskSelf); (false, MaskPeerRecv); (false, MaskPeerSend);
      (true, MaskPeerRecv); (true, MaskPeerSend); (true, RecvDual)] with
  | None => False
  | Some s => length (self_store (s true)) = 2 /\ length (peer_store (s true)) = 1 /\
              self_store (s false) = [] /\ peer_store (s false) = []
  end.
Proof. vm_compute. auto. Qed.

(** C13.  Full statement: for all batches and all resume positions k the pairs
    sent after the restart are the remaining ones,
      skip_processed (map wrap pb) k = Ok bs' -> sent bs' = skipn k (sent (map wrap pb)).
    False of the code: the counts of a batch that straddles k are not shifted. *)
Theorem C13_resume_counts_refuted :
  exists (pb : list (list (bytes * N))) k bs',
    Forall (fun b => b <> []) pb /\ Forall good_count (concat pb) /\
    NoDup (map fst (concat pb)) /\
    skip_processed (map wrap pb) k = Ok bs' /\
    sent bs' <> skipn k (sent (map wrap pb)).
Proof. exact resume_witness. Qed.
Print Assumptions C13_resume_counts_refuted.

(** What holds for every resume position: the remaining items are sent, once and
    in order (a position beyond the input raises), and with the right counts when
    the position is at the end of a batch or the batch it falls into has no
    repeated items.  Missing: the counts when the position is inside a batch
    with repeated items; what is sent then is described exactly. *)
Theorem C13_resume_partial :
  (forall bs k, Forall (fun b : list bytes * dupmap => fst b <> []) bs ->
     if Nat.leb k (length (concat (map fst bs))) then
       exists bs', skip_processed bs k = Ok bs' /\
         map fst (sent bs') = skipn k (map fst (sent bs)) /\ Forall (fun b => fst b <> []) bs'
     else skip_processed bs k = Throw) /\
  (forall pre post, Forall (fun b : list bytes * dupmap => fst b <> []) pre ->
     exists bs', skip_processed (pre ++ post) (length (concat (map fst pre))) = Ok bs' /\
       sent bs' = skipn (length (concat (map fst pre))) (sent (pre ++ post))) /\
  (forall pre b post j, Forall (fun b : list bytes * dupmap => fst b <> []) pre -> 0 < j < length b ->
     exists bs', skip_processed (pre ++ (b, []) :: post) (length (concat (map fst pre)) + j) = Ok bs' /\
       sent bs' = skipn (length (concat (map fst pre)) + j) (sent (pre ++ (b, []) :: post))) /\
  (forall pre b d post j, Forall (fun b : list bytes * dupmap => fst b <> []) pre -> 0 < j < length b ->
     exists bs', skip_processed (pre ++ (b, d) :: post) (length (concat (map fst pre)) + j) = Ok bs' /\
       sent bs' = map (fun ix => (snd ix, dup_at d (fst ix))) (number 0 (skipn j b)) ++ sent post).
Proof. exact resume_all. Qed.
Print Assumptions C13_resume_partial.

(** Items a,b,c,d with counts 1,4,1,1 in one batch, resumed after item a: b
    should be sent with 3 extra copies, but c is. *)
Example C13_example :
  let pb := [[([97], 1); ([98], 4); ([99], 1); ([100], 1)]]%N in
  omap sent (skip_processed (map wrap pb) 1) = Ok [([98], 0); ([99], 3); ([100], 0)]%N /\
  skipn 1 (sent (map wrap pb)) = [([98], 3); ([99], 0); ([100], 0)]%N.
Proof. vm_compute. auto. Qed.
