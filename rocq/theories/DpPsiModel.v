(** Model of the differentially private two-party PSI: psi/legacy/dp_psi/dp_psi.{h,cc} and
    DpPsiOperator::OnRun of psi/legacy/dp_2party_psi.cc.

    Every activity is a function from the messages it receives to the messages it sends, as in
    [Ecdh3pcModel].  The random choices are arguments: the shuffled order of the receiver's rows
    and three streams of coins, one per call of BernoulliSamples.  That the coins come from a
    std::mt19937 seeded with a random number and thrown by std::bernoulli_distribution is not
    represented.  The receiver of the protocol is "bob" in the code, the other party "alice".
    Simplified: an index travels as a number and not as its eight bytes, so the check that a
    batch is a multiple of eight bytes long is left out; the messages of the std::async
    activities are not interleaved. *)
From Coq Require Import List NArith Bool Arith.
From Verif Require Import Base Text StoreModel EcdhModel Ecdh3pcModel.
Import ListNotations.

(** std::sort on a vector of size_t (189, 306). *)
Fixpoint dp_insert (x : nat) (l : list nat) : list nat :=
  match l with
  | [] => [x]
  | y :: r => if Nat.leb x y then x :: l else y :: dp_insert x r
  end.
Fixpoint dp_sort (l : list nat) : list nat :=
  match l with
  | [] => []
  | x :: r => dp_insert x (dp_sort r)
  end.

(** BernoulliSamples on indices (43-65): the [k]-th coin decides about the [k]-th element. *)
Fixpoint dp_samples {A : Type} (coin : nat -> bool) (k : nat) (l : list A) : list A :=
  match l with
  | [] => []
  | x :: r => if coin k then x :: dp_samples coin (S k) r else dp_samples coin (S k) r
  end.

(** BernoulliSamples on the receiver's rows (67-92): rows in shuffled order, with their positions. *)
Definition dp_bob_samples (coin : nat -> bool) (shuffled : list nat) (items : list bytes)
  : list bytes * list nat :=
  let idx := dp_samples coin 0 (firstn (length items) shuffled) in
  (map (fun i => nth i items []) idx, idx).

(** The loop of RunDpEcdhPsiAlice that splits the positions (154-163); std::binary_search in a
    sorted vector is membership. *)
Fixpoint dp_split (self_dual_mask : list bytes) (index : nat) (peer_result : list bytes)
  : list nat * list nat :=
  match peer_result with
  | [] => ([], [])
  | c :: r =>
      let (inter, non) := dp_split self_dual_mask (S index) r in
      if existsb (beqb c) self_dual_mask then (index :: inter, non) else (inter, index :: non)
  end.

(** What RunDpEcdhPsiAlice does with the two vectors (164-190, 219): the indices it sends, its
    return value, and *sub_sample_size and *up_sample_size, which keep the 0 of the caller
    (dp_2party_psi.cc 43-44) on the early return. *)
Record dp_alice_out := { da_sent : list nat; da_return : nat; da_sub : nat; da_up : nat }.
Definition dp_alice_choose (c2 cq : nat -> bool) (inter non : list nat) : dp_alice_out :=
  match non with
  | [] => {| da_sent := []; da_return := 0; da_sub := 0; da_up := 0 |}
  | _ =>
      let sub := dp_samples c2 0 inter in
      let up := dp_samples cq 0 non in
      let all := dp_sort (sub ++ up) in
      {| da_sent := all; da_return := length all;
         da_sub := length inter - length sub; da_up := length up |}
  end.

(** The batches of indices (199-217), each with is_last_batch. *)
Fixpoint dp_send_loop (fuel batch : nat) (idx : nat) (all : list nat) : list (bool * list nat) :=
  match fuel with
  | O => []
  | S f =>
      if Nat.ltb idx (length all) then
        (if Nat.ltb (idx + batch) (length all)
         then (false, firstn batch (skipn idx all))
         else (true, firstn (length all - idx) (skipn idx all)))
        :: dp_send_loop f batch (idx + batch) all
      else []
  end.
Definition dp_send (batch : nat) (all : list nat) : list (bool * list nat) :=
  dp_send_loop (length all) batch 0 all.

(** The receiving loop of RunDpEcdhPsiBob (277-299): [got] are the words written so far.  A
    memcpy beyond the vector of the announced size is undefined behaviour; words not written
    stay 0. *)
Fixpoint dp_recv_loop (size : nat) (got : list nat) (ms : list (bool * list nat)) : outcome (list nat) :=
  match ms with
  | [] => Diverge
  | (last, ws) :: r =>
      let got' := got ++ ws in
      if Nat.ltb size (length got') then UB
      else if last then Ok (got' ++ repeat 0 (size - length got'))
      else dp_recv_loop size got' r
  end.
Definition dp_recv (size : nat) (ms : list (bool * list nat)) : outcome (list nat) :=
  if Nat.eqb size 0 then Ok [] else dp_recv_loop size [] ms.

(** sub_sample_result.second[idx] (301-305); an index out of range is undefined behaviour. *)
Fixpoint dp_lookup (second : list nat) (idx : list nat) : outcome (list nat) :=
  match idx with
  | [] => Ok []
  | i :: r =>
      match nth_error second i with
      | None => UB
      | Some j => do rest <- dp_lookup second r; Ok (j :: rest)
      end
  end.

Section DpRun.
Variable Point : Type.
Variable hash_point : bytes -> Point.
Variable mask : nat -> Point -> Point.       (* EccMask with the key of a party: 0 alice, 1 bob *)
Variable ser : Point -> bytes.
Variable deser : bytes -> Point.
Variable dual_mask_size : nat.               (* EcdhPsiOptions::dual_mask_size *)
Variable bsz : nat.                          (* kEcdhPsiBatchSize *)
Variable idx_batch : nat.                    (* kSendBatchSize *)
Variable srt : list bytes -> list bytes.     (* std::sort *)

(** MaskPeer into a MemoryEcPointStore (ecdh_psi.cc 150-184): target_rank is the party's own
    rank (126, 247), so the dual masks are kept, in order, and not sent. *)
Definition dp_mask_peer (rank : nat) (ms : list msg) : outcome (list bytes) :=
  do items <- recv_items ms 0;
  Ok (map (fun it => last_bytes dual_mask_size (ser (mask rank (deser it)))) items).

(** RunDpEcdhPsiAlice (107-190) up to the indices it sends, given bob's messages: the masked
    rows and the sorted dual masks of alice's rows. *)
Definition dp_alice (c2 cq : nat -> bool) (bob_masked bob_dual : list msg) : outcome dp_alice_out :=
  do peer_result <- dp_mask_peer 0 bob_masked;
  do self_dual_mask <- recv_items bob_dual 0;
  let (inter, non) := dp_split (srt self_dual_mask) 0 peer_result in
  Ok (dp_alice_choose c2 cq inter non).

(** RunDpEcdhPsiBob (222-311): the sorted dual masks bob sends (262-269), *)
Definition dp_bob_dual (alice_masked : list msg) : outcome (list msg) :=
  do r <- dp_mask_peer 1 alice_masked; Ok (send_impl bsz (srt r)).
(** and what bob makes of alice's answer (273-310). *)
Definition dp_bob_result (second : list nat) (size : nat) (ms : list (bool * list nat)) : outcome (list nat) :=
  do idx <- dp_recv size ms;
  do js <- dp_lookup second idx;
  Ok (dp_sort js).

(** DpPsiOperator::OnRun of both parties (dp_2party_psi.cc 37-63). *)
Record dp_out := { dp_alice_res : dp_alice_out; dp_bob_sub : nat; dp_bob_idx : list nat; dp_items : list bytes }.

(** What bob receives: alice's choice as a function of the random choices. *)
Definition dp_exchange (alice_items bob_sampled : list bytes) (c2 cq : nat -> bool) : outcome dp_alice_out :=
  let ma := mask_send_self Point hash_point mask ser bsz 0 alice_items in
  let mb := mask_send_self Point hash_point mask ser bsz 1 bob_sampled in
  do md <- dp_bob_dual ma;
  dp_alice c2 cq mb md.

Definition dp_run (alice_items bob_items : list bytes) (shuffled : list nat) (c1 c2 cq : nat -> bool)
  : outcome dp_out :=
  let (sampled, second) := dp_bob_samples c1 shuffled bob_items in
  do a <- dp_exchange alice_items sampled c2 cq;
  do res <- dp_bob_result second (length (da_sent a)) (dp_send idx_batch (da_sent a));
  Ok {| dp_alice_res := a; dp_bob_sub := length bob_items - length sampled; dp_bob_idx := res;
        dp_items := map (fun i => nth i bob_items []) res |}.
End DpRun.
