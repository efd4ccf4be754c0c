(** In-memory PSI: psi/legacy/memory_psi.cc with factory.h, base_operator.cc and the OnRun
    functions of the registered protocols, for all parties of a world at once.  Ranks are
    0 .. n-1.  All parties use the same configuration; the case that they do not is not
    modelled.  The protocols come from other files of this model and are passed in. *)
From Coq Require Import List NArith Bool Arith.
From Verif Require Import Base Text PirPackModel SyncModel KkrtModel OpModel NPartyModel Ecdh3pcModel DpPsiModel.
Import ListNotations.

(** MemoryPsiConfig (psi/proto/psi.proto 252-277): psi_type by its number in the enum
    PsiType (28-103).  curve_type and dppsi_params are in the protocols passed in. *)
Record mem_config := mk_mc { mc_type : N; mc_receiver : nat; mc_broadcast : bool }.

Definition t_invalid : N := 0%N.
Definition t_ecdh_2pc : N := 1%N.
Definition t_kkrt_2pc : N := 2%N.
Definition t_ecdh_3pc : N := 4%N.
Definition t_ecdh_npc : N := 5%N.
Definition t_kkrt_npc : N := 6%N.
Definition t_dp_2pc : N := 12%N.

(** MemoryPsi::CheckOptions (memory_psi.cc 31-51), in a world of [n] parties. *)
Definition check_options (c : mem_config) (n : nat) : outcome unit :=
  enforce (negb (N.eqb (mc_type c) t_invalid))
   (enforce (Nat.ltb (mc_receiver c) n)
     (if N.eqb (mc_type c) t_ecdh_3pc then enforce (Nat.eqb n 3) (Ok tt) else Ok tt)).

(** The REGISTER_OPERATOR lines: nparty_psi.cc 257-258, dp_2party_psi.cc 86,
    kkrt_2party_psi.cc 72, ecdh_3party_psi.cc 93. *)
Definition registered : list N := [t_ecdh_npc; t_kkrt_npc; t_dp_2pc; t_kkrt_2pc; t_ecdh_3pc].

(** The protocols: KkrtPsiRecv and KkrtPsiSend as indices into the receiver's items, the
    three-party run by master and rank, the tournament (over KKRT or ECDH) by world size,
    master and rank, differentially private PSI of the sender's and the receiver's items as
    indices into the latter, and whatever a two-party protocol does at a rank in a world that
    does not have two parties. *)
Record protocols := mk_protocols {
  p_kkrt : list bytes -> list bytes -> outcome (list nat);
  p_three : nat -> nat -> (nat -> list bytes) -> outcome (list bytes);
  p_many : bool -> nat -> nat -> (nat -> list bytes) -> nat -> outcome (list bytes);
  p_dp : list bytes -> list bytes -> outcome (list nat);
  p_crowd : nat -> outcome (list bytes) }.

(** inputs[index] (kkrt_2party_psi.cc 52-54, dp_2party_psi.cc 50-52). *)
Definition pick_items (items : list bytes) (idx : list nat) : outcome (list bytes) :=
  map_out (fun i => match nth_error items i with Some x => Ok x | None => UB end) idx.

(** A two-party protocol among [n] parties: with two, the one that is not the receiver is the
    sender.  With another number every party takes NextRank() for its peer (kkrt_psi.cc 54-59,
    149; dp_psi.cc 168, 274), which expects its messages from somebody else; what comes of that
    depends on the link and is left open. *)
Definition two_party (crowd : nat -> outcome (list bytes)) (f : list bytes -> list bytes -> outcome (list nat)) (n receiver rank : nat)
    (inputs : nat -> list bytes) : outcome (list bytes) :=
  if negb (Nat.eqb n 2) then crowd rank
  else if Nat.eqb rank receiver
       then do idx <- f (inputs receiver) (inputs (1 - receiver)); pick_items (inputs receiver) idx
       else do _ <- f (inputs receiver) (inputs (1 - receiver)); Ok [].

(** OnRun of the party [rank] (kkrt_2party_psi.cc 33-62, ecdh_3party_psi.cc 25-70,
    nparty_psi.cc 60-156, dp_2party_psi.cc 39-60). *)
Definition on_run (P : protocols) (c : mem_config) (n : nat) (inputs : nat -> list bytes) (rank : nat)
  : outcome (list bytes) :=
  if N.eqb (mc_type c) t_kkrt_2pc then two_party (p_crowd P) (p_kkrt P) n (mc_receiver c) rank inputs
  else if N.eqb (mc_type c) t_ecdh_3pc then p_three P (mc_receiver c) rank inputs
  else if N.eqb (mc_type c) t_ecdh_npc then p_many P false n (mc_receiver c) inputs rank
  else if N.eqb (mc_type c) t_kkrt_npc then p_many P true n (mc_receiver c) inputs rank
  else if N.eqb (mc_type c) t_dp_2pc
       then two_party (p_crowd P) (fun mine theirs => p_dp P theirs mine) n (mc_receiver c) rank inputs
  else Throw.

(** PsiBaseOperator::Run (base_operator.cc 28-37): SyncWait ends when all OnRun have ended. *)
Definition base_run (P : protocols) (c : mem_config) (inputs : list (list bytes)) : outcome (list (list bytes)) :=
  let n := length inputs in
  do rs <- map_out (on_run P c n (fun r => nth r inputs [])) (seq 0 n);
  if mc_broadcast c
  then do os <- broadcast_result (map (fun r => (r, [])) rs); Ok (map fst os)
  else Ok rs.

(** MemoryPsi::MemoryPsi and Run (memory_psi.cc 25-29, 53-78) at all parties; OperatorFactory::
    Create (factory.h 47-54) asks for the type only after the sizes have been compared. *)
Definition mem_psi (P : protocols) (c : mem_config) (inputs : list (list bytes)) : outcome (list (list bytes)) :=
  do _ <- check_options c (length inputs);
  if existsb (fun l => Nat.eqb (length l) 0) inputs then Ok (map (fun _ => []) inputs)
  else enforce (existsb (N.eqb (mc_type c)) registered) (base_run P c inputs).

(** KkrtPsiRecv and KkrtPsiSend without counts (kkrt_psi.h 78-97, 115-126): every item is sent
    with the default count, and the receiver's counts are dropped. *)
Definition mem_kkrt (blake : bytes -> N) (e : kkrt_env) (fuel : nat) (rin sin : list bytes) : outcome (list nat) :=
  do res <- kkrt_two blake (fun _ => e) fuel 0 (map (fun x => (x, 1%N)) rin) (map (fun x => (x, 1%N)) sin);
  Ok (map fst res).
