(** Model of the operator framework: psi/algorithm/psi_operator.{h,cc} and its
    three operators kkrt/kkrt_operator.cc, rr22/rr22_operator.cc and (choice of the
    stores only) ecdh/ecdh_operator.cc.

    Both parties are modelled at once, rank 0 first.  SyncWait is transparent here
    (it is the subject of C33); a call that raises at one party is an exception of
    the whole run.  The caches and files of a store are lists. *)
From Coq Require Import List NArith Bool Arith.
From Verif Require Import Base Text StoreModel CuckooModel SyncModel KkrtModel.
Import ListNotations.
Local Open Scope N_scope.

(** PsiItemData (psi_io.h 32-35): buf, cnt. *)
Notation pitem := (bytes * N)%type.
(** PsiResultIndex (psi_io.h 27-30): data, peer_item_cnt. *)
Notation pres := (nat * N)%type.

(* ------------------------------------------------------------------ *)
(** * BroadcastIntersection (psi_operator.cc 24-64) *)

(** The items a party with results offers (32-38); [i] is the loop index.  An
    index outside the inputs is read past the end of a vector. *)
Fixpoint op_offer (inputs : list pitem) (i : nat) (inter : list pres) : outcome (list bytes * dupcnt) :=
  match inter with
  | [] => Ok ([], [])
  | (idx, _) :: r =>
    match nth_error inputs idx with
    | None => UB
    | Some (buf, cnt) =>
      do m <- op_offer inputs (S i) r;
      Ok (buf :: fst m, if 1 <? cnt then (N.of_nat i, cnt) :: snd m else snd m)
    end
  end.

(** data_index_map (46-49): a later position of the same item replaces the earlier. *)
Fixpoint last_index (l : list bytes) (i : nat) (x : bytes) : option nat :=
  match l with
  | [] => None
  | y :: r =>
    match last_index r (S i) x with
    | Some j => Some j
    | None => if beqb y x then Some i else None
    end
  end.

(** The other party's loop over its inputs (50-61); peer_item_cnt is 1 by default
    (psi_io.h 29). *)
Fixpoint op_adopt (inputs : list pitem) (i : nat) (held : list bytes * dupcnt) : list pres :=
  match inputs with
  | [] => []
  | (buf, _) :: r =>
    match last_index (fst held) 0 buf with
    | Some j => (i, match dup_get (snd held) (N.of_nat j) with Some c => c | None => 1 end) :: op_adopt r (S i) held
    | None => op_adopt r (S i) held
    end
  end.

(** What a party holds after the call: who has results keeps them (29, 40-62). *)
Definition op_after (inputs : list pitem) (inter : list pres) (held : list bytes * dupcnt) : list pres :=
  match inter with [] => op_adopt inputs 0 held | _ => inter end.

Definition op_broadcast (in0 in1 : list pitem) (r : list pres * list pres) : outcome (list pres * list pres) :=
  do o0 <- op_offer in0 0 (fst r);
  do o1 <- op_offer in1 0 (snd r);
  do held <- broadcast_result [o0; o1];
  match held with
  | [h0; h1] => Ok (op_after in0 (fst r) h0, op_after in1 (snd r) h1)
  | _ => UB
  end.

(* ------------------------------------------------------------------ *)
(** * OnSequenceRun (psi_operator.cc 100-134) *)

Section Sequence.
  (** OnRun of both parties on bucket k. *)
  Context (core : nat -> list pitem -> list pitem -> outcome (list pres * list pres))
          (bcast get0 get1 : bool).   (* broadcast_result_; ReceiveResult() of each party *)

  (** The body of the loop (113-128): what each party adds to its output. *)
  Definition op_bucket (k : nat) (in0 in1 : list pitem) : outcome (list pres * list pres) :=
    do r <- core k in0 in1;
    do r' <- (if bcast then op_broadcast in0 in1 r else Ok r);
    Ok (if get0 then fst r' else [], if get1 then snd r' else []).

  (** The loop, from bucket k on.  A party with buckets left waits for a peer that
      has none. *)
  Fixpoint op_loop (k : nat) (bs0 bs1 : list (list pitem)) : outcome (list (list pres * list pres)) :=
    match bs0, bs1 with
    | [], [] => Ok []
    | x :: r0, y :: r1 =>
      do o <- op_bucket k x y;
      do os <- op_loop (S k) r0 r1;
      Ok (o :: os)
    | _, _ => Diverge
    end.

  (** From the first bucket not finished by both parties (103-107, 109); [None]: no
      recovery manager.  The test is !=, so a count beyond the last bucket loads
      buckets that do not exist. *)
  Definition op_start (parsed : option (nat * nat)) : nat :=
    match parsed with None => 0%nat | Some (mine, peer) => Nat.min peer mine end.
  Definition op_run (parsed : option (nat * nat)) (bs0 bs1 : list (list pitem)) : outcome (list (list pres * list pres)) :=
    let st := op_start parsed in
    if (Nat.ltb (length bs0) st || Nat.ltb (length bs1) st)%bool then UB
    else op_loop st (skipn st bs0) (skipn st bs1).
End Sequence.

(* ------------------------------------------------------------------ *)
(** * KkrtOperator (kkrt_operator.cc 31-33, 45-72) *)

(** What KKRT uses on one bucket (see KkrtModel.v). *)
Record kkrt_env := mk_ke {
  ke_oprf : N -> N -> bytes; ke_esz : nat; ke_opts : ck_opts; ke_ot : nat; ke_psi : nat;
  ke_perm : list nat; ke_fill : nat -> nat -> bytes; ke_garbage : nat -> bytes; ke_arr : nat -> N }.

Section KkrtOp.
  Context (blake : bytes -> N)          (* yacl::crypto::Blake3_128 *)
          (env : nat -> kkrt_env)       (* per bucket *)
          (fuel : nat)                  (* of the sender's encoding loop *)
          (recv_first : bool).          (* receiver_rank is 0 *)

  (** The receiver's and the sender's OnRun; an empty set is refused on either side
      (kkrt_psi.cc 326-328 and the same check of KkrtPsiSend). *)
  Definition kkrt_two (k : nat) (rin sin : list pitem) : outcome (list pres) :=
    enforce (negb (Nat.eqb (length rin) 0) && negb (Nat.eqb (length sin) 0))
      (let e := env k in
       let codes := map (fun x => blake (fst x)) rin in
       let items := map (fun x => (blake (fst x), snd x)) sin in
       do bs <- kkrt_send (ke_oprf e) (ko_bins (ke_opts e)) (ke_ot e) (ke_psi e) (ke_perm e)
                  (ke_fill e) (ke_garbage e) (ke_arr e) items fuel;
       do res <- kkrt_recv_indices (ke_oprf e) (ke_esz e) (ke_opts e) codes bs;
       Ok (map (fun p => (N.to_nat (fst p), snd p)) res)).

  Definition kkrt_core (k : nat) (in0 in1 : list pitem) : outcome (list pres * list pres) :=
    if recv_first then do r <- kkrt_two k in0 in1; Ok (r, [])
    else do r <- kkrt_two k in1 in0; Ok ([], r).

  (** KkrtOperator has no recovery manager (26-27). *)
  Definition kkrt_op_run (bcast : bool) (bs0 bs1 : list (list pitem)) : outcome (list (list pres * list pres)) :=
    op_run kkrt_core bcast (recv_first || bcast) (negb recv_first || bcast) None bs0 bs1.
End KkrtOp.

(* ------------------------------------------------------------------ *)
(** * Rr22Operator (rr22_operator.cc 34-64) *)

(** pre_process_func: the items of a bucket (41-46). *)
Fixpoint rr_pre (i : nat) (l : list pitem) : list bitem :=
  match l with
  | [] => []
  | (buf, cnt) :: r => mk_bitem (N.of_nat i) (u32 (cnt + max32 - 1)) buf :: rr_pre (S i) r
  end.

(** post_process_func: what is added to the output (57-63). *)
Fixpoint rr_post (items : list bitem) (res : list (nat * N)) : outcome (list (N * N)) :=
  match res with
  | [] => Ok []
  | (j, d) :: r =>
    match nth_error items j with
    | None => UB
    | Some it => do m <- rr_post items r; Ok ((b_index it, u32 (d + 1)) :: m)
    end
  end.

(* ------------------------------------------------------------------ *)
(** * EcdhOperator: which stores OnInit makes (81-103) and OnEnd expects (113-154) *)

Inductive point_store := InMemory | InBins.
Definition ecdh_op_init (recovery : bool) (bin_size : N) : point_store :=
  if recovery then InBins else if 1 <? bin_size then InBins else InMemory.
(** The casts of OnEnd and the checks of their results; the branch taken. *)
Definition ecdh_op_end (bin_size : N) (st : point_store) : outcome point_store :=
  if 1 <? bin_size then match st with InBins => Ok InBins | InMemory => Throw end
  else match st with InMemory => Ok InMemory | InBins => Throw end.
(** Init, Run and End without other failures. *)
Definition ecdh_op_stores (recovery : bool) (bin_size : N) : outcome point_store :=
  ecdh_op_end bin_size (ecdh_op_init recovery bin_size).
