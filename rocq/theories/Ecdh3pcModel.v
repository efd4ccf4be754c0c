(** Model of psi/algorithm/ecdh/ecdh_3pc_psi.{h,cc} and psi/legacy/ecdh_3party_psi.cc.

    Every activity of the protocol reads from one link and writes to one link, so it is
    a function from the messages it receives to the messages it sends (a message list per
    link).  A receiver that wants more messages than were sent waits for ever: [Diverge].
    Simplified: the interleaving of the std::async activities is not represented (C11 does
    that for the two-party protocol); CheckConfig and thread-level exceptions are left out. *)
From Coq Require Import List NArith Bool Arith.
From Verif Require Import Base Text StoreModel EcdhModel.
Import ListNotations.

(** std::string operator< : lexicographic on unsigned bytes, shorter prefix first. *)
Fixpoint bltb (a b : bytes) : bool :=
  match a, b with
  | [], [] => false
  | [], _ :: _ => true
  | _ :: _, [] => false
  | x :: a', y :: b' => if N.ltb x y then true else if N.eqb x y then bltb a' b' else false
  end.

(** std::set_intersection. *)
Fixpoint set_inter (a : list bytes) : list bytes -> list bytes :=
  match a with
  | [] => fun _ => []
  | x :: a' =>
      fix go (b : list bytes) : list bytes :=
        match b with
        | [] => []
        | y :: b' => if bltb x y then set_inter a' b
                     else if bltb y x then go b'
                     else x :: set_inter a' b'
        end
  end.

(** SendImpl (148-174): batches of at most [bsz] items, then an empty batch. *)
Fixpoint send_loop (fuel bsz : nat) (items : list bytes) (batch_count : nat) : list msg :=
  match fuel with
  | O => []
  | S f =>
      let cur := firstn (Nat.min bsz (length items)) items in
      batch_data cur [] batch_count ::
      (if Nat.eqb (length cur) 0 then [] else send_loop f bsz (skipn (length cur) items) (S batch_count))
  end.
Definition send_impl (bsz : nat) (items : list bytes) : list msg := send_loop (S (length items)) bsz items 0.

(** RecvItems (126-141); also the loops of MaskPeer and RecvDualMaskedSelf of ecdh_psi.cc
    (150-184, 248-280) as far as the received items are concerned. *)
Fixpoint recv_items (ms : list msg) (batch_count : nat) : outcome (list bytes) :=
  match ms with
  | [] => Diverge
  | m :: r =>
      enforce (Nat.eqb (m_idx m) batch_count)
       (let items := fst (recv_batch m) in
        if Nat.eqb (length items) 0 then Ok []
        else do rest <- recv_items r (S batch_count); Ok (items ++ rest))
  end.

Section Run3.
Variable Point : Type.
Variable hash_point : bytes -> Point.
Variable mask : nat -> Point -> Point.       (* EccMask with the key of a rank *)
Variable ser : Point -> bytes.
Variable deser : bytes -> Point.
Variable mask_len : nat.                     (* GetMaskLength() *)
Variable dual_mask_size : nat.
Variable bsz : nat.                          (* kEcdhPsiBatchSize *)
Variable srt : list bytes -> list bytes.     (* std::sort *)
Variable shuffle : list bytes -> list bytes. (* std::shuffle with a random generator *)

(** MaskPeerForward (76-106); [trunc = None] stands for truncation_size <= 0. *)
Definition trunc_to (t : option nat) (s : bytes) : bytes :=
  match t with Some n => last_bytes n s | None => s end.
Fixpoint mask_forward (rank : nat) (t : option nat) (ms : list msg) (batch_count : nat) : outcome (list msg) :=
  match ms with
  | [] => Diverge
  | m :: r =>
      enforce (Nat.eqb (m_idx m) batch_count)
       (let items := fst (recv_batch m) in
        let out := map (fun it => trunc_to t (ser (mask rank (deser it)))) items in
        if Nat.eqb (length items) 0 then Ok [batch_data out [] batch_count]
        else do rest <- mask_forward rank t r (S batch_count); Ok (batch_data out [] batch_count :: rest))
  end.

(** MaskSendSelf (38-44): MaskSelf over batches of the items, ended by an empty batch. *)
Definition mask_send_self (rank : nat) (items : list bytes) : list msg :=
  map (fun p => batch_data (snd p) [] (fst p))
      (number 0 (map (map (fun it => ser (mask rank (hash_point it)))) (chunks bsz items) ++ [[]])).

(** Link::NextRank / PrevRank of three parties. *)
Definition next_rank (r : nat) : nat := Nat.modulo (r + 1) 3.
Definition prev_rank (r : nat) : nat := Nat.modulo (r + 2) 3.
(** IsMaster / IsCalculator / IsPartner (ecdh_3pc_psi.h 145-153). *)
Definition is_master (master r : nat) : bool := Nat.eqb r master.
Definition is_calculator (master r : nat) : bool := Nat.eqb (prev_rank r) master.
Definition is_partner (master r : nat) : bool := Nat.eqb (next_rank r) master.

(** MaskMaster (188-233): what the master has received when it is done. *)
Definition mask_master (master : nat) (inputs : nat -> list bytes) : outcome (list bytes) :=
  let a := next_rank master in
  let b := prev_rank master in
  do ab <- mask_forward a None (mask_send_self master (inputs master)) 0;
  do bc <- mask_forward b (Some dual_mask_size) ab 0;
  recv_items bc 0.

(** MaskShufflePeer (55-74): the messages b answers with. *)
Definition mask_shuffle_peer (rank : nat) (ms : list msg) : outcome (list msg) :=
  do peer_items <- recv_items ms 0;
  Ok (send_impl bsz
        (if Nat.eqb (length peer_items) 0 then []
         else srt (map (fun it => last_bytes mask_len (ser (mask rank (deser it)))) peer_items))).

(** PartnersPsi (235-321): what the master has received when it is done.
    The calculator's MaskRecvPeer stores the last mask_len bytes (ecdh_psi.cc 175-177). *)
Definition partners_psi (master : nat) (inputs : nat -> list bytes) : outcome (list bytes) :=
  let a := next_rank master in
  let b := prev_rank master in
  do ba <- mask_shuffle_peer b (mask_send_self a (inputs a));
  do self_result <- recv_items ba 0;
  do peer_items <- recv_items (mask_send_self b (shuffle (inputs b))) 0;
  let peer_result := map (fun it => last_bytes mask_len (ser (mask a (deser it)))) peer_items in
  recv_items (send_impl bsz (set_inter (srt self_result) (srt peer_result))) 0.

(** FinalPsi (323-349); std::binary_search in a sorted vector is membership. *)
Fixpoint final_loop (self_items master_items masked_partners : list bytes) : outcome (list bytes) :=
  match master_items with
  | [] => Ok []
  | c :: r =>
      let hit := existsb (beqb c) masked_partners in
      match self_items with
      | [] => if hit then Throw else final_loop [] r masked_partners
      | it :: its => do rest <- final_loop its r masked_partners; Ok (if hit then it :: rest else rest)
      end
  end.
Definition final_psi (master : nat) (self_items master_items partners_result : list bytes) : outcome (list bytes) :=
  final_loop self_items master_items
    (srt (map (fun it => last_bytes dual_mask_size (ser (mask master (deser it)))) partners_result)).

(** Ecdh3PartyPsiOperator::OnRun (ecdh_3party_psi.cc 66-84) for the party [rank]. *)
Definition run3 (master rank : nat) (inputs : nat -> list bytes) : outcome (list bytes) :=
  do masked_master <- mask_master master inputs;
  do partner_items <- partners_psi master inputs;
  if is_master master rank then final_psi master (inputs master) masked_master partner_items else Ok [].
End Run3.
