(** Model of psi/utils/bucket.cc and of the bucket loop of the KKRT parties
    (psi/algorithm/kkrt/sender.cc 95-150, receiver.cc 85-150). *)
From Coq Require Import List NArith Lia Bool.
From Verif Require Import Base Text StoreModel SyncModel.
Import ListNotations.
Local Open Scope N_scope.

(** NegotiateBucketNum (bucket.cc 141-168) at the party with [self] items and
    bucket size [bs]; [sizes] is what AllGatherItemsSize returns (the same list at
    every party). *)
Fixpoint negotiate_loop (sizes : list N) (bs max_bucket min_item : N) : N * N :=
  match sizes with
  | [] => (max_bucket, min_item)
  | s :: r =>
    let cnt := u64 (s + bs + (max64 - 1)) / bs in        (* (s + bs - 1) / bs in size_t *)
    negotiate_loop r bs (N.max max_bucket cnt) (N.min min_item s)
  end.
Definition negotiate (sizes : list N) (self bs : N) : outcome N :=
  if bs =? 0 then UB
  else let '(mx, mn) := negotiate_loop sizes bs 0 self in
       if mn =? 0 then Ok 0 else Ok mx.

(** HashListEqualTest (bucket.cc 129-139). *)
Definition hash_list_equal (l : list bytes) : outcome bool :=
  match l with
  | [] => Throw
  | h :: r => Ok (forallb (fun x => beqb x h) r)
  end.

(** The message built by HandleBucketResultByReceiver (bucket.cc 108-117). *)
Definition receiver_offer (res : list bitem) : list bytes * dupcnt :=
  (map b_data res,
   flat_map (fun p => if 0 <? b_dup (snd p) then [(N.of_nat (fst p), b_dup (snd p))] else []) (number 0 res)).

(** WriteCache calls of HandleBucketResultByReceiver (bucket.cc 122-124); reading
    peer_extra_dup_cnt out of bounds is undefined. *)
Fixpoint receiver_write (res : list bitem) (cnts : list N) : outcome (list (N * N)) :=
  match res, cnts with
  | [], _ => Ok []
  | _ :: _, [] => UB
  | i :: r, c :: cs => do w <- receiver_write r cs; Ok ((b_index i, c) :: w)
  end.

(** peer_result (bucket.cc 82-85): a later equal string overwrites. *)
Definition peer_result (got : list bytes * dupcnt) (data : bytes) : option N :=
  option_map (fun p => match dup_get (snd got) (N.of_nat (fst p)) with Some c => c | None => 0 end)
    (find (fun p => beqb (snd p) data) (rev (number 0 (fst got)))).

(** HandleBucketResultBySender after the broadcast (bucket.cc 79-101). *)
Definition sender_write (got : list bytes * dupcnt) (bucket : list bitem) : list (N * N) :=
  match fst got with
  | [] => []
  | _ =>
    if Nat.eqb (length (fst got)) (length bucket) then
      (* operator[]: 0 for an absent key *)
      map (fun it => (b_index it, match peer_result got (b_data it) with Some c => c | None => 0 end)) bucket
    else
      flat_map (fun it => match peer_result got (b_data it) with Some c => [(b_index it, c)] | None => [] end) bucket
  end.

(** bucket_items_list->at(index) for all result indices (kkrt/receiver.cc 133-135). *)
Fixpoint pick_items (bucket : list bitem) (idx : list nat) : outcome (list bitem) :=
  match idx with
  | [] => Ok []
  | i :: r =>
    match nth_error bucket i with
    | None => Throw
    | Some it => do rest <- pick_items bucket r; Ok (it :: rest)
    end
  end.

(** One bucket at both parties.  [psi] gives the receiver the indices of its items
    in the intersection and the sender's extra duplicate counts
    (KkrtPsiSend / KkrtPsiRecv); [recv_rank] is the receiver's rank (0 or 1).
    Result: what receiver and sender write to their index writers. *)
Section Online.
Variable psi : list bitem -> list bitem -> list (nat * N).
Variable broadcast : bool.
Variable recv_first : bool.

Definition do_bucket (rb sb : list bitem) : outcome (list (N * N) * list (N * N)) :=
  (* PrepareBucketData returns nothing when a side is empty (bucket.cc 45-59) *)
  if Nat.eqb (Nat.min (length rb) (length sb)) 0 then Ok ([], [])
  else
    let r := psi rb sb in
    do res <- pick_items rb (map fst r);
    do rw <- receiver_write res (map snd r);
    if broadcast then
      do after <- broadcast_result (if recv_first then [receiver_offer res; ([], [])]
                                    else [([], []); receiver_offer res]);
      Ok (rw, sender_write (nth (if recv_first then 1 else 0)%nat after ([], [])) sb)
    else Ok (rw, []).

(** Loop over the buckets (kkrt/receiver.cc 108-150, sender.cc 105-147), both
    parties in step; [start] is 0 without recovery. *)
Fixpoint online_loop (rc sc : hbc) (buckets : list nat) : outcome (list (N * N) * list (N * N)) :=
  match buckets with
  | [] => Ok ([], [])
  | b :: r =>
    do rb <- hb_load rc b;
    do sb <- hb_load sc b;
    do (rw, sw) <- do_bucket rb sb;
    do (rw', sw') <- online_loop rc sc r;
    Ok (rw ++ rw', sw ++ sw')
  end.
Definition online (rc sc : hbc) : outcome (list (N * N) * list (N * N)) :=
  online_loop rc sc (seq 0 (hb_num rc)).
End Online.
