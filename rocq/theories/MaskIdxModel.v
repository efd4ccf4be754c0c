(** Model of the exchange in which the client tells the server the masked items of the intersection
    and the server looks up its rows: SendIntersectionMaskedItems and RecvIntersectionMaskedItems
    (psi/algorithm/ecdh/ub_psi/ecdh_oprf_psi.cc 654-697, 365-460).

    Simplified: the link delivers messages unchanged and in order; a message is None when
    is_last_batch is set, otherwise its flatten_bytes; the unordered_set is the list of what was
    inserted; the asynchronous workers write to vectors of their own and are run one by one. *)
From Coq Require Import List NArith Bool Arith.
From Verif Require Import Base Text StoreModel EcdhModel ShufModel UbCacheModel UbPsiModel.
Import ListNotations.

Section MaskIdx.
Variable unescape : bytes -> option bytes.   (* absl::Base64Unescape; None: it returns false *)

(** b64_dest (681-682): the result of Base64Unescape is not looked at; on failure it clears the
    destination. *)
Definition mi_dest (s : bytes) : bytes := match unescape s with Some x => x | None => [] end.

(** SendIntersectionMaskedItems (661-692) on the batches the provider gives; the first empty one, or
    the end of the provider, is sent as the last. *)
Fixpoint mi_send (batches : list (list bytes)) : list (option bytes) :=
  match batches with
  | [] => [None]
  | b :: r =>
    match b with
    | [] => [None]
    | _ => Some (concat (map mi_dest b)) :: mi_send r
    end
  end.
End MaskIdx.

(** RecvIntersectionMaskedItems, the receiving loop (373-398); without a last message it waits. *)
Fixpoint mi_recv (len : nat) (ms : list (option bytes)) : outcome (list bytes) :=
  match ms with
  | [] => Diverge
  | None :: _ => Ok []
  | Some flat :: r => do items <- cut len flat; omap (app items) (mi_recv len r)
  end.

(** client_masked_items.find (430-431). *)
Definition mi_known (set : list bytes) (x : bytes) : bool := existsb (beqb x) set.

(** compare_proc (424-435) of worker [idx] of [threads] on one batch of the cache; compare_size is
    line 418-420. *)
Definition mi_worker (set : list bytes) (threads : nat) (recs : list crec) (idx : nat) : list N :=
  let size := Nat.div (length recs + threads - 1) threads in
  let from := idx * size in
  let upto := Nat.min (length recs) (from + size) in
  flat_map (fun r => if mi_known set (cr_data r) then [cr_shuffle r] else [])
           (firstn (upto - from) (skipn from recs)).

(** The loop over the cache (407-457): the indices and item_index. *)
Fixpoint mi_lookup (set : list bytes) (threads : nat) (batches : list (list crec)) : list N * nat :=
  match batches with
  | [] => ([], 0)
  | b :: r =>
    match b with
    | [] => ([], 0)
    | _ =>
      let '(ids, n) := mi_lookup set threads r in
      (flat_map (mi_worker set threads b) (seq 0 threads) ++ ids, length b + n)
    end
  end.

(** RecvIntersectionMaskedItems (365-460); [threads] is omp_get_num_procs, [bs] the batch size of the
    UbPsiCacheProvider over the cache [c], [len] GetCompareLength. *)
Definition mi_server (len threads bs : nat) (c : cache) (ms : list (option bytes)) : outcome (list N * nat) :=
  do set <- mi_recv len ms;
  do batches <- cache_batches bs c;
  Ok (mi_lookup set threads batches).

(** Both sides (ecdh_oprf_psi_test.cc 242-265). *)
Definition mi_run (unescape : bytes -> option bytes) (len threads bs : nat) (c : cache)
    (client : list (list bytes)) : outcome (list N * nat) :=
  mi_server len threads bs c (mi_send unescape client).
