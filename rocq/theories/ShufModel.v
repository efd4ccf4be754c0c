(** Model of SimpleShuffledBatchProvider (psi/utils/batch_provider_impl.cc 156-252).

    The underlying provider hands out raw batches; an empty one means the end.  [perm] of each raw
    batch is the shuffled index list drawn for it (231-235).  Simplified: the read-ahead future
    (241-251) only changes when a raw batch is read, not which one comes next, so raw batches are
    taken directly in order. *)
From Coq Require Import List NArith Bool Arith.
From Verif Require Import Base StoreModel.
Import ListNotations.

Section Shuf.
Variable Item : Type.
(** What a moved-from string holds (194-195). *)
Variable moved : Item.

(** RawBatch (batch_provider_impl.h 98-102); [rb_items] has items[i] and dup_cnt[i] side by side. *)
Record raw_batch : Type := mk_raw { rb_items : list (Item * N); rb_left : list nat }.
Definition empty_raw : raw_batch := mk_raw [] [].

(** (item, dup_cnt, batch index, shuffled index) *)
Definition sentry : Type := (Item * N * nat * nat)%type.

Record shuf : Type := mk_shuf {
  sh_src : list raw_batch; sh_buf : raw_batch; sh_base : nat; sh_sbase : nat; sh_end : bool }.

(** ReadAndShuffle (221-252). *)
Definition read_raw (src : list raw_batch) : raw_batch * list raw_batch :=
  match src with [] => (empty_raw, []) | b :: r => (b, r) end.

(** Constructor and Init (156-174). *)
Definition shuf_open (src : list raw_batch) : shuf :=
  let '(b, r) := read_raw src in mk_shuf r b 0 0 false.

(** Loop 191-206: [n] items starting at loop counter [i]; an index outside the vectors is UB. *)
Fixpoint push_items (n i base sbase : nat) (b : raw_batch) (acc : list sentry) {struct n}
  : outcome (raw_batch * list sentry) :=
  match n with
  | O => Ok (b, acc)
  | S k =>
    match rb_left b with
    | [] => UB
    | f :: fs =>
      match nth_error (rb_items b) f with
      | None => UB
      | Some (x, d) =>
        push_items k (S i) base sbase (mk_raw (upd f (fun p => (moved, snd p)) (rb_items b)) fs)
                   (acc ++ [(x, d, base + i, sbase + f)])
      end
    end
  end.

(** Loop 187-217. *)
Fixpoint fill (fuel bs : nat) (st : shuf) (acc : list sentry) {struct fuel} : outcome (shuf * list sentry) :=
  match fuel with
  | O => Diverge
  | S k =>
    if Nat.ltb (length acc) bs then
      match rb_left (sh_buf st) with
      | _ :: _ =>
        let n := Nat.min (bs - length acc) (length (rb_left (sh_buf st))) in
        do (b, acc') <- push_items n 0 (sh_base st) (sh_sbase st) (sh_buf st) acc;
        fill k bs (mk_shuf (sh_src st) b (sh_base st + n) (sh_sbase st) (sh_end st)) acc'
      | [] =>
        let sbase := sh_sbase st + length (rb_items (sh_buf st)) in
        let '(b, r) := read_raw (sh_src st) in
        match rb_items b with
        | [] => Ok (mk_shuf r b (sh_base st) sbase true, acc)
        | _ => fill k bs (mk_shuf r b (sh_base st) sbase (sh_end st)) acc
        end
      end
    else Ok (st, acc)
  end.

(** ReadNextShuffledBatch (176-219). *)
Definition read_shuffled (bs : nat) (st : shuf) : outcome (shuf * list sentry) :=
  if sh_end st then Ok (st, []) else fill (3 + 2 * length (sh_src st)) bs st [].

(** A consumer reading until an empty batch (ecdh_oprf_psi.cc 110-135); [fuel] bounds the reads. *)
Fixpoint drain_shuffled (fuel bs : nat) (st : shuf) {struct fuel} : outcome (list (list sentry)) :=
  match fuel with
  | O => Diverge
  | S k =>
    do (st', b) <- read_shuffled bs st;
    match b with
    | [] => Ok []
    | _ => omap (cons b) (drain_shuffled k bs st')
    end
  end.
End Shuf.
