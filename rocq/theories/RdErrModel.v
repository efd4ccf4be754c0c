(** Model of how ApsiCsvReader takes batches from Arrow's streaming reader, which may fail
    (psi/wrapper/apsi/utils/csv_reader.cc: read 89-165, bucketize 167-233, the reading loop of GroupBucketize
    235-313).

    A call of ReadNext delivers a batch, fails or is at the end; at the end it sets the pointer to null, on
    failure it leaves the pointer as it was (arrow::Result::Value).  The calls are a list that ends where the
    reader does.  Simplified: row_cnt does not overflow; the buckets are lists of rows, their text is in
    QuoteModel; what GroupBucketize wrote before it throws is not modelled. *)
From Coq Require Import List NArith Bool Arith.
From Verif Require Import Base Text StoreModel PirPackModel GroupDbModel.
Import ListNotations.

Inductive rd_event : Type := RdBatch (rows : list row) | RdFail.

(** The loops of read (100-156) and bucketize (187-225): the batches processed; [cur] is the pointer
    [batch].  A failed status is logged only. *)
Fixpoint rd_loop (cur : option (list row)) (evs : list rd_event) : list (list row) :=
  match evs with
  | [] => []
  | RdBatch b :: r => b :: rd_loop (Some b) r
  | RdFail :: r =>
    match cur with
    | None => []
    | Some b => b :: rd_loop cur r
    end
  end.

(** read (89-165); the set of keys is 159-162. *)
Definition rd_read (evs : list rd_event) : outcome (list row) :=
  let rows := concat (rd_loop None evs) in
  enforce (negb (Nat.eqb (length rows) 0))
    (enforce (Nat.eqb (length rows) (length (nodup (list_eq_dec N.eq_dec) (map fst rows)))) (Ok rows)).

Section Hash.
Variable hash : bytes -> N.

(** bucketize (167-233): each row appended to its bucket (213-222). *)
Definition rd_put (nb : N) (bs : list (list row)) (r : row) : outcome (list (list row)) :=
  do b <- bucket_of hash nb (fst r); Ok (upd (N.to_nat b) (fun l => l ++ [r]) bs).
Fixpoint rd_puts (nb : N) (rows : list row) (bs : list (list row)) : outcome (list (list row)) :=
  match rows with
  | [] => Ok bs
  | r :: k => do bs' <- rd_put nb bs r; rd_puts nb k bs'
  end.
Definition rd_bucketize (nb : N) (evs : list rd_event) : outcome (list (list row)) :=
  rd_puts nb (concat (rd_loop None evs)) (repeat [] (N.to_nat nb)).

(** GroupBucketize: here a failed status throws (269); 303: no rows at all throw. *)
Fixpoint rd_rows (evs : list rd_event) : outcome (list row) :=
  match evs with
  | [] => Ok []
  | RdBatch b :: r => omap (app b) (rd_rows r)
  | RdFail :: _ => Throw
  end.
Definition rd_group (nb ng : N) (evs : list rd_event) : outcome (list (nat * gline)) :=
  do rows <- rd_rows evs;
  do ws <- divide_writes hash nb ng rows;
  enforce (negb (Nat.eqb (length rows) 0)) (Ok ws).
End Hash.
