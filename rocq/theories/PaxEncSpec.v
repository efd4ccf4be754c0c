(** When a set of keys can be encoded without dense columns, said about rows of columns
    alone. *)
From Coq Require Import List NArith.
Import ListNotations.

(** Row number r. *)
Definition prow (rows : list (list N)) (r : nat) : list N := nth r rows [].
(** The rows can be peeled: in every non-empty set U of rows some column belongs to exactly
    one row of U.  (The hypergraph of the rows has an empty 2-core.) *)
Definition peelable (rows : list (list N)) : Prop :=
  forall U, U <> [] -> NoDup U -> (forall r, In r U -> (r < length rows)%nat) ->
  exists c r, In r U /\ In c (prow rows r) /\ forall r', In r' U -> In c (prow rows r') -> r' = r.
(** Column c is in fewer than k rows. *)
Definition column_below (k : nat) (rows : list (list N)) (c : N) : Prop :=
  forall U, NoDup U -> (forall r, In r U -> (r < length rows)%nat /\ In c (prow rows r)) -> (length U < k)%nat.
