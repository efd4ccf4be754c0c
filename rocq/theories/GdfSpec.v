(** What users of a grouped database rely on when it is opened again. *)
From Coq Require Import List NArith Bool.
From Verif Require Import Base Text.
Import ListNotations.

(** The rows of bucket [b]. *)
Definition bucket_rows (hash : bytes -> N) (nb : N) (table : list (bytes * bytes)) (b : N) : list (bytes * bytes) :=
  filter (fun r => (hash (fst r) mod nb =? b)%N) table.

(** What a lookup of a bucket should give: its database, or none if it has no rows. *)
Definition bucket_db {DB : Type} (build : list (bytes * bytes) -> DB) (rs : list (bytes * bytes)) : option DB :=
  match rs with [] => None | _ => Some (build rs) end.
