(** What C106 is about, without the model's helpers. *)
From Coq Require Import List NArith.
From Verif Require Import Base Text UbCacheModel.
Import ListNotations.

(** The rows of the records holding one of the [items], in the order of the records. *)
Definition rows_holding (items : list (list N)) (recs : list crec) : list N :=
  map cr_shuffle (filter (fun r => if in_dec (list_eq_dec N.eq_dec) (cr_data r) items then true else false) recs).
(** What the strings decode to; strings that do not decode give nothing. *)
Definition decoded (unescape : list N -> option (list N)) (strs : list (list N)) : list (list N) :=
  flat_map (fun s => match unescape s with Some x => [x] | None => [] end) strs.
(** [c] is the cache after saving [recs] with items of [len] bytes. *)
Definition saved (len : nat) (recs : list crec) (c : cache) : Prop :=
  exists priv, (do c0 <- cache_open len priv; cache_save_all c0 recs) = Ok c.
