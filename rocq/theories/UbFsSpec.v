(** Files inside a directory, and files left alone. *)
From Coq Require Import List String.
From Verif Require Import PhModel UbFsModel.
Import ListNotations.

Definition inside (cache q : path) : Prop := exists rest, q = cache ++ rest.
(** What is at [q] in [f] is still there in [f'], and nothing is new at [q] unless [q] is a directory
    on the way to [cache]. *)
Definition kept (f f' : fs) (cache q : path) : Prop :=
  (forall n, f q = Some n -> f' q = Some n) /\ (f q = None -> ~ inside q cache -> f' q = None).

(** The modes in which a server builds its cache. *)
Definition builds_cache (m : ph_mode) : Prop := m = PhGen \/ m = PhOffline \/ m = PhFull.
