(** Specification for C99: heaps and what belongs to them. *)
From Coq Require Import List NArith.
From Verif Require Import Base Text GroupDbModel CapiModel.
Import ListNotations.
Local Open Scope N_scope.

(** Addresses below the next one, no address twice, none null. *)
Definition sane (h : heap) : Prop :=
  0 < h_next h /\ NoDup (map fst (h_live h)) /\ Forall (fun x => 0 < fst x < h_next h) (h_live h).
(** Everything that was live is still there, unchanged. *)
Definition keeps (h h' : heap) : Prop :=
  forall a b, assoc a (h_live h) = Some b -> assoc a (h_live h') = Some b.
(** The strings a result holds. *)
Definition holds (q : N) (keys values : list bytes) (h : heap) : Prop :=
  exists r, assoc q (h_live h) = Some (BResult r) /\ qr_rows r = N.of_nat (length keys) /\
    qr_labeled r = negb (Nat.eqb (length values) 0) /\
    make_strings (qr_keys r) h = Ok keys /\ (values <> [] -> make_strings (qr_values r) h = Ok values).
Definition total (l : list N) : N := fold_right N.add 0 l.
