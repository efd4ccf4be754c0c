(** What a dispatcher should answer, request by request. *)
From Coq Require Import List NArith.
From Verif Require Import Base Text DispModel.
Import ListNotations.
Local Open Scope N_scope.

Section Spec.
Variables DB K P R : Type.
Variable oprf : K -> bytes -> bytes.
Variable search : DB -> bytes -> option (list R).

(** The answer to a request about a bucket comes from that bucket: with [content] giving for every bucket
    its database and key, or nothing for a bucket without rows. *)
Definition own_reply (content : N -> option (DB * K)) (r : request) (out : list (reply P R)) : Prop :=
  match r with
  | QParams => True
  | QOprf b data =>
    match content b with
    | Some (_, k) => data <> [] -> oprf k data <> [] -> out = [AOprf P R (oprf k data)]
    | None => True
    end
  | QQuery b data =>
    match content b with
    | Some (db, _) => forall ps, search db data = Some ps -> out = [AQuery P R (N.of_nat (length ps)) ps]
    | None => out = [AQuery P R 0 []]
    end
  end.

(** The message carries request [r] / carries none and is skipped. *)
Definition carries (m : message) (r : request) : Prop :=
  exists ty, In ty [TParms; TOprf; TQuery] /\ m_head m = LOk _ (ty, true) /\ m_body m ty = LOk _ r.
Definition skipped (m : message) : Prop :=
  m_head m = LRuntime _ \/ (exists ty, m_head m = LOk _ (ty, false)) \/ (exists ty, m_head m = LOk _ (ty, true) /\ (ty = TUnknown \/ ty = TOther)) \/
  exists ty, m_head m = LOk _ (ty, true) /\ (m_body m ty = LRuntime _ \/ m_body m ty = LInvalid _).

(** The request to stop. *)
Definition is_stop (r : request) : Prop := r = QOprf 4294967295 [].
(** The bucket a request names is one of [n]. *)
Definition names_below (n : N) (r : request) : Prop :=
  match r with QParams => True | QOprf b _ | QQuery b _ => b < n end.

(** Messages that the loop goes through: each is skipped, or carries a request satisfying [Q]. *)
Definition regular (Q : request -> Prop) (m : message) : Prop :=
  skipped m \/ exists r, carries m r /\ ~ is_stop r /\ Q r.

(** Nothing for a skipped message; for a request what [A] says. *)
Definition replied (A : request -> list (reply P R) -> Prop) (m : message) (out : list (reply P R)) : Prop :=
  (skipped m -> out = []) /\ (forall r, carries m r -> A r out).

(** The store of groups holds the content. *)
Definition holds (get : N -> bucket_db DB K) (n : N) (content : N -> option (DB * K)) : Prop :=
  forall b, b < n ->
    match content b with
    | Some (db, k) => get b = BDb DB K db k
    | None => exists k, get b = BNone DB K k
    end.

(** The buckets of a switcher can all be loaded, and their keys pass the check of LoadBucket. *)
Definition fits (stripped : DB -> bool) (own_key : DB -> K) (keqb : K -> K -> bool) (load : N -> option (DB * K)) (n : N) : Prop :=
  forall b, b < n -> exists db k, load b = Some (db, k) /\ (stripped db = true \/ keqb k (own_key db) = true).
End Spec.
