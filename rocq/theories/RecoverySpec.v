(** What a recovery folder must guarantee; stated on event histories. *)
From Coq Require Import List NArith.
From Verif Require Import RecoveryModel.
Import ListNotations.

Section S.
Context {Config Key : Type}.
(** All calls of MarkInitEnd that returned had the same configuration and digest. *)
Definition one_task (es : list (event Config Key)) : Prop :=
  forall c d c' d', In (OInit Config Key c d) es -> In (OInit Config Key c' d') es -> c = c' /\ d = d'.
(** All runs that got past PreProcess used the same private key. *)
Definition one_key (es : list (event Config Key)) : Prop :=
  forall k k', In (OKey Config Key k) es -> In (OKey Config Key k') es -> k = k'.
(** The successive complete checkpoint files have non-decreasing stages. *)
Fixpoint stages (es : list (event Config Key)) : list nat :=
  match es with
  | [] => []
  | WCkpt _ _ (Saved _ c) :: r => c_stage Config c :: stages r
  | _ :: r => stages r
  end.
Fixpoint ascending (from : nat) (l : list nat) : Prop :=
  match l with [] => True | x :: r => from <= x /\ ascending x r end.

(** The count a sequence of calls leaves for one of the three counters. *)
Definition last_count (pick : call Config Key -> option N) (start : N) (xs : list (call Config Key)) : N :=
  fold_left (fun acc x => match pick x with Some n => n | None => acc end) xs start.
Definition self_count (x : call Config Key) : option N := match x with CSelf _ _ n => Some n | _ => None end.
Definition peer_count (x : call Config Key) : option N := match x with CPeer _ _ n => Some n | _ => None end.
Definition parsed_count (x : call Config Key) : option N := match x with CParsed _ _ n => Some n | _ => None end.
End S.
