(** What a hash of a span should do, independent of batches. *)
From Coq Require Import List NArith.
From Verif Require Import Base SpanModel.
Import ListNotations.

(** Contents of a span. *)
Definition contents (m : mem) (s : span) : list N := map (fun i => m (s_at s + i)) (seq 0 (s_len s)).

(** [m'] has [l] at the beginning of span [s] and is otherwise [m]. *)
Definition written (m m' : mem) (s : span) (l : list N) : Prop :=
  forall a, m' a = if andb (Nat.leb (s_at s) a) (Nat.ltb a (s_at s + length l)) then nth (a - s_at s) l 0%N else m a.

(** Spans that start at the same cell or have no cell in common. *)
Definition same_or_apart (a b : span) : Prop :=
  s_at a = s_at b \/ s_at a + s_len a <= s_at b \/ s_at b + s_len b <= s_at a.

Fixpoint zip (f : N -> N -> N) (a b : list N) : list N :=
  match a, b with x :: a', y :: b' => f x y :: zip f a' b' | _, _ => [] end.
