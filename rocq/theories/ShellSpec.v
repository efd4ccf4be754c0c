(** Paths the shell leaves alone, the order of lines under LC_ALL=C, and lists of processors. *)
From Coq Require Import List NArith ZArith Permutation Sorted.
From Verif Require Import Base Text ShellModel.
Import ListNotations.
Local Open Scope N_scope.

(** Neither blank nor otherwise special to the shell, and no dash in front. *)
Definition plain_path (p : bytes) : Prop := p <> [] /\ hd 0 p <> 45 /\ Forall (fun c => c <> blank /\ special c = false) p.
(** Byte order of lines. *)
Fixpoint line_le (a b : bytes) : Prop :=
  match a, b with [], _ => True | _ :: _, [] => False | x :: a', y :: b' => x < y \/ x = y /\ line_le a' b' end.
Definition sorts (f : list bytes -> list bytes) : Prop := forall l, Permutation l (f l) /\ StronglySorted line_le (f l).
(** cpuset.cpus: ranges of processors, a single one without a dash. *)
Definition range_text (r : N * N) : bytes := if fst r =? snd r then dec (fst r) else dec (fst r) ++ 45 :: dec (snd r).
Definition cpuset_text (l : list (N * N)) : bytes := join_with comma (map range_text l).
Definition good_range (r : N * N) : Prop := fst r <= snd r /\ snd r < 2147483648.
Definition processors (l : list (N * N)) : Z := fold_right Z.add 0%Z (map (fun r => Z.of_N (snd r - fst r + 1)) l).

(** The three bytes EF BB BF in front. *)
Definition starts_with_mark (t : bytes) : Prop := exists r, t = 239 :: 187 :: 191 :: r.
