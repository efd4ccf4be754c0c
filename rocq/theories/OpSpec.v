(** What an operator should hand to its callers, independent of protocols. *)
From Coq Require Import List NArith Bool Sorted Permutation.
From Verif Require Import Base Text CuckooModel CuckooSpec KkrtModel KkrtSpec OpModel.
Import ListNotations.

(** [res] lists each own position at most once and exactly the positions of items
    the peer also has, with [val] of the peer's count. *)
Definition common_with (val : N -> N) (own peer : list (bytes * N)) (res : list (nat * N)) : Prop :=
  NoDup (map fst res) /\
  forall i c, In (i, c) res <->
    exists x d n, nth_error own i = Some (x, d) /\ In (x, n) peer /\ c = val n.

Definition in_order (res : list (nat * N)) : Prop := StronglySorted lt (map fst res).

(** The peer of the party with the results: every item counts at least once. *)
Definition at_least_one (n : N) : N := N.max 1 n.

(** Results of both parties on a bucket: of the party the protocol gives them to
    ([r], first in [own]/[peer]) and of the other. *)
Definition pair_result (val : N -> N) (bcast : bool) (own peer : list (bytes * N)) (r other : list (nat * N)) : Prop :=
  common_with val own peer r /\
  (if bcast then common_with at_least_one peer own other /\ in_order other else other = []).
Definition bucket_result (val : N -> N) (first bcast : bool) (b0 b1 : list (bytes * N)) (o : list (nat * N) * list (nat * N)) : Prop :=
  if first then pair_result val bcast b0 b1 (fst o) (snd o) else pair_result val bcast b1 b0 (snd o) (fst o).

(** Every bucket lists an item once. *)
Definition distinct (b : list (bytes * N)) : Prop := NoDup (map fst b).

(** Conditions on one bucket for KKRT (those of C23). *)
Definition kkrt_good (blake : bytes -> N) (e : kkrt_env) (rin sin : list (bytes * N)) : Prop :=
  let codes := map (fun x => blake (fst x)) rin in
  let items := map (fun x => (blake (fst x), snd x)) sin in
  good_opts (ke_opts e) /\ ko_hash (ke_opts e) = 3%N /\ ko_stash (ke_opts e) = 0 /\
  (ko_bins (ke_opts e) < k_none)%N /\ 0 < ke_ot e /\ 0 < ke_psi e /\
  Permutation (ke_perm e) (seq 0 (length sin)) /\ arrivals (ko_bins (ke_opts e)) (ke_arr e) /\
  (forall b x, length (ke_oprf e b x) = ke_esz e) /\ (forall i h, length (ke_fill e i h) = ke_esz e) /\
  (forall b b' x y, In x (codes ++ map fst items) -> In y codes -> ke_oprf e b x = ke_oprf e b' y -> x = y) /\
  (forall i h b y, In y codes -> ke_fill e i h <> ke_oprf e b y) /\
  (forall a b, In a (map fst (rin ++ sin)) -> In b (map fst (rin ++ sin)) -> blake a = blake b -> a = b).

Definition kkrt_side (first : bool) (blake : bytes -> N) (env : nat -> kkrt_env) (k : nat) (b0 b1 : list (bytes * N)) : Prop :=
  if first then kkrt_good blake (env k) b0 b1 else kkrt_good blake (env k) b1 b0.

(** The count KKRT's receiver gets for an item the sender has [n] times: nothing is
    stored for a count of one, and what is not stored reads as 0. *)
Definition kkrt_cnt (n : N) : N := if (1 <? n)%N then n else 0%N.

(** Values of the first and the second party, given those of the receiver and of
    the other. *)
Definition flip {A : Type} (first : bool) (x y : A) : A * A := if first then (x, y) else (y, x).

(** Where a run starts: at the first bucket that not both parties have finished. *)
Definition first_unfinished (parsed : option (nat * nat)) (st : nat) : Prop :=
  match parsed with
  | None => st = 0
  | Some (mine, peer) => st <= mine /\ st <= peer /\ (st = mine \/ st = peer)
  end.
