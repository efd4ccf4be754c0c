(** Model of psi/legacy/nparty_psi.cc: N-party PSI as a tournament of two-party PSIs.
    Ranks are 0 .. n-1.  The parties run in lockstep: every level starts with pairwise
    protocols and ends with an AllGather of the survivors.  [psi a b] is what the target
    of a two-party PSI obtains from its items [a] and the peer's items [b]. *)
From Coq Require Import List Arith Bool.
From Verif Require Import Base StoreModel.
Import ListNotations.

(** GetPsiRank (215-246) for the party [self]: (peer_rank, target_rank).  [vec] is the list
    of the ranks in party_size_rank_vec. *)
Fixpoint find_pair (vec : list nat) (self : nat) (idx todo : nat) : outcome (nat * nat) :=
  match todo with
  | O => Throw
  | S k =>
      let a := nth idx vec 0 in
      let b := nth (length vec - 1 - idx) vec 0 in
      if Nat.eqb a self then Ok (b, a)
      else if Nat.eqb b self then Ok (a, a)
      else find_pair vec self (S idx) k
  end.
Definition get_psi_rank (vec : list nat) (self : nat) : outcome (nat * nat) :=
  if negb (Nat.eqb (Nat.modulo (length vec) 2) 0) && Nat.eqb (nth (Nat.div (length vec) 2) vec 0) self
  then Ok (self, self)
  else find_pair vec self 0 (Nat.div (length vec) 2).

Section Run.
Context {X : Type}.
Variable psi : list X -> list X -> list X.
Variable srt : list X -> list X.             (* std::sort of the result *)

(** Run2PartyPsi (158-187): the non-target side obtains nothing. *)
Definition run2 (vec : list nat) (items : nat -> list X) (self : nat) : outcome (list X) :=
  do (peer, target) <- get_psi_rank vec self;
  if Nat.eqb peer self then Ok (items self)
  else if Nat.eqb target self then Ok (psi (items self) (items peer))
  else Ok [].

(** All survivors' results of a level (a party that throws makes the level throw). *)
Fixpoint collect (f : nat -> outcome (list X)) (ranks : list nat) : outcome (list (nat * list X)) :=
  match ranks with
  | [] => Ok []
  | r :: rs => do x <- f r; do xs <- collect f rs; Ok ((r, x) :: xs)
  end.
Definition get_items (l : list (nat * list X)) (r : nat) : list X :=
  match find (fun p => Nat.eqb (fst p) r) l with Some p => snd p | None => [] end.

(** The loop over levels (83-153) as executed by [self]. *)
Fixpoint levels (k : nat) (vec : list nat) (items : nat -> list X) (own : nat) (self : nat) : outcome (list X) :=
  match k with
  | O => Ok []
  | S k' =>
      do res <- collect (run2 vec items) vec;
      let erase_pos := Nat.div (length vec + 1) 2 in
      if existsb (Nat.eqb self) (skipn erase_pos vec) then Ok []
      else
        let vec' := firstn erase_pos vec in
        let items' := get_items res in
        let min_size := fold_left Nat.min (map (fun r => length (items' r)) vec') own in
        if Nat.eqb min_size 0 then Ok []
        else if Nat.eqb (length vec') 1 then Ok (srt (items' self))
        else levels k' vec' items' own self
  end.

(** The AllGather groups (111-121) that [self] joins, level by level, and whether it reaches
    one of the Broadcast calls of the finish message (102-104, 133-140, 146-147). *)
Fixpoint rounds (k : nat) (vec : list nat) (items : nat -> list X) (own : nat) (self : nat) : list (list nat) * bool :=
  match k with
  | O => ([], false)
  | S k' =>
      match collect (run2 vec items) vec with
      | Ok res =>
          let erase_pos := Nat.div (length vec + 1) 2 in
          if existsb (Nat.eqb self) (skipn erase_pos vec) then ([], true)
          else
            let vec' := firstn erase_pos vec in
            let items' := get_items res in
            let min_size := fold_left Nat.min (map (fun r => length (items' r)) vec') own in
            if Nat.eqb min_size 0 then ([vec'], true)
            else if Nat.eqb (length vec') 1 then ([vec'], true)
            else let (g, b) := rounds k' vec' items' own self in (vec' :: g, b)
      | _ => ([], false)
      end
  end.

(** GetAllPartyItemSizeVec (189-213): sizes with ranks, the master swapped to the front,
    the rest sorted ([srtv] is std::sort of pairs). *)
Variable srtv : list (nat * nat) -> list (nat * nat).
Definition swap0 (m : nat) (v : list (nat * nat)) : list (nat * nat) :=
  match v with
  | [] => []
  | a :: r => if Nat.eqb m 0 then v
              else match nth_error v m with
                   | Some b => b :: tl (upd m (fun _ => a) v)
                   | None => v
                   end
  end.
Definition size_vec (n master : nat) (inputs : nat -> list X) : list (nat * nat) :=
  let v := swap0 master (map (fun r => (length (inputs r), r)) (seq 0 n)) in
  match v with [] => [] | a :: r => a :: srtv r end.

Definition nparty_rounds (n master : nat) (inputs : nat -> list X) (self : nat) : list (list nat) * bool :=
  let v := size_vec n master inputs in
  match v with
  | a :: b :: _ =>
      if Nat.eqb (fst a) 0 || Nat.eqb (fst b) 0 then ([], false)
      else rounds (Nat.log2_up n) (map snd v) inputs (length (inputs self)) self
  | _ => ([], false)
  end.

(** OnRun (60-156) of the party [self]; the world has at least two parties (57). *)
Definition nparty (n master : nat) (inputs : nat -> list X) (self : nat) : outcome (list X) :=
  enforce (Nat.leb 2 n)
   (let v := size_vec n master inputs in
    match v with
    | a :: b :: _ =>
        if Nat.eqb (fst a) 0 || Nat.eqb (fst b) 0 then Ok []
        else levels (Nat.log2_up n) (map snd v) inputs (length (inputs self)) self
    | _ => UB
    end).
End Run.
