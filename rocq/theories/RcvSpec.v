(** Specification for C98: what a sender's reply says and what is to be reported. *)
From Coq Require Import List NArith.
From Verif Require Import Text RcvModel.
Import ListNotations.
Local Open Scope N_scope.

Definition to_list {A} (x : option A) : list A := match x with Some a => [a] | None => [] end.
(** What the packages show for place [t] of the table. *)
Definition place_in (per t : N) (p : package) : list (option bytes) :=
  let first := pk_bundle p * per in
  if first <=? t then to_list (nth (N.to_nat (t - first)) (pk_places p) None) else [].
Definition shown (per t : N) (ps : list (option package)) : list (option bytes) :=
  flat_map (fun p => match p with Some p => place_in per t p | None => [] end) ps.
(** An honest reply shows for every item's place what the database has for it, and no more. *)
Definition honest (per : N) (db : N -> record) (loc : N -> N) (hs : list N) (ps : list (option package)) : Prop :=
  forall h, In h hs -> shown per (loc h) ps = to_list (db h).
(** Different items have different places. *)
Definition apart (loc : N -> N) (hs : list N) : Prop :=
  forall a b, In a hs -> In b hs -> loc a = loc b -> a = b.

(** What is to be reported: of equal items the last one. *)
Fixpoint expected (db : N -> record) (hs : list N) : list record :=
  match hs with
  | [] => []
  | h :: hs' => (if in_dec N.eq_dec h hs' then None else db h) :: expected db hs'
  end.

(** The lines for the keys found, and whether a label was among them. *)
Definition line (show : bytes -> bytes) (k : bytes) (r : record) : bytes :=
  match r with None => [] | Some None => k ++ [10] | Some (Some l) => k ++ [44] ++ show l ++ [10] end.
Definition lines (show : bytes -> bytes) (krs : list (bytes * record)) : bytes :=
  concat (map (fun kr => line show (fst kr) (snd kr)) krs).
Definition found (r : record) : bool := match r with Some _ => true | None => false end.
Definition labelled (r : record) : bool := match r with Some (Some _) => true | _ => false end.
Definition matches (krs : list (bytes * record)) : nat := length (filter (fun kr => found (snd kr)) krs).
Definition labels (krs : list (bytes * record)) : nat := length (filter (fun kr => labelled (snd kr)) krs).
(** "key" and "key,value". *)
Definition head_key : bytes := [107; 101; 121].
Definition head_value : bytes := [44; 118; 97; 108; 117; 101].

(** A bucket whose sender is honest, whose items found places: [h] gives the OPRF values under the key
    of the bucket, [db] what its database has. *)
Definition faithful (cuckoo : list N -> option (N -> N)) (per : N) (hd : (bytes -> N) * (N -> record)) (b : bucket_query) : Prop :=
  let '(keys, oprf, reply) := b in
  keys <> [] /\ oprf = Some (map (fst hd) keys) /\
  exists loc, cuckoo (map (fst hd) keys) = Some loc /\ apart loc (map (fst hd) keys) /\
              honest per (snd hd) loc (map (fst hd) keys) (reply loc).
(** The keys of the bucket with what is to be reported for them. *)
Definition report (hd : (bytes -> N) * (N -> record)) (b : bucket_query) : list (bytes * record) :=
  let keys := fst (fst b) in combine keys (expected (snd hd) (map (fst hd) keys)).
Fixpoint reports (hds : list ((bytes -> N) * (N -> record))) (bs : list bucket_query) : list (list (bytes * record)) :=
  match hds, bs with hd :: hds', b :: bs' => report hd b :: reports hds' bs' | _, _ => [] end.
(** The bucket the header is written for: the first with a match, else the last. *)
Fixpoint head_bucket (rs : list (list (bytes * record))) : list (bytes * record) :=
  match rs with
  | [] => []
  | [r] => r
  | r :: rs' => if Nat.eqb (matches r) 0 then head_bucket rs' else r
  end.
(** The header: one ",value" for every label of the bucket. *)
Definition head_of (r : list (bytes * record)) : bytes := head_key ++ concat (repeat head_value (labels r)).
