(** Model of KMPRT17 multi-party PSI: experiment/psi/kmprt17_mp_psi/kmprt17_hashing.{h,cc},
    kmprt17_opprf.cc and kmprt17_mp_psi.cc.

    Outside the model: the OT extension behind the OPRF (an OPRF is a function of bin and item; what
    the receiver encodes at a bin is the sender's Eval at that bin and item), the link (messages
    arrive unchanged and in order), and random numbers, hash and random oracle, which are arguments.
    The numbers of bins, ceil(count * 1.12f) and ceil(count * 0.17f), are arguments too: the
    rounding of float is not modelled. *)
From Coq Require Import List NArith Bool Arith.
From Verif Require Import Base StoreModel.
Import ListNotations.

(** HashU128 (kmprt17_hashing.h 26-30): 64-bit arithmetic. *)
Definition km_hash (x idx : N) : N := u64 (u64 (x / max64) + idx * u64 x).
(** num_hashes_ (kmprt17_hashing.h 41). *)
Definition km_nh (c : bool) : nat := if c then 2 else 3.
(** TABLE_SIZE (kmprt17_opprf.cc 40). *)
Definition km_size (c : bool) : nat := if c then 64 else 32.
(** BATCH_SIZE (kmprt17_opprf.cc 45). *)
Definition km_batch : nat := 896.

(** The address of [x] under hash [idx] among [m] bins (kmprt17_hashing.cc 32, 52, 64). *)
Definition km_addr (m : nat) (x : N) (idx : nat) : nat := N.to_nat (km_hash x (N.of_nat idx) mod N.of_nat m)%N.

(** ** Cuckoo hashing *)
(** The do-while loop of insert_into (kmprt17_hashing.cc 31-38) over the hashes it tries; bin
    content 0 is NONE.  [inl]: the new bins; [inr]: the last address tried. *)
Fixpoint km_try (bins : list N) (x : N) (idxs : list nat) (last : nat) : list N + nat :=
  match idxs with
  | [] => inr last
  | i :: r =>
    let a := km_addr (length bins) x i in
    let b := nth a bins 0%N in
    if (b =? 0)%N || (b =? x)%N then inl (upd a (fun _ => x) bins) else km_try bins x r a
  end.

(** The hashes tried from random start [r]: all but [r] itself (kmprt17_hashing.cc 28-38). *)
Definition km_idxs (k r : nat) : list nat := map (fun j => (r + 1 + j) mod k) (seq 0 (k - 1)).

(** insert_into (kmprt17_hashing.cc 26-41); [fuel] counts the retries left, [rnd] the random words
    from position [pos].  Result: bins, the element left over (0 if placed), position. *)
Fixpoint km_into (fuel : nat) (k : nat) (rnd : nat -> N) (pos : nat) (bins : list N) (x : N) : list N * N * nat :=
  match fuel with
  | O => (bins, x, pos)
  | S f =>
    if (x =? 0)%N then (bins, x, pos)
    else match km_try bins x (km_idxs k (N.to_nat (rnd pos mod N.of_nat k)%N)) 0 with
         | inl b => (b, 0%N, S pos)
         | inr a => km_into f k rnd (S pos) (upd a (fun _ => x) bins) (nth a bins 0%N)
         end
  end.

(** KmprtCuckooHashing::Insert (kmprt17_hashing.cc 25-46). *)
Definition km_insert_n (retries : nat) (rnd : nat -> N) (st : list N * list N * nat) (x : N) : outcome (list N * list N * nat) :=
  let '(b0, b1, pos) := st in
  let '(b0', x', pos') := km_into retries (km_nh false) rnd pos b0 x in
  let '(b1', x'', pos'') := km_into retries (km_nh true) rnd pos' b1 x' in
  enforce (x'' =? 0)%N (Ok (b0', b1', pos'')).
Definition km_insert := km_insert_n 128.
Fixpoint km_inserts (rnd : nat -> N) (st : list N * list N * nat) (xs : list N) : outcome (list N * list N * nat) :=
  match xs with
  | [] => Ok st
  | x :: r => do st' <- km_insert rnd st x; km_inserts rnd st' r
  end.

(** Lookup (kmprt17_hashing.cc 48-59). *)
Definition km_find (bins : list N) (k : nat) (x : N) : option nat :=
  match filter (fun i => (nth (km_addr (length bins) x i) bins 0 =? x)%N) (seq 0 k) with
  | [] => None
  | i :: _ => Some (km_addr (length bins) x i)
  end.
Definition km_lookup (b0 b1 : list N) (x : N) : option (bool * nat) :=
  match km_find b0 (km_nh false) x with
  | Some a => Some (false, a)
  | None => match km_find b1 (km_nh true) x with Some a => Some (true, a) | None => None end
  end.

(** ** Simple hashing *)
(** unordered_map::emplace: the first value of a key stays. *)
Definition km_emplace (b : list (N * N)) (p : N * N) : list (N * N) :=
  if existsb (fun q => (fst q =? fst p)%N) b then b else b ++ [p].
(** What KmprtSimpleHashing::Insert (kmprt17_hashing.cc 61-67) of all points leaves in bin [addr]. *)
Definition km_bin (m k addr : nat) (pts : list (N * N)) : list (N * N) :=
  fold_left (fun b p => if existsb (fun i => km_addr m (fst p) i =? addr) (seq 0 k) then km_emplace b p else b) pts [].

(** The randomness of one OPPRF execution: the OPRF by bin and item; nonces by bin and attempt;
    fillers of empty table places; the receiver's cuckoo choices and dummies for empty bins; the
    order in which an unordered_map is walked. *)
Record km_rand : Type := mk_kr {
  kr_oprf : nat -> N -> N; kr_nonce : nat -> nat -> N; kr_fill : nat -> nat -> N;
  kr_cuckoo : nat -> N; kr_dummy : nat -> N; kr_walk : list (N * N) -> list (N * N) }.

Section Km.
Variable ro : N -> N -> N.      (* RandomOracle::Gen of value and nonce *)
Variable tries : nat.           (* bound on the attempts of the do-while loop 160-176 *)
Variable H : list N -> N.       (* Blake3_128 *)
Variable bins_of : nat -> nat * nat.   (* bin_sizes, kmprt17_opprf.cc 57-58 and 128-129 *)

(** ro.Gen(eval, nonce) mod table size (kmprt17_opprf.cc 101-106, 166-169). *)
Definition km_place_of (size : nat) (e nonce : N) : nat := N.to_nat (ro e nonce mod N.of_nat size)%N.

(** One attempt at the table of a bin (kmprt17_opprf.cc 161-175). *)
Fixpoint km_place (size : nat) (f : N -> N) (nonce : N) (tbl : list N) (pts : list (N * N)) : option (list N) :=
  match pts with
  | [] => Some tbl
  | (x, y) :: r =>
    let i := km_place_of size (f x) nonce in
    if (nth i tbl 0 =? 0)%N then km_place size f nonce (upd i (fun _ => N.lxor (f x) y) tbl) r else None
  end.
(** The loop over attempts (kmprt17_opprf.cc 160-176); [Diverge] if none of [fuel] attempts separates. *)
Fixpoint km_separate (fuel a size : nat) (f : N -> N) (nonces : nat -> N) (pts : list (N * N)) : outcome (N * list N) :=
  match fuel with
  | O => Diverge
  | S n =>
    match km_place size f (nonces a) (repeat 0%N size) pts with
    | Some t => Ok (nonces a, t)
    | None => km_separate n (S a) size f nonces pts
    end
  end.
(** Empty places are filled (kmprt17_opprf.cc 177-179). *)
Definition km_filled (fill : nat -> N) (tbl : list N) : list N :=
  map (fun p => if (snd p =? 0)%N then u64 (fill (fst p)) else snd p) (number 0 tbl).

Fixpoint km_mapM {A B : Type} (f : A -> outcome B) (l : list A) : outcome (list B) :=
  match l with
  | [] => Ok []
  | x :: r => do y <- f x; do ys <- km_mapM f r; Ok (y :: ys)
  end.

(** The bin of OT instance [ot]: side and address (the loops 79-82, 147-151). *)
Definition km_where (m0 ot : nat) : bool * nat := if ot <? m0 then (false, ot) else (true, ot - m0).

(** KmprtOpprfSend (kmprt17_opprf.cc 123-186): nonce and table of every bin. *)
Definition km_send (r : km_rand) (xs ys : list N) : outcome (list (N * list N)) :=
  enforce (length xs =? length ys)
    (let '(m0, m1) := bins_of (length xs) in
     km_mapM (fun ot =>
         let '(c, addr) := km_where m0 ot in
         let pts := kr_walk r (km_bin (if c then m1 else m0) (km_nh c) addr (combine xs ys)) in
         do (nonce, t) <- km_separate tries 0 (km_size c) (kr_oprf r ot) (kr_nonce r ot) pts;
         Ok (nonce, km_filled (kr_fill r ot) t))
       (seq 0 (m0 + m1))).

(** One reply unmasked (kmprt17_opprf.cc 94-107). *)
Definition km_unmask (size : nat) (e : N) (msg : N * list N) : N :=
  N.lxor e (nth (km_place_of size e (fst msg)) (snd msg) 0%N).

(** The loop over the bins of one side (kmprt17_opprf.cc 80-110): [pending] are the evaluations of
    the batch so far, [msgs] the messages still to come, [i] is ot_idx - ot_begin, [n] bins. *)
Fixpoint km_side (size n i : nat) (evals : list N) (pending : list N) (msgs : list (N * list N)) : outcome (list N * list (N * list N)) :=
  match evals with
  | [] => Ok ([], msgs)
  | e :: r =>
    let pending := pending ++ [e] in
    let batch := i mod km_batch + 1 in
    if (batch =? km_batch) || (i + 1 =? n) then
      (* 88-108 *)
      if (length msgs <? batch) || (length pending <? batch) then UB
      else
        do (out, rest) <- km_side size n (S i) r [] (skipn batch msgs);
        Ok (map (fun p => km_unmask size (fst p) (snd p)) (combine (firstn batch pending) (firstn batch msgs)) ++ out, rest)
    else km_side size n (S i) r pending msgs
  end.

(** What the receiver evaluates at the bins of one side (kmprt17_opprf.cc 83-87). *)
Definition km_evals (r : km_rand) (base : nat) (bins : list N) : list N :=
  map (fun p => kr_oprf r (base + fst p) (if (snd p =? 0)%N then kr_dummy r (base + fst p) else snd p)) (number 0 bins).

(** KmprtOpprfRecv (kmprt17_opprf.cc 53-121). *)
Definition km_recv (r : km_rand) (queries : list N) (msgs : list (N * list N)) : outcome (list N) :=
  let '(m0, m1) := bins_of (length queries) in
  if ((m0 =? 0) || (m1 =? 0)) then UB
  else
  do (b0, b1, _) <- km_inserts (kr_cuckoo r) (repeat 0%N m0, repeat 0%N m1, 0) queries;
  do (e0, msgs1) <- km_side (km_size false) m0 0 (km_evals r 0 b0) [] msgs;
  do (e1, _) <- km_side (km_size true) m1 0 (km_evals r m0 b1) [] msgs1;
  km_mapM (fun q => match km_lookup b0 b1 q with
                    | Some (c, addr) =>
                      match nth_error (e0 ++ e1) ((if c then m0 else 0) + addr) with Some v => Ok v | None => UB end
                    | None => UB
                    end) queries.

Definition km_opprf (r : km_rand) (xs ys queries : list N) : outcome (list N) :=
  do msgs <- km_send r xs ys; km_recv r queries msgs.

(** ** The protocol *)
Variable n : nat.               (* wsize *)
Variable leader : nat.
Variable zero : nat -> nat -> nat -> N.     (* FastRandU64 of ZeroSharing by party, destination, place *)
Variable pad : nat -> nat -> N.             (* dummy items by party and place *)
Variable R : bool -> nat -> nat -> km_rand. (* by round (false: SwapShares), sender, receiver *)

Definition km_xor (l : list N) : N := fold_right N.lxor 0%N l.

(** ZeroSharing (kmprt17_mp_psi.cc 83-94): the share of [dst] at place [k]. *)
Definition km_zero (me dst k : nat) : N :=
  if dst =? 0 then km_xor (map (fun d => u64 (zero me d k)) (seq 1 (n - 1))) else u64 (zero me dst k).
Definition km_shares (me dst count : nat) : list N := map (km_zero me dst) (seq 0 count).

(** EncodeInputs (kmprt17_mp_psi.cc 70-81). *)
Definition km_encode (me count : nat) (inputs : list (list N)) : list N :=
  map H inputs ++ map (pad me) (seq (length inputs) (count - length inputs)).

(** recv_shares[id] = ... for every id (kmprt17_mp_psi.cc 121-123, 147-149): recv_shares has [count]
    elements. *)
Definition km_gather (count : nat) (get : nat -> outcome (list N)) : outcome (list (list N)) :=
  km_mapM (fun id => do v <- get id; if id <? count then Ok v else UB) (seq 0 n).
Definition km_sum (count : nat) (rows : list (list N)) : list N :=
  map (fun k => km_xor (map (fun row => nth k row 0%N) rows)) (seq 0 count).

(** SwapShares (kmprt17_mp_psi.cc 96-132). *)
Definition km_swap (count : nat) (items : nat -> list N) (me : nat) : outcome (list N) :=
  do rows <- km_gather count (fun src =>
               if src =? me then Ok (km_shares me me count)
               else km_opprf (R false src me) (items src) (km_shares src me count) (items me));
  Ok (km_sum count rows).

(** Reconstruct at the leader (kmprt17_mp_psi.cc 134-161). *)
Definition km_recon (count : nat) (items : nat -> list N) (shares : nat -> list N) : outcome (list N) :=
  do rows <- km_gather count (fun src =>
               if src =? leader then Ok (shares leader)
               else km_opprf (R true src leader) (items src) (shares src) (items leader));
  Ok (km_sum count rows).

(** The last loop of Run (kmprt17_mp_psi.cc 61-66): inputs[k] past the end is UB. *)
Fixpoint km_output (inputs : list (list N)) (recons : list N) : outcome (list (list N)) :=
  match recons with
  | [] => Ok []
  | v :: r =>
    if (v =? 0)%N then
      match inputs with
      | [] => UB
      | x :: ins => omap (cons x) (km_output ins r)
      end
    else km_output (tl inputs) r
  end.

(** Run at all parties (kmprt17_mp_psi.cc 46-68): the outputs by rank. *)
Definition km_run (inputs : list (list (list N))) : outcome (list (list (list N))) :=
  if existsb (fun i => length i =? 0) inputs then Ok (map (fun _ => []) inputs)
  else
    let count := list_max (map (@length _) inputs) in
    let items me := km_encode me count (nth me inputs []) in
    do shares <- km_mapM (km_swap count items) (seq 0 n);
    do recon <- km_recon count items (fun j => nth j shares []);
    km_mapM (fun me => km_output (nth me inputs []) (if me =? leader then recon else nth me shares [])) (seq 0 n).
End Km.
