(** Model of psi/utils/cuckoo_index.{h,cc}: the cuckoo table that decides a bin
    for each input.  [NumBins()] (cuckoo_index.h:114-124) multiplies by a double;
    its value is a parameter here ([ko_bins]). *)
From Coq Require Import List NArith Lia Bool Arith.
From Verif Require Import Base StoreModel.
Import ListNotations.
Local Open Scope N_scope.

(** Options, cuckoo_index.h:99-125. *)
Record ck_opts := mk_ko { ko_input : N; ko_stash : nat; ko_hash : N; ko_try : nat; ko_bins : N }.

(** Bin, cuckoo_index.h:51-75: an encoded uint64_t. *)
Definition k_empty : N := 18446744073709551615.
Definition is_empty (e : N) : bool := N.eqb e k_empty.
Definition hash_idx (e : N) : N := N.shiftr e 56.
Definition input_idx (e : N) : N := N.land e (N.ones 56).
Definition encode (idx h : N) : N := u64 (N.lor idx (u64 (N.shiftl h 56))).

(** HashRoom::GetHash, cuckoo_index.h:84-93: 8 bytes of the 16-byte code from
    byte 2*idx on, little endian. *)
Definition get_hash (code idx : N) : outcome N :=
  if idx * 2 + 8 <=? 16 then Ok (N.shiftr code (16 * idx) mod 2 ^ 64) else UB.

Record cuckoo := mk_ck { ck_bins : list N; ck_stash : list N; ck_hashes : list N }.

(** Constructor, cuckoo_index.cc:22-30. *)
Definition ck_new (o : ck_opts) : outcome cuckoo :=
  enforce (u64 (u64 ((ko_hash o + 18446744073709551615) * 2) + 8) <=? 16)
    (Ok (mk_ck (repeat k_empty (N.to_nat (ko_bins o))) (repeat k_empty (ko_stash o)) [])).

Section WithOptions.
  Context (o : ck_opts).

  (** hashes_[input].GetHash(h) % num_bins, cuckoo_index.cc:55-56, 140. *)
  Definition bin_of (hs : list N) (input h : N) : outcome N :=
    match nth_error hs (N.to_nat input) with
    | None => UB
    | Some code =>
      do x <- get_hash code h;
      if ko_bins o =? 0 then UB else Ok (x mod ko_bins o)
    end.

  (** One pass over the candidates, cuckoo_index.cc:51-66: the vector is read at
      [i] and overwritten at [w], then cut to [w] elements. *)
  Fixpoint ck_pass (fuel i w : nat) (hs cands bins : list N) : outcome (list N * list N) :=
    match fuel with
    | O => Ok (firstn w cands, bins)
    | S f =>
      match nth_error cands i with
      | None => UB
      | Some c =>
        do b <- bin_of hs (input_idx c) (hash_idx c);
        match nth_error bins (N.to_nat b) with
        | None => UB
        | Some ev =>
          let bins' := upd (N.to_nat b) (fun _ => c) bins in
          if is_empty ev then ck_pass f (S i) w hs cands bins'
          else if ko_hash o =? 0 then UB
          else ck_pass f (S i) (S w) hs
                 (upd w (fun _ => encode (input_idx ev) ((hash_idx ev + 1) mod ko_hash o)) cands) bins'
        end
      end
    end.

  (** The while loop, cuckoo_index.cc:50-67; [tries] = remaining attempts. *)
  Fixpoint ck_rounds (tries : nat) (hs cands bins : list N) : outcome (list N * list N) :=
    match cands, tries with
    | [], _ => Ok ([], bins)
    | _, O => Ok (cands, bins)
    | _, S t => do r <- ck_pass (length cands) 0 0 hs cands bins; ck_rounds t hs (fst r) (snd r)
    end.

  (** PutToStash, cuckoo_index.cc:74-83. *)
  Fixpoint put_to_stash (stash : list N) (input : N) : outcome (list N) :=
    match stash with
    | [] => Throw
    | s :: r => if is_empty s then Ok (input :: r) else omap (cons s) (put_to_stash r input)
    end.
  Fixpoint put_all (stash cands : list N) : outcome (list N) :=
    match cands with
    | [] => Ok stash
    | c :: r => do s <- put_to_stash stash (input_idx c); put_all s r
    end.

  (** Insert, cuckoo_index.cc:32-72. *)
  Definition ck_insert (t : cuckoo) (codes : list N) : outcome cuckoo :=
    let hs := ck_hashes t ++ codes in
    enforce (N.of_nat (length hs) <=? ko_input o)
      (let cands := map (fun i => u64 (N.of_nat (length (ck_hashes t) + i))) (seq 0 (length codes)) in
       do r <- ck_rounds (ko_try o) hs cands (ck_bins t);
       do st <- put_all (ck_stash t) (fst r);
       Ok (mk_ck (snd r) st hs)).

  Fixpoint ck_insert_all (t : cuckoo) (inserts : list (list N)) : outcome cuckoo :=
    match inserts with
    | [] => Ok t
    | c :: r => do t' <- ck_insert t c; ck_insert_all t' r
    end.

  (** SanityCheck, cuckoo_index.cc:85-107: std::set::insert refuses duplicates,
      the set is then iterated in increasing order. *)
  Fixpoint set_insert (s : list N) (x : N) : outcome (list N) :=
    match s with
    | [] => Ok [x]
    | y :: r => if x <? y then Ok (x :: y :: r)
                else if x =? y then Throw
                else omap (cons y) (set_insert r x)
    end.
  Fixpoint collect (s : list N) (entries : list N) : outcome (list N) :=
    match entries with
    | [] => Ok s
    | e :: r => if is_empty e then collect s r
                else do s' <- set_insert s (input_idx e); collect s' r
    end.
  Fixpoint check_seq (idx : N) (s : list N) : outcome unit :=
    match s with
    | [] => Ok tt
    | i :: r => enforce (idx =? i) (check_seq (idx + 1) r)
    end.
  Definition sanity_check (t : cuckoo) : outcome unit :=
    do s <- collect [] (ck_bins t);
    do s' <- collect s (ck_stash t);
    enforce (N.of_nat (length s') =? ko_input o) (check_seq 0 s').

  (** MinCollidingHashIdx, cuckoo_index.cc:136-148. *)
  Fixpoint min_colliding_loop (fuel : nat) (i : N) (hs : list N) (input bin : N) : outcome N :=
    match fuel with
    | O => Throw
    | S f => do b <- bin_of hs input i;
             if b =? bin then Ok i else min_colliding_loop f (i + 1) hs input bin
    end.
  Definition min_colliding (t : cuckoo) (bin : N) : outcome N :=
    match nth_error (ck_bins t) (N.to_nat bin) with
    | None => UB
    | Some e => min_colliding_loop (N.to_nat (ko_hash o)) 0 (ck_hashes t) (input_idx e) bin
    end.
End WithOptions.
