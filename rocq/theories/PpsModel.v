(** Model of the two-server PIR with puncturable pseudorandom sets: experiment/pir/pps/ggm_pset.{h,cc},
    client.{h,cc}, server.{h,cc}.

    Outside the model: AES as the generator [prg] (two 128-bit blocks from a seed), random words and
    the Bernoulli coin (arguments), floating point (Depth and ceil(log n) are taken exactly, the latter
    as an argument), trees of height 31 or more (1 << height is an int), and the order of walking an
    unordered_map ([walk]).  A std::set that is only summed over is a list without repetitions; the set of
    shifts, whose order matters, is kept sorted.  abort() counts as [Throw]. *)
From Coq Require Import List NArith Bool Arith.
From Verif Require Import Base StoreModel.
Import ListNotations.

(** MODULE_ADD and MODULE_SUB (ggm_pset.h 33-35) on uint64_t. *)
Definition pp_add (a b m : N) : N := (let c := u64 (a + b) in if m <=? c then c - m else c)%N.
Definition pp_sub (a b m : N) : N := (if b <=? a then a - b else u64 (a + m + max64 - b))%N.
(** LemireTrick (ggm_pset.h 61-69), for 128-bit and for 64-bit words. *)
Definition pp_lemire (v m : N) : N := u64 (v / max64 * m / max64)%N.
Definition pp_lemire64 (v m : N) : N := u64 (v * m / max64)%N.
(** Depth (ggm_pset.h 98-101). *)
Definition pp_depth (s : nat) : nat := Nat.log2_up s.

(** PIRPuncKey (ggm_pset.h 40-46). *)
Record ppk : Type := mk_ppk { pk_ks : list N; pk_pos : N; pk_delta : N }.
Definition pk_new : ppk := mk_ppk [] 0 0.

(** unordered_map::emplace and find. *)
Definition pp_emplace (m : list (N * nat)) (p : N * nat) : list (N * nat) :=
  if existsb (fun q => (fst q =? fst p)%N) m then m else m ++ [p].
Definition pp_find (m : list (N * nat)) (i : N) : option nat :=
  match filter (fun q => (fst q =? i)%N) m with [] => None | q :: _ => Some (snd q) end.
Definition pp_mem (x : N) (l : list N) : bool := existsb (N.eqb x) l.
(** insert into a std::set. *)
Fixpoint pp_insert (x : N) (l : list N) : list N :=
  match l with
  | [] => [x]
  | y :: r => if (x <? y)%N then x :: l else if (x =? y)%N then l else y :: pp_insert x r
  end.

Section Pps.
Variable prg : N -> N * N.      (* AESPRG, ggm_pset.cc 21-25 *)
Variable n : N.                 (* universe_size_ *)
Variable s : nat.               (* set_size_ *)

(** The checks of the constructor of PPS (ggm_pset.h 107-114). *)
Definition pp_ctor : outcome unit :=
  let sq := u64 (N.of_nat s * N.of_nat s) in
  if ((sq <? n / 2) || (u64 (2 * n) <? sq))%N then Throw else Ok tt.

(** ** The set *)
(** GGMTree::Gen (ggm_pset.cc 27-38): the nodes at depth [d]; one round replaces each by its children. *)
Definition pp_expand (nodes : list N) : list N := flat_map (fun x => [fst (prg x); snd (prg x)]) nodes.
Fixpoint pp_level (d : nat) (root : N) : list N :=
  match d with
  | O => [root]
  | S e => pp_expand (pp_level e root)
  end.
Definition pp_leaves (k : N) : list N := pp_level (pp_depth s) k.

(** EvalMap (ggm_pset.cc 78-90): value and position. *)
Definition pp_map (k : N) : list (N * nat) :=
  fold_left pp_emplace (map (fun p => (pp_lemire (snd p) n, fst p)) (number 0 (firstn s (pp_leaves k)))) [].
(** Eval of a key (ggm_pset.cc 92-118). *)
Definition pp_eval (k : N) : list N :=
  nodup N.eq_dec (map (fun v => pp_lemire v n) (firstn s (pp_leaves k))).

(** The loop of Punc (ggm_pset.cc 62-71): the siblings along the path to [pos]. *)
Fixpoint pp_copath (h : nat) (pos root : N) : list N :=
  match h with
  | O => []
  | S e =>
    let (l, r) := prg root in
    if N.testbit pos (N.of_nat e) then l :: pp_copath e pos r else r :: pp_copath e pos l
  end.
(** Punc (ggm_pset.cc 55-76): k_ is appended to, not cleared. *)
Definition pp_punc (m : list (N * nat)) (i k : N) (pk : ppk) : outcome ppk :=
  match pp_find m i with
  | None => Throw
  | Some pos => Ok (mk_ppk (pk_ks pk ++ pp_copath (pp_depth s) (N.of_nat pos) k) (N.of_nat pos) (pk_delta pk))
  end.

(** Eval of a punctured key (ggm_pset.cc 120-146): a node 0 stands for "unknown".  [rem] is
    height - 1 - depth plus one.  An index beyond the level is UB here; in the code the last such
    write is outside the vector. *)
Definition pp_expand0 (nodes : list N) : list N :=
  flat_map (fun x => if (x =? 0)%N then [0; 0]%N else [fst (prg x); snd (prg x)]) nodes.
Fixpoint pp_fill (rem : nat) (pos : N) (ks nodes : list N) : outcome (list N) :=
  match rem with
  | O => Ok nodes
  | S e =>
    match ks with
    | [] => UB
    | k :: r =>
      let nodes' := pp_expand0 nodes in
      let a := N.lxor (N.shiftr pos (N.of_nat e)) 1 in
      if (a <? N.of_nat (length nodes'))%N then pp_fill e pos r (upd (N.to_nat a) (fun _ => k) nodes') else UB
    end
  end.
Definition pp_evalp (pk : ppk) : outcome (list N) :=
  do leaves <- pp_fill (pp_depth s) (pk_pos pk) (pk_ks pk) [0%N];
  Ok (nodup N.eq_dec (map (fun p => pp_lemire (snd p) n)
       (filter (fun p => negb (N.of_nat (fst p) =? pk_pos pk)%N) (number 0 (firstn s leaves))))).

(** ** The servers *)
(** bits[idx]. *)
Definition pp_bit (bits : list bool) (idx : N) : outcome bool :=
  match nth_error bits (N.to_nat idx) with Some b => Ok b | None => UB end.
(** The inner loops of Hint and Answer (server.cc 28-30, 39-41, 53-55). *)
Fixpoint pp_xor (bits : list bool) (delta : N) (set : list N) : outcome bool :=
  match set with
  | [] => Ok false
  | v :: r => do b <- pp_bit bits (pp_add v delta n); do c <- pp_xor bits delta r; Ok (xorb b c)
  end.
Fixpoint pp_mapM {A B : Type} (f : A -> outcome B) (l : list A) : outcome (list B) :=
  match l with
  | [] => Ok []
  | x :: r => do y <- f x; do ys <- pp_mapM f r; Ok (y :: ys)
  end.
(** Hint of one key with shifts (server.cc 19-32), and of a list of keys (45-58). *)
Definition pp_hint (bits : list bool) (k : N) (deltas : list N) : outcome (list bool) :=
  pp_mapM (fun d => pp_xor bits d (pp_eval k)) deltas.
Definition pp_hints (bits : list bool) (ck : list (N * N)) : outcome (list bool) :=
  pp_mapM (fun c => pp_xor bits (snd c) (pp_eval (fst c))) ck.
(** Answer (server.cc 34-43). *)
Definition pp_answer (bits : list bool) (pk : ppk) : outcome bool :=
  do set <- pp_evalp pk; pp_xor bits (pk_delta pk) set.
(** AnswerMulti (server.cc 60-69): k_[0] of an empty vector is UB. *)
Definition pp_answer2 (bits : list bool) (l r : ppk) : outcome (bool * bool) :=
  do al <- pp_answer bits l;
  do same <- (if (pk_pos l =? pk_pos r)%N
              then match pk_ks l, pk_ks r with x :: _, y :: _ => Ok (x =? y)%N | _, _ => UB end
              else Ok false);
  if same then Ok (al, al) else do ar <- pp_answer bits r; Ok (al, ar).

(** ** The client *)
Variable walk : list (N * nat) -> list (N * nat).   (* the order of an unordered_map *)
Variable keys : nat -> N.       (* RandU128, in order of drawing *)
Variable lambda : nat.
Variable lnc : N.               (* ceil(log(universe_size_)) *)

(** PPS::Gen (ggm_pset.cc 40-53): key, map and number of keys drawn. *)
Fixpoint pp_gen (fuel pos : nat) : outcome (N * list (N * nat) * nat) :=
  match fuel with
  | O => Throw
  | S f =>
    let m := pp_map (keys pos) in
    if length m =? s then Ok (keys pos, m, S pos) else pp_gen f (S pos)
  end.

(** M and MM (client.h 39-47, 66-74). *)
Definition pp_M : N :=
  (let q := n / N.of_nat s in let q := if n mod N.of_nat s =? 0 then q else q + 1 in u64 (q * lnc))%N.
Definition pp_MM : N :=
  (let t := u64 (2 * n) in
   let q := t / N.of_nat s in let q := if t mod N.of_nat s =? 0 then q else q + 1 in u64 (q * lnc))%N.

(** The loop of Setup (client.cc 40-54); [fuel] is max_try_count - count, [need] is M() - i. *)
Fixpoint pp_draw (words : nat -> N) (fuel need pos : nat) (ds : list N) : outcome (list N) :=
  match fuel with
  | O => Throw
  | S f =>
    match need with
    | O => Ok ds
    | S e =>
      let r := pp_lemire64 (words pos) n in
      if pp_mem r ds then pp_draw words f need (S pos) ds else pp_draw words f e (S pos) (pp_insert r ds)
    end
  end.
(** Setup (client.cc 36-55): key, the client's map, shifts. *)
Definition pp_setup (words : nat -> N) : outcome (N * list (N * nat) * list N) :=
  do (k, m, _) <- pp_gen lambda 0;
  do ds <- pp_draw words (N.to_nat (10 * pp_M)) (N.to_nat pp_M) 0 [];
  Ok (k, m, ds).

(** std::next(map.begin(), GetRandomU64Less())->first (client.cc 32-34, 73, 79): [r] is the word. *)
Definition pp_pick (m : list (N * nat)) (r : N) : outcome N :=
  match nth_error (walk m) (N.to_nat (pp_lemire64 r (N.of_nat s))) with Some p => Ok (fst p) | None => UB end.

(** The search for a shift (client.cc 61-69). *)
Fixpoint pp_search (m : list (N * nat)) (i : N) (j : nat) (ds : list N) : option (nat * N) :=
  match ds with
  | [] => None
  | d :: r => match pp_find m (pp_sub i d n) with Some _ => Some (j, d) | None => pp_search m i (S j) r end
  end.
(** Query (client.cc 57-85) with coin [b] and words [r1], [r2]; [pk] is the caller's sk_punc.
    Result: j ([None] is PIR_ABORT) and the punctured key. *)
Definition pp_query (i k : N) (m : list (N * nat)) (ds : list N) (r1 r2 : N) (b : bool) (pk : ppk)
  : outcome (option nat * ppk) :=
  do (j, d) <- match pp_search m i 0 ds with
               | Some (j, d) => Ok (Some j, d)
               | None => do v <- pp_pick m r1; Ok (None, pp_sub i v n)
               end;
  do ip <- if b then pp_pick m r2 else Ok (pp_sub i d n);
  do pk' <- pp_punc m ip k (mk_ppk (pk_ks pk) (pk_pos pk) d);
  Ok (j, pk').
(** Reconstruct (client.cc 87-95); [None] is PIR_ABORT. *)
Definition pp_recon (j : option nat) (b : bool) (h : list bool) (a : bool) : outcome (option bool) :=
  match j with
  | Some j => if b then Ok None
              else match nth_error h j with Some c => Ok (Some (xorb a c)) | None => UB end
  | None => Ok None
  end.

(** One retrieval with fresh objects, as in pps_pir_test.cc 47-123. *)
Definition pp_single (bits : list bool) (words : nat -> N) (i r1 r2 : N) (b : bool) : outcome (option bool) :=
  do _ <- pp_ctor;
  do (k, m, ds) <- pp_setup words;
  do h <- pp_hint bits k ds;
  do (j, pk) <- pp_query i k m ds r1 r2 b pk_new;
  do a <- pp_answer bits pk;
  pp_recon j b h a.

(** ** Many queries *)
(** Setup (client.cc 97-119); [fuel] is max_try_count - count, [need] is MM() - i. *)
Fixpoint pp_setups (fuel need pos : nat) : outcome (list (N * N) * list (list N) * nat) :=
  match fuel with
  | O => Throw
  | S f =>
    match need with
    | O => Ok ([], [], pos)
    | S e =>
      let set := pp_eval (keys pos) in
      if length set =? s
      then do (ck, v, pos') <- pp_setups f e (S pos); Ok ((keys pos, 0%N) :: ck, set :: v, pos')
      else pp_setups f need (S pos)
    end
  end.

(** The search for a key (client.cc 138-147); the sets are walked along. *)
Fixpoint pp_search2 (i : N) (j : nat) (ck : list (N * N)) (v : list (list N)) : outcome (option (nat * (N * N))) :=
  match ck with
  | [] => Ok None
  | c :: r =>
    match v with
    | [] => UB
    | set :: w => if pp_mem (pp_sub i (snd c) n) set then Ok (Some (j, c)) else pp_search2 i (S j) r w
    end
  end.

(** Query (client.cc 121-166).  Result: keys, sets, j, the two punctured keys, keys drawn. *)
Record ppq : Type := mk_ppq { q_ck : list (N * N); q_v : list (list N); q_j : option nat; q_l : ppk; q_r : ppk; q_pos : nat }.
Definition pp_query2 (i : N) (ck : list (N * N)) (v : list (list N)) (pos : nat) (r1 r2 : N) (b : bool) : outcome ppq :=
  do (k, m, pos') <- pp_gen lambda pos;
  do v1 <- pp_pick m r1;
  let dl := pp_sub i v1 n in
  do (ip, found) <- if b then do v2 <- pp_pick m r2; Ok (pp_add v2 dl n, None)
                    else do f <- pp_search2 i 0 ck v; Ok (i, f);
  do pl <- pp_punc m (pp_sub ip dl n) k (mk_ppk [] 0 dl);
  match found with
  | None => Ok (mk_ppq ck v None pl pl pos')
  | Some (j, (kr, dr)) =>
    do pr <- pp_punc (pp_map kr) (pp_sub ip dr n) kr pk_new;
    Ok (mk_ppq (upd j (fun _ => (k, dl)) ck) (upd j (fun _ => pp_eval k) v) (Some j)
               pl (mk_ppk (pk_ks pr) (pk_pos pr) dr) pos')
  end.
(** Reconstruct (client.cc 168-178): the bit and the new hint. *)
Definition pp_recon2 (j : option nat) (h : list bool) (al ar : bool) : outcome (option bool * list bool) :=
  match j with
  | None => Ok (None, h)
  | Some j =>
    match nth_error h j with
    | Some c => Ok (Some (xorb ar c), upd j (fun _ => xorb al (xorb ar c)) h)
    | None => UB
    end
  end.

(** The state of the client, and one retrieval (pps_pir_test.cc 168-225) with the words and the coin;
    the third result is what the online server receives. *)
Record ppc : Type := mk_ppc { c_ck : list (N * N); c_v : list (list N); c_h : list bool; c_pos : nat }.
Definition pp_round (bits : list bool) (st : ppc) (i : N) (coin : N * N * bool) : outcome (option bool * ppc * (ppk * ppk)) :=
  let '(r1, r2, b) := coin in
  do q <- pp_query2 i (c_ck st) (c_v st) (c_pos st) r1 r2 b;
  do (al, ar) <- pp_answer2 bits (q_l q) (q_r q);
  do (r, h) <- pp_recon2 (q_j q) (c_h st) al ar;
  Ok (r, mk_ppc (q_ck q) (q_v q) h (q_pos q), (q_l q, q_r q)).
Fixpoint pp_rounds (bits : list bool) (st : ppc) (qs : list (N * (N * N * bool)))
  : outcome (list (option bool) * ppc * list (ppk * ppk)) :=
  match qs with
  | [] => Ok ([], st, [])
  | (i, c) :: r =>
    do (x, st1, w) <- pp_round bits st i c;
    do (xs, st2, ws) <- pp_rounds bits st1 r;
    Ok (x :: xs, st2, w :: ws)
  end.
Definition pp_multi (bits : list bool) (qs : list (N * (N * N * bool))) : outcome (list (option bool) * ppc * list (ppk * ppk)) :=
  do _ <- pp_ctor;
  do (ck, v, pos) <- pp_setups (N.to_nat (10 * pp_MM)) (N.to_nat pp_MM) 0;
  do h <- pp_hints bits ck;
  pp_rounds bits (mk_ppc ck v h pos) qs.
End Pps.
