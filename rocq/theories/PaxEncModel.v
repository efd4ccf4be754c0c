(** Model of the encoding side of the OKVS: psi/algorithm/rr22/okvs/paxos.cc SetInput,
    RebuildColumns, Triangulate, GetFCInv, GetGapCols, GetX2Prime, GetEPrime,
    MatrixGf128Inv, BackfillGf128, BackfillBinary and Encode / EncodeU64; the weight lists
    of paxos_utils.h (28-191); DenseMtx::Invert of dense_mtx.cc (97-129).

    Only encoding without randomness (prng == nullptr) is modelled: that is how every
    caller uses it.  IdxType counters are natural numbers: they are bounded by num_items_
    and sparse_size, which Init checks against the type.  Reading or writing a vector or
    span outside its bounds is UB. *)
From Coq Require Import List Arith NArith Bool.
From Verif Require Import Base StoreModel GfModel OkvsModel.
Import ListNotations.
Local Open Scope nat_scope.

Definition vget {A : Type} (l : list A) (i : nat) : outcome A :=
  match nth_error l i with Some x => Ok x | None => UB end.
Definition vset {A : Type} (l : list A) (i : nat) (x : A) : outcome (list A) :=
  if i <? length l then Ok (upd i (fun _ => x) l) else UB.
(** for (x : l) st = f(x, st) *)
Fixpoint ofold {A S : Type} (f : A -> S -> outcome S) (l : list A) (st : S) : outcome S :=
  match l with [] => Ok st | x :: r => do st <- f x st; ofold f r st end.

(** WeightData (paxos_utils.h 32-60): set w holds the columns of weight w, the doubly
    linked list as a list, its head first. *)
Record wdata := mk_wd { wd_sets : list (list nat); wd_weight : list nat }.

Fixpoint trim {A : Type} (l : list (list A)) : list (list A) :=
  match l with
  | [] => []
  | x :: r => match trim r, x with [], [] => [] | t, _ => x :: t end
  end.

(** init (paxos_utils.h 148-191). *)
Fixpoint init_sets (ws : list nat) (i : nat) (sets : list (list nat)) : outcome (list (list nat)) :=
  match ws with
  | [] => Ok sets
  | w :: r => enforce (w <? length sets) (init_sets r (S i) (upd w (cons i) sets))
  end.
Definition wd_init (ws : list nat) : outcome wdata :=
  do sets <- init_sets ws 0 (repeat [] 200);
  Ok (mk_wd (match trim sets with [] => sets | t => t end) ws).

(** PushNode (76-93) and PopNode (96-123); the node's weight is passed.  When the last
    list becomes empty, back() is called on an empty vector. *)
Definition push_node (w c : nat) (sets : list (list nat)) : list (list nat) :=
  let sets := if length sets <=? w then sets ++ repeat [] (S w - length sets) else sets in
  upd w (cons c) sets.
Fixpoint remove1 (c : nat) (l : list nat) : list nat :=
  match l with [] => [] | x :: r => if x =? c then r else x :: remove1 c r end.
Definition pop_node (w c : nat) (sets : list (list nat)) : outcome (list (list nat)) :=
  match nth_error sets w with
  | None => UB
  | Some l =>
      if negb (existsb (Nat.eqb c) l) then Throw
      else match remove1 c l with
           | [] => match trim (upd w (fun _ => []) sets) with [] => UB | t => Ok t end
           | l' => Ok (upd w (fun _ => l') sets)
           end
  end.

(** GetMinWeightNode (135-144): the head of the first non-empty set of weight >= 1. *)
Fixpoint first_node (sets : list (list nat)) (w : nat) : outcome (nat * nat) :=
  match sets with
  | [] => Throw
  | [] :: r => first_node r (S w)
  | (c :: _) :: _ => Ok (w, c)
  end.
Definition min_node (sets : list (list nat)) : outcome (nat * nat) := first_node (tl sets) 1.

(** SetInput, rows and dense values (paxos.cc 238-300): batches of 32, then one by one up
    to num_items_ (reading past the inputs when there are fewer). *)
Fixpoint build_rows (fuel : nat) (avx : bool) (w : N) (q : okvs_param) (hs : list N) {struct fuel}
  : outcome (list (list N)) :=
  match fuel with
  | O => omapM (build_row avx w q) hs
  | S f =>
      if 32 <=? length hs then
        do b <- build_row32 avx w q (firstn 32 hs);
        do r <- build_rows f avx w q (skipn 32 hs);
        Ok (b ++ r)
      else omapM (build_row avx w q) hs
  end.
Definition set_input (aes : N -> N) (avx : bool) (w : N) (q : okvs_param) (num_items : nat) (inputs : list N)
  : outcome (list (list nat) * list N) :=
  enforce (length inputs <=? num_items)
    (if length inputs <? num_items then UB else
     do rows <- build_rows (length inputs) avx w q (map aes inputs);
     Ok (map (map N.to_nat) rows, map aes inputs)).

(** ++col_weights[c] for every entry of the rows (266-270, 285-290) and RebuildColumns
    (353-408): column c lists the rows that contain it. *)
Definition count_cols (s : nat) (rows : list (list nat)) : outcome (list nat) :=
  ofold (fun c ws => do w <- vget ws c; vset ws c (S w)) (concat rows) (repeat 0 s).
Definition build_cols (s : nat) (rows : list (list nat)) : outcome (list (list nat)) :=
  ofold (fun ir cols => ofold (fun c cols => do l <- vget cols c; vset cols c (l ++ [fst ir])) (snd ir) cols)
        (number 0 rows) (repeat [] s).

(** Triangulate (498-589).  t_main lists (row, column), the last chosen first; t_gap lists
    (row, main row). *)
Record tri := mk_tri {
  t_wd : wdata; t_set : list bool; t_main : list (nat * nat); t_gap : list (nat * nat) }.

(** Decrement the weight of the columns of a row (528-552). *)
Definition dec_col (c : nat) (wd : wdata) : outcome wdata :=
  do w <- vget (wd_weight wd) c;
  match w with
  | O => Ok wd
  | S v =>
      do sets <- pop_node w c (wd_sets wd);
      do ws <- vset (wd_weight wd) c v;
      Ok (mk_wd (push_node v c sets) ws)
  end.
(** One row of the chosen column (519-581). *)
Definition visit (rows : list (list nat)) (dense : list N) (col : nat) (row : nat) (st : tri * bool)
  : outcome (tri * bool) :=
  let '(t, first) := st in
  do done <- vget (t_set t) row;
  if done : bool then Ok (t, first) else
  do rs <- vset (t_set t) row true;
  do cs <- vget rows row;
  do wd <- ofold dec_col cs (t_wd t);
  if first : bool then Ok (mk_tri wd rs ((row, col) :: t_main t) (t_gap t), false)
  else
    match t_main t with
    | [] => UB   (* main_rows.back() *)
    | (mrow, _) :: _ =>
        do dm <- vget dense mrow;
        do dr <- vget dense row;
        enforce (negb (dm =? dr)%N) (Ok (mk_tri wd rs (t_main t) (t_gap t ++ [(row, mrow)]), false))
    end.
Fixpoint tri_loop (fuel : nat) (rows cols : list (list nat)) (dense : list N) (t : tri) {struct fuel} : outcome tri :=
  match fuel with
  | O => Diverge
  | S f =>
      if length (wd_sets (t_wd t)) <=? 1 then Ok t else
      do wc <- min_node (wd_sets (t_wd t));
      let '(w, c) := wc in
      do sets <- pop_node w c (wd_sets (t_wd t));
      do ws <- vset (wd_weight (t_wd t)) c 0;
      do col <- vget cols c;
      do tf <- ofold (visit rows dense c) col (mk_tri (mk_wd sets ws) (t_set t) (t_main t) (t_gap t), true);
      let '(t', first) := tf in
      enforce (negb first) (tri_loop f rows cols dense t')
  end.
(** From the weights: the lists of SetInput, made again when size() <= 1 (503-509). *)
Definition triangulate (s : nat) (rows : list (list nat)) (dense : list N) : outcome tri :=
  do ws <- count_cols s rows;
  do cols <- build_cols s rows;
  do wd <- wd_init ws;
  do wd <- (if length (wd_sets wd) <=? 1 then wd_init (map (@length nat) cols) else Ok wd);
  tri_loop (S s) rows cols dense (mk_tri wd (repeat false (length rows)) [] []).

(** GetFCInv (1422-1505).  A std::set ordered by greater: a decreasing list. *)
Fixpoint set_insert (x : nat) (l : list nat) : list nat :=
  match l with
  | [] => [x]
  | y :: r => if y <? x then x :: l else if y =? x then l else y :: set_insert x r
  end.
Definition set_toggle (x : nat) (l : list nat) : list nat :=
  if existsb (Nat.eqb x) l then remove1 x l else set_insert x l.
(** col_mapping: the position of a column among the main columns, the last chosen 0. *)
Definition col_mapping (size : nat) (main : list (nat * nat)) : list (option nat) :=
  fold_left (fun v ic => upd (snd (snd ic)) (fun _ => Some (fst ic)) v) (number 0 main) (repeat None size).
Definition fc_toggle (cm : list (option nat)) (ccol : nat) (hcol : nat) (row : list nat) : outcome (list nat) :=
  do m <- vget cm hcol;
  match m with
  | None => Ok row
  | Some c2 => enforce (c2 <=? ccol) (Ok (set_toggle c2 row))
  end.
Fixpoint fc_loop (fuel : nat) (rows : list (list nat)) (main : list (nat * nat)) (cm : list (option nat))
  (row : list nat) (acc : list nat) {struct fuel} : outcome (list nat) :=
  match row with
  | [] => Ok acc
  | ccol :: _ =>
      match fuel with
      | O => Diverge
      | S f =>
          do mc <- vget main ccol;
          do cs <- vget rows (fst mc);
          do row' <- ofold (fc_toggle cm ccol) cs row;
          enforce (match row' with [] => true | c :: _ => negb (c =? ccol) end)
            (fc_loop f rows main cm row' (acc ++ [fst mc]))
      end
  end.
Definition fc_insert (cm : list (option nat)) (c : nat) (row : list nat) : outcome (list nat) :=
  do m <- vget cm c;
  Ok (match m with None => row | Some x => set_insert x row end).
Definition fc_inv1 (rows : list (list nat)) (size : nat) (main : list (nat * nat)) (gap : nat * nat) : outcome (list nat) :=
  do r0 <- vget rows (fst gap);
  do r1 <- vget rows (snd gap);
  if list_eq_dec Nat.eq_dec r0 r1 then Ok [snd gap]
  else
    let cm := col_mapping size main in
    do row <- ofold (fc_insert cm) r0 [];
    fc_loop (S (length main)) rows main cm row [].
Definition fc_inv (rows : list (list nat)) (size : nat) (main gaps : list (nat * nat)) : outcome (list (list nat)) :=
  omapM (fc_inv1 rows size main) gaps.

(** MatrixGf128Inv (paxos.cc 29-99) on flat vectors.  The vector inv is constructed with
    row_size elements of value col_size (32), not row_size * col_size.  None is the empty
    matrix: not invertible. *)
Definition mx_swap (n i j : nat) (m : list N) : outcome (list N) :=
  ofold (fun k m => do a <- vget m (i * n + k); do b <- vget m (j * n + k);
                    do m <- vset m (i * n + k) b; vset m (j * n + k) a) (seq 0 n) m.
Fixpoint mx_find (n i : nat) (todo j : nat) (mi : list N * list N) {struct todo} : outcome (list N * list N) :=
  match todo with
  | O => Ok mi
  | S t =>
      do x <- vget (fst mi) (j * n + i);
      if (x =? 1)%N then do m <- mx_swap n i j (fst mi); do v <- mx_swap n i j (snd mi); Ok (m, v)
      else mx_find n i t (S j) mi
  end.
Definition mx_scale (avx : bool) (n i : nat) (x : N) (m : list N) : outcome (list N) :=
  ofold (fun k m => do a <- vget m (i * n + k); vset m (i * n + k) (gf_mul avx x a)) (seq 0 n) m.
Definition mx_addmul (avx : bool) (n i j : nat) (x : N) (m : list N) : outcome (list N) :=
  ofold (fun k m => do a <- vget m (j * n + k); do b <- vget m (i * n + k);
                    vset m (j * n + k) (N.lxor a (gf_mul avx x b))) (seq 0 n) m.
Definition mx_clear (avx : bool) (n i j : nat) (mi : list N * list N) : outcome (list N * list N) :=
  if j =? i then Ok mi else
  do x <- vget (fst mi) (j * n + i);
  do m <- mx_addmul avx n i j x (fst mi);
  do v <- mx_addmul avx n i j x (snd mi);
  Ok (m, v).
Fixpoint mx_rows (avx : bool) (n : nat) (todo i : nat) (mi : list N * list N) {struct todo} : outcome (option (list N)) :=
  match todo with
  | O => Ok (Some (snd mi))
  | S t =>
      do p <- vget (fst mi) (i * n + i);
      do mi <- (if (p =? 0)%N then mx_find n i (n - S i) (S i) mi else Ok mi);
      do p <- vget (fst mi) (i * n + i);
      if (p =? 0)%N then Ok None else
      do x <- gf_inv avx p;
      do m <- mx_scale avx n i x (fst mi);
      do v <- mx_scale avx n i x (snd mi);
      do mi <- ofold (mx_clear avx n i) (seq 0 n) (m, v);
      mx_rows avx n t (S i) mi
  end.
Definition matrix_inv (avx : bool) (n : nat) (m : list N) : outcome (option (list N)) :=
  do inv <- ofold (fun i v => vset v (i * n + i) 1%N) (seq 0 n) (repeat (N.of_nat n) n);
  mx_rows avx n n 0 (m, inv).

(** The sum of the values of a gap row and of the rows of FC^-1. *)
Definition comb_value (values : list N) (gap : nat * nat) (fc : list nat) : outcome N :=
  do x <- vget values (fst gap);
  ofold (fun j x => do v <- vget values j; Ok (N.lxor x v)) fc x.

(** e, e^2, ..., as computed by repeated multiplication (1015-1021, 1027-1032). *)
Fixpoint gf_powers (avx : bool) (d x : N) (k : nat) {struct k} : list N :=
  match k with O => [] | S k' => x :: gf_powers avx d (gf_mul avx x d) k' end.

(** BackfillGf128 (paxos.cc 984-1182): a row of EE; p2[i] += sum of xx[j] * EE[i][j]; the
    dense sum of a row (GF128_DENSE_BACKFILL 1070-1080). *)
Definition gf_row (avx : bool) (dense : list N) (k : nat) (gap : nat * nat) (fc : list nat) : outcome (list N) :=
  do e <- vget dense (fst gap);
  ofold (fun j row => do d <- vget dense j; Ok (zip_with N.lxor row (gf_powers avx d d k))) fc (gf_powers avx e e k).
Definition gf_solve (avx : bool) (s n : nat) (inv xx : list N) (p : list N) : outcome (list N) :=
  ofold (fun i p =>
    do y <- vget p (s + i);
    do y <- ofold (fun j y => do x <- vget xx j; do e <- vget inv (i * n + j); Ok (mult_add avx 128 y x e)) (seq 0 n) y;
    vset p (s + i) y) (seq 0 n) p.
Definition sparse_sum (p : list N) (row : list nat) (y : N) : outcome N :=
  ofold (fun c y => do v <- vget p c; Ok (N.lxor y v)) row y.
Definition gf_dense_sum (avx : bool) (s : nat) (p : list N) (d : N) (k : nat) (y : N) : outcome N :=
  ofold (fun jx y => do v <- vget p (s + fst jx); Ok (mult_add avx 128 y v (snd jx)))
        (number 0 (gf_powers avx d d (Nat.max 1 k))) y.
Definition gf_backfill1 (avx : bool) (q : okvs_param) (rows : list (list nat)) (dense values : list N) (do_dense : bool)
  (rc : nat * nat) (p : list N) : outcome (list N) :=
  let s := N.to_nat (ok_sparse q) in
  do y <- vget values (fst rc);
  do row <- vget rows (fst rc);
  do y <- sparse_sum p row y;
  do y <- (if do_dense then do d <- vget dense (fst rc); gf_dense_sum avx s p d (ok_dense q) y else Ok y);
  vset p (snd rc) y.
Definition backfill_gf (avx : bool) (q : okvs_param) (rows : list (list nat)) (dense values : list N)
  (main gaps : list (nat * nat)) (p : list N) : outcome (list N) :=
  let s := N.to_nat (ok_sparse q) in
  let g := length gaps in
  enforce (g <=? ok_dense q)
   (do p <- (if g =? 0 then Ok p else
       do fc <- fc_inv rows (s + ok_dense q) main gaps;
       do ee <- omapM (fun gf => gf_row avx dense g (fst gf) (snd gf)) (combine gaps fc);
       do xx <- omapM (fun gf => comb_value values (fst gf) (snd gf)) (combine gaps fc);
       do inv <- matrix_inv avx g (concat ee);
       match inv with
       | None => Throw
       | Some inv => gf_solve avx s g inv xx p
       end);
    ofold (gf_backfill1 avx q rows dense values (negb (g =? 0))) main p).

(** DenseMtx (dense_mtx.h 185-272), as a list of rows; Invert (dense_mtx.cc 97-129) adds
    row i to every other row with a one in column i.  None is the empty matrix. *)
Definition bit_at (m : list (list bool)) (i j : nat) : bool := nth j (nth i m []) false.
Definition bm_identity (n : nat) : list (list bool) := map (fun i => map (Nat.eqb i) (seq 0 n)) (seq 0 n).
Definition bm_swap (i j : nat) (m : list (list bool)) : list (list bool) :=
  let a := nth i m [] in let b := nth j m [] in upd j (fun _ => a) (upd i (fun _ => b) m).
Definition bm_addrow (i j : nat) (m : list (list bool)) : list (list bool) :=
  let a := nth i m [] in upd j (fun r => zip_with xorb r a) m.
Fixpoint bm_find (i : nat) (todo j : nat) (mi : list (list bool) * list (list bool)) : list (list bool) * list (list bool) :=
  match todo with
  | O => mi
  | S t => if bit_at (fst mi) j i then (bm_swap i j (fst mi), bm_swap i j (snd mi)) else bm_find i t (S j) mi
  end.
Definition bm_clear (i : nat) (mi : list (list bool) * list (list bool)) (j : nat) : list (list bool) * list (list bool) :=
  if negb (j =? i) && bit_at (fst mi) j i then (bm_addrow i j (fst mi), bm_addrow i j (snd mi)) else mi.
Fixpoint bm_rows (n : nat) (todo i : nat) (mi : list (list bool) * list (list bool)) : option (list (list bool)) :=
  match todo with
  | O => Some (snd mi)
  | S t =>
      let mi := if bit_at (fst mi) i i then mi else bm_find i (n - S i) (S i) mi in
      if negb (bit_at (fst mi) i i) then None
      else bm_rows n t (S i) (fold_left (bm_clear i) (seq 0 n) mi)
  end.
Definition bm_invert (n : nat) (m : list (list bool)) : option (list (list bool)) :=
  bm_rows n n 0 (m, bm_identity n).

(** Choose and ithCombination (paxos.cc 120-166), uint64_t arithmetic. *)
Fixpoint choose (n : N) (k : nat) {struct k} : N :=
  match k with
  | O => 1%N
  | S k' => (u64 (n * choose (u64 (n + max64 - 1)) k') / N.of_nat k)%N
  end.
Fixpoint comb_start (todo : nat) (n i c : N) {struct todo} : N :=
  match todo with
  | O => c
  | S t => comb_start t (n - 1)%N (i + 1)%N (u64 (c * n) / i)%N
  end.
(** The inner while loop: returns (cur_index, nCk, n). *)
Fixpoint comb_while (fuel : nat) (index kk cur c n : N) {struct fuel} : outcome (N * N * N) :=
  if (index <? u64 (cur + max64 - c))%N then
    match fuel with
    | O => Diverge
    | S f =>
        let cur := u64 (cur + max64 - c) in
        let c := u64 (c * u64 (n + max64 - kk)) in
        let c := (c - c mod kk)%N in
        let n := u64 (n + max64 - 1) in
        if (n =? 0)%N then UB else comb_while f index kk cur (c / n)%N n
    end
  else Ok (cur, c, n).
Fixpoint comb_outer (k : nat) (index cur c n : N) (acc : list nat) {struct k} : outcome (list nat) :=
  match k with
  | O => Ok acc
  | S k' =>
      if (n =? 0)%N then UB else
      do r <- comb_while (N.to_nat n) index (N.of_nat k) cur (u64 (c * N.of_nat k) / n)%N n;
      let '(cur, c, n) := r in
      let n := u64 (n + max64 - 1) in
      comb_outer k' index cur c n (N.to_nat n :: acc)
  end.
Definition ith_combination (index : N) (n k : nat) : outcome (list nat) :=
  let c := comb_start k (N.of_nat n) 1 1 in
  comb_outer k index c c (N.of_nat n) [].

(** The dense value of a gap row and of the rows of FC^-1, and its bits in some columns
    (1519-1535, GetEPrime 1643-1666). *)
Definition comb_dense (dense : list N) (gap : nat * nat) (fc : list nat) : outcome N :=
  comb_value dense gap fc.
Definition e_prime (cols : list nat) (ds : list N) : list (list bool) :=
  map (fun d => map (fun c => N.testbit d (N.of_nat c)) cols) ds.
(** GetGapCols (1508-1546). *)
Fixpoint gap_search (fuel : nat) (ci e : N) (dense_size : nat) (ds : list N) {struct fuel} : outcome (list nat) :=
  match fuel with
  | O => Diverge
  | S f =>
      let g := length ds in
      do cols <- ith_combination ci dense_size g;
      enforce (ci + 1 <=? e)%N
        (match bm_invert g (e_prime cols ds) with
         | Some _ => Ok cols
         | None => gap_search f (ci + 1)%N e dense_size ds
         end)
  end.
Definition gap_cols (dense_size : nat) (ds : list N) : outcome (list nat) :=
  match ds with
  | [] => Ok []
  | _ => let e := choose (N.of_nat dense_size) (length ds) in
         gap_search (S (N.to_nat e)) 0 e dense_size ds
  end.

(** BackfillBinary (1302-1419) and BackfillBinaryU64 (1185-1291), the same on 64-bit
    values.  dense_masks[i] = 1ull << gap_cols[i]. *)
Definition bin_solve (s : nat) (cols : list nat) (inv : list (list bool)) (xx : list N) (p : list N) : outcome (list N) :=
  ofold (fun ic p =>
    do y <- vget p (s + snd ic);
    do y <- ofold (fun jx y => Ok (if bit_at inv (fst ic) (fst jx) then N.lxor y (snd jx) else y)) (number 0 xx) y;
    vset p (s + snd ic) y) (number 0 cols) p.
Definition bin_dense_sum (s : nat) (p : list N) (d : N) (cols : list nat) (y : N) : outcome N :=
  ofold (fun c y =>
    if N.testbit (d mod 2 ^ 64) (N.of_nat c) then do v <- vget p (s + c); Ok (N.lxor y v) else Ok y) cols y.
Definition bin_backfill1 (q : okvs_param) (rows : list (list nat)) (dense values : list N) (cols : list nat)
  (rc : nat * nat) (p : list N) : outcome (list N) :=
  let s := N.to_nat (ok_sparse q) in
  do y <- vget values (fst rc);
  do row <- vget rows (fst rc);
  do y <- sparse_sum p row y;
  enforce (ok_dense q <=? 64)
   (do d <- vget dense (fst rc);
    do y <- bin_dense_sum s p d cols y;
    vset p (snd rc) y).
Definition backfill_bin (q : okvs_param) (gmax : nat) (rows : list (list nat)) (dense values : list N)
  (main gaps : list (nat * nat)) (p : list N) : outcome (list N) :=
  let s := N.to_nat (ok_sparse q) in
  let g := length gaps in
  enforce (g <=? gmax)
   (do cp <- (if g =? 0 then Ok ([], p) else
       do fc <- fc_inv rows (s + ok_dense q) main gaps;
       do ds <- omapM (fun gf => comb_dense dense (fst gf) (snd gf)) (combine gaps fc);
       do cols <- gap_cols (ok_dense q) ds;
       enforce (length values =? length rows)
        (do xx <- omapM (fun gf => comb_value values (fst gf) (snd gf)) (combine gaps fc);
         match bm_invert g (e_prime cols ds) with
         | None => Throw   (* EEInv(i, j) on the empty matrix *)
         | Some inv =>
             do p <- bin_solve s cols inv xx p;
             if forallb (fun c => c <? 64) cols then Ok (cols, p) else UB
         end));
    let '(cols, p) := cp in
    ofold (bin_backfill1 q rows dense values cols) main p).

(** Encode (457-496) / EncodeU64 (411-454) after SetInput, on the given output. *)
Definition paxos_solve (avx : bool) (q : okvs_param) (gmax : nat) (rows : list (list nat)) (dense values p : list N)
  : outcome (list N) :=
  let s := N.to_nat (ok_sparse q) in
  enforce (length p =? s + ok_dense q)
   (do t <- triangulate s rows dense;
    match ok_dt q with
    | DGF128 => backfill_gf avx q rows dense values (t_main t) (t_gap t) p
    | DBinary => backfill_bin q gmax rows dense values (t_main t) (t_gap t) p
    end).

(** Init (paxos.cc 220-236), SetInput, Encode: w is the width of IdxType. *)
Definition paxos_init (w : N) (q : okvs_param) (num_items : nat) : outcome nat :=
  enforce (ok_sparse q <? 2 ^ w - 1)%N
   (enforce (N.of_nat num_items <=? ok_sparse q + N.of_nat (ok_dense q))%N
     (Ok (N.to_nat (cast w (N.of_nat num_items))))).
Definition paxos_encode (aes : N -> N) (avx : bool) (w : N) (q : okvs_param) (gmax : nat) (num_items : nat)
  (inputs values output : list N) : outcome (list N) :=
  do n <- paxos_init w q num_items;
  do rd <- set_input aes avx w q n inputs;
  paxos_solve avx q gmax (fst rd) (snd rd) values output.
