(** Model of SealPIR: psi/algorithm/sealpir/seal_pir.cc 35-246 (sizes, packing, decomposition), 287-321
    (SetPirParams), 741-836 (GenerateFromRawData), 989-1212 (GenerateResponse, ExpandQuery, MultiplyPowerOfX)
    and 1254-1470 (queries, decoding), MemoryDbPlaintextStore (seal_pir_utils.cc 36-56) and
    RawDatabase::Partition (PirPackModel).

    SEAL is external: encryption, decryption, add, multiply_plain, apply_galois, mod_switch_to and the batch
    encoder are arguments.  A ciphertext is the list of its polynomials, each the words data(i)[j * N + k]; a
    plaintext is the list of its coefficients; NTT form is a change of representation and is left out (the first
    dimension multiplies by plaintexts that only Dump and Load put in NTT form; multiply_plain of the SEAL 4.1
    that MODULE.bazel names takes them in either form), and so is serialisation.  yacl::parallel_for is a plain loop: iterations write different entries.  Sizes are
    nat and do not wrap where they are bounded by objects in memory; products of dimensions are computed with the
    types of the code.  floor(pow(n, 1.0 / d)) and ceil(log2(q) / logt) are arguments (floating point);
    ceil of other quotients and logarithms is exact. *)
From Coq Require Import List Arith NArith Bool.
From Verif Require Import Base StoreModel PirPackModel SpLoopModel NttModel SpArithModel Text.
Import ListNotations.

Definition ceil_div (a b : nat) : nat := (a + b - 1) / b.

(** * Sizes *)

(** ElementsPerPtxt (35-44), PlaintextsPerDb (46-50), CoefficientsPerElement (64-66). *)
Definition coeffs_per_element (logt ele_size : nat) : nat := ceil_div (ele_size * 8) logt.
Definition elements_per_ptxt (logt n ele_size : nat) : outcome nat :=
  if logt * n / 8 <? ele_size then Ok 1
  else if (logt =? 0) || (coeffs_per_element logt ele_size =? 0) then UB
  else enforce (0 <? n / coeffs_per_element logt ele_size) (Ok (n / coeffs_per_element logt ele_size)).

(** accumulate from a uint64_t 1, and from the int 1: the accumulator is then an int. *)
Definition prod64 (dims : list nat) : N := fold_left (fun a d => u64 (a * N.of_nat d)%N) dims 1%N.
Definition sext32 (x : N) : N := if (u32 x <? 2 ^ 31)%N then u32 x else (u32 x + (2 ^ 64 - 2 ^ 32))%N.
Definition prod_int (dims : list nat) : N := fold_left (fun a d => sext32 (u64 (a * N.of_nat d))%N) dims 1%N.

(** GetDimensions (68-92); [fpow] is floor(pow(n, 1.0 / d)). *)
Fixpoint sl_grow (k i : nat) (num : N) (dims : list nat) : list nat :=
  match k with
  | O => dims
  | S k => if (num <? prod64 dims)%N then dims else sl_grow k (S i) num (upd i S dims)
  end.
Definition get_dimensions (fpow : nat -> nat -> nat) (num d : nat) : outcome (list nat) :=
  enforce (0 <? d) (enforce (0 <? num) (
  let dims := sl_grow d 0 (N.of_nat num) (repeat (Nat.max 2 (fpow num d)) d) in
  enforce (N.of_nat num <=? prod64 dims)%N (Ok dims))).

(** ComputeIndices (156-172). *)
Fixpoint indices_loop (dims : list nat) (prod j : N) : outcome (list N) :=
  match dims with
  | [] => Ok []
  | d :: r =>
    if d =? 0 then UB else
    let prod := (prod / N.of_nat d)%N in
    if (prod =? 0)%N then UB else
    do rs <- indices_loop r prod (j mod prod)%N;
    Ok ((j / prod)%N :: rs)
  end.
Definition compute_indices (idx : nat) (dims : list nat) : outcome (list N) :=
  indices_loop dims (prod_int dims) (N.of_nat idx).

(** What pir_params_ keeps, with the degree N. *)
Record seal_params := SealParams {
  sl_n : nat; sl_logt : nat; sl_num : nat; sl_size : nat; sl_epp : nat; sl_npt : nat; sl_psize : nat; sl_pnum : nat;
  sl_dims : list nat }.
(** SetPirParams (287-321). *)
Definition set_pir_params (fpow : nat -> nat -> nat) (n logt ele_num ele_size d : nat) : outcome seal_params :=
  do epp <- elements_per_ptxt logt n ele_size;
  let npt := ceil_div ele_num epp in
  let psize := logt * n / 8 in
  if psize =? 0 then UB else
  let pnum := (ele_size + psize - 1) / psize in
  do dims <- get_dimensions fpow npt d;
  Ok (SealParams n logt ele_num ele_size epp npt psize pnum dims).

(** * Packing *)

(** BytesToCoeffs (94-122).  State: output, index of target, room. *)
Fixpoint sl_byte (fuel logt : nat) (src : N) (rest : nat) (st : list N * nat * nat) {struct fuel} : outcome (list N * nat * nat) :=
  match fuel with
  | O => Ok st
  | S f =>
    if rest =? 0 then Ok st else
    let '(out, target, room) := st in
    let '(target, room) := if room =? 0 then (S target, logt) else (target, room) in
    let shift := Nat.min rest room in
    match nth_error out target with
    | None => UB
    | Some c =>
      let c := N.lor (u64 (N.shiftl c (N.of_nat shift))) (N.shiftr src (N.of_nat (8 - shift))) in
      sl_byte f logt (N.shiftl src (N.of_nat shift) mod 256)%N (rest - shift) (upd target (fun _ => c) out, target, room - shift)
    end
  end.
Fixpoint sl_bytes (logt : nat) (bytes : list N) (st : list N * nat * nat) : outcome (list N * nat * nat) :=
  match bytes with
  | [] => Ok st
  | b :: r => do st <- sl_byte 9 logt b 8 st; sl_bytes logt r st
  end.
Definition sl_pack (logt : nat) (bytes : list N) : outcome (list N) :=
  if logt =? 0 then UB else
  do st <- sl_bytes logt bytes (repeat 0%N (coeffs_per_element logt (length bytes)), 0, logt);
  let '(out, target, room) := st in
  if 64 <=? room then UB else
  match nth_error out target with
  | None => UB
  | Some c => Ok (upd target (fun _ => u64 (N.shiftl c (N.of_nat room))) out)
  end.

(** ele_size * 8 in uint32_t. *)
Definition ele_bits (ele_size : nat) : nat := N.to_nat (u32 (N.of_nat (ele_size * 8))).
(** CoeffsToBytes (124-155).  State of the inner loop: output, room, j, bits_left. *)
Fixpoint sl_coeff (fuel logt : nat) (src : N) (rest : nat) (st : list N * nat * nat * nat) {struct fuel}
  : outcome (list N * nat * nat * nat) :=
  match fuel with
  | O => Ok st
  | S f =>
    let '(out, room, j, bl) := st in
    if (rest =? 0) || negb (j <? length out) then Ok st else
    let shift := Nat.min rest room in
    if 64 <=? logt - shift then UB else
    match nth_error out j with
    | None => UB
    | Some b =>
      let b := (N.shiftl b (N.of_nat shift) mod 256)%N in
      let b := (N.lor b (N.shiftr src (N.of_nat (logt - shift))) mod 256)%N in
      let out := upd j (fun _ => b) out in
      let room := room - shift in
      sl_coeff f logt (u64 (N.shiftl src (N.of_nat shift))) (rest - shift)
               (if room =? 0 then (out, 8, S j, bl - shift) else (out, room, j, bl - shift))
    end
  end.
Fixpoint sl_coeffs (logt ele_size : nat) (cs : list N) (st : list N * nat * nat * nat) : outcome (list N * nat * nat * nat) :=
  match cs with
  | [] => Ok st
  | c :: r =>
    let '(out, room, j, bl) := st in
    let bl := if bl =? 0 then ele_bits ele_size else bl in
    do st <- sl_coeff (S logt) logt c (Nat.min logt bl) (out, room, j, bl);
    sl_coeffs logt ele_size r st
  end.
Definition sl_unpack (logt : nat) (cs : list N) (out_len ele_size : nat) : outcome (list N) :=
  do st <- sl_coeffs logt ele_size cs (repeat 0%N out_len, 8, 0, ele_bits ele_size);
  let '(out, _, _, _) := st in Ok out.

Section Seal.
(** BatchEncoder. *)
Variable encode decode : list N -> list N.
Variable P : seal_params.
Let n : nat := sl_n P.
Let logt : nat := sl_logt P.

(** * The database *)

(** The while loop that collects the elements of one plaintext; [todo] is ele_num - offset. *)
Fixpoint take_chunk (todo : nat) (db : list bytes) (loc cap offset process : nat) (acc : list N) : outcome (list N * nat * nat) :=
  match todo with
  | O => Ok (acc, offset, process)
  | S t =>
    if process + loc <=? cap then
      do row <- (match nth_error db offset with Some r => Ok r | None => Throw end);
      take_chunk t db loc cap (S offset) (process + loc) (acc ++ row)
    else Ok (acc, offset, process)
  end.

(** One plaintext: the coefficients of its elements, padded with ones (768-815). *)
Definition pack_chunk (loc cpe cpp ele_in_chunk : nat) (bytes : list N) : outcome (list N) :=
  do cs <- loop ele_in_chunk 0 (fun ele coeffs =>
      do e <- sl_pack logt (firstn loc (skipn (loc * ele) bytes));
      store (cpe * ele) e coeffs) (repeat 0%N cpp);
  Ok (encode (cs ++ repeat 1%N (n - length cs))).

(** One partition (763-832): the plaintexts saved. *)
Definition gen_partition (part : raw_db) : outcome (list (list N)) :=
  do first <- (match nth_error (rd_db part) 0 with Some r => Ok r | None => Throw end);
  let loc := length first in
  let cap := sl_epp P * loc in
  let cpe := coeffs_per_element logt loc in
  let cpp := sl_epp P * cpe in
  enforce (cpp <=? n) (
  do (pts, _) <- loop (sl_npt P) 0 (fun _ '(pts, offset) =>
      do (bs, offset, process) <- take_chunk (sl_num P - offset) (rd_db part) loc cap offset 0 [];
      enforce (length bs =? process) (
      if loc =? 0 then UB else
      do pt <- pack_chunk loc cpe cpp (process / loc) bs;
      Ok (pts ++ [pt], offset))) ([], 0);
  Ok (pts ++ repeat (repeat 1%N n) (N.to_nat (prod64 (sl_dims P)) - length pts))).

(** GenerateFromRawData (741-836): SavePlaintexts appends to what the stores hold. *)
Definition gen_from_raw (old : list (list (list N))) (db : raw_db) : outcome (list (list (list N))) :=
  do parts <- partition db (sl_psize P);
  enforce (sl_pnum P =? length parts) (
  enforce (N.of_nat (sl_npt P) <? prod64 (sl_dims P))%N (
  map_out (fun i => do part <- get i parts; do o <- get i old; do pts <- gen_partition part; Ok (o ++ pts)) (seq 0 (sl_pnum P)))).

(** The stores of a new server (seal_pir.cc 613-622). *)
Definition new_stores : list (list (list N)) := repeat [] (sl_pnum P).

(** * The answer *)

(** seal::Ciphertext: data(i)[j * N + k]. *)
Definition cipher : Type := list (list N).

(** SEAL; [moduli] are the moduli of a fresh ciphertext (coeff_modulus() without the last) and [last] those
    of last_context_data(); [ratio] is ceil(log2(q) / logt). *)
Variable galois : cipher -> nat -> cipher.
Variable cadd : cipher -> cipher -> cipher.
Variable cmul : cipher -> list N -> outcome cipher.
Variable mod_switch_last : cipher -> cipher.
Variable moduli last : list N.
Variable ratio : N -> nat.

(** seal::util::negacyclic_shift_poly_coeffmod. *)
Definition shift_word (q : N) (s : nat) (w : list N) (k : nat) : N :=
  if k <? s then let x := nth (n + k - s) w 0%N in if (x =? 0)%N then x else sub_u64 q x
  else nth (k - s) w 0%N.
Definition shift_words (q : N) (s : nat) (w : list N) : list N := map (shift_word q s w) (seq 0 n).

(** MultiplyPowerOfX (1182-1212). *)
Definition mulx_words (index : nat) (q : N) (w : list N) : list N :=
  if n <=? index then shift_words q (index mod n) (map (fun x => sub_u64 q x) w) else shift_words q (index mod n) w.
Definition multiply_power_of_x (index : nat) (c : cipher) : cipher :=
  map (fun d => concat (map (fun j => mulx_words index (nth j moduli 0%N) (firstn n (skipn (j * n) d))) (seq 0 (length moduli)))
                ++ skipn (length moduli * n) d) c.

(** ExpandQuery (1113-1180): the two ciphertexts made of tmp[j] in round i. *)
Definition galelt (i : nat) : nat := (n + 2 ^ i) / 2 ^ i.
Definition expand_pair (i : nat) (c : cipher) : cipher * cipher :=
  let index_raw := 2 * n - 2 ^ i in
  let index := (index_raw + n) mod (2 * n) in
  let rotated := galois c (galelt i) in
  (cadd c rotated, cadd (multiply_power_of_x index_raw c) (multiply_power_of_x index rotated)).
Definition expand_query (c : cipher) (m : nat) : outcome (list cipher) :=
  let logm := Nat.log2_up m in
  enforce (logm <=? Nat.log2_up n) (
  if logm =? 0 then Ok [c] else
  do tmp <- loop (logm - 1) 0 (fun i tmp =>
      let ps := map (expand_pair i) tmp in Ok (map fst ps ++ map snd ps)) [c];
  do ps <- map_out (fun jc =>
      if fst jc <? m - 2 ^ (logm - 1) then Ok (expand_pair (logm - 1) (snd jc))
      else do x <- cmul (snd jc) [2%N]; Ok (x, [])) (List.combine (seq 0 (length tmp)) tmp);
  Ok (firstn m (map fst ps ++ map snd ps))).

(** The ciphertexts of one dimension (1015-1037). *)
Definition dim_total (ni num j : nat) : nat :=
  if (j =? num - 1) && negb (ni mod n =? 0) then ni mod n else n.
Definition expand_dim (ni : nat) (query : list cipher) : outcome (list cipher) :=
  do es <- map_out (fun j => do c <- get j query; expand_query c (dim_total ni (length query) j)) (seq 0 (length query));
  enforce (length (concat es) =? ni) (Ok (concat es)).

(** Column k of the product with the plaintexts (1055-1071). *)
Definition select_column (ni prod : nat) (e : list cipher) (cur : list (list N)) (k : nat) : outcome cipher :=
  do e0 <- get 0 e;
  do p0 <- get k cur;
  do acc <- cmul e0 p0;
  loop (ni - 1) 1 (fun j acc =>
    do ej <- get j e;
    do pj <- get (j * prod + k) cur;
    do tmp <- cmul ej pj;
    Ok (cadd acc tmp)) acc.

(** DecomposeToPlaintexts (174-206). *)
Definition digit_poly (w : list N) (i : nat) : outcome (list N) :=
  if 64 <=? i * logt then UB
  else Ok (map (fun x => N.land (N.shiftr x (N.of_nat (i * logt))) (2 ^ N.of_nat logt - 1)%N) w).
Definition decompose_poly (qs : list N) (d : list N) : outcome (list (list N)) :=
  do ls <- map_out (fun j =>
      do q <- get j qs;
      if j * n + n <=? length d then map_out (digit_poly (firstn n (skipn (j * n) d))) (seq 0 (ratio q)) else UB) (seq 0 (length qs));
  Ok (concat ls).
Definition decompose (c : cipher) : outcome (list (list N)) :=
  do ls <- map_out (decompose_poly last) c;
  Ok (concat ls).

(** The recursion levels (1007-1108) from level i on; [prod] and [cur] on entry. *)
Fixpoint answer_levels (dims : list nat) (i : nat) (query : list (list cipher)) (prod : nat) (cur : list (list N))
  : outcome (list cipher) :=
  match dims with
  | [] => UB
  | ni :: r =>
    do qi <- get i query;
    do e <- expand_dim ni qi;
    if ni =? 0 then UB else
    let prod := prod / ni in
    do cts <- map_out (select_column ni prod e cur) (seq 0 prod);
    match r with
    | [] => Ok cts
    | _ =>
      do ps <- map_out (fun c => decompose (mod_switch_last c)) cts;
      answer_levels r (S i) query (length (concat ps)) (concat ps)
    end
  end.

(** GenerateResponse (989-1111). *)
Definition gen_response (stores : list (list (list N))) (query : list (list cipher)) : outcome (list (list cipher)) :=
  map_out (fun i => do db <- get i stores;
                    answer_levels (sl_dims P) 0 query (N.to_nat (prod64 (sl_dims P))) db) (seq 0 (sl_pnum P)).

(** * The client *)

(** Encryptor::encrypt_symmetric, the randomness numbered, and Decryptor::decrypt; [t] is the plain modulus and
    [invert] try_invert_uint_mod. *)
Variable encrypt : nat -> list N -> cipher.
Variable decrypt : cipher -> list N.
Variable t : N.
Variable invert : N -> N -> option N.

(** GenerateQuery and GenerateSeededQuery (1267-1343). *)
Definition query_poly (ni num j idx : nat) : outcome (list N) :=
  if (j * n <=? idx) && (idx <? (j + 1) * n) then
    do v <- of_option (invert (2 ^ N.of_nat (Nat.log2_up (dim_total ni num j))) t);
    put (idx - j * n) v (repeat 0%N n)
  else Ok (repeat 0%N n).
Definition gen_query (rnd : nat -> nat -> nat) (pt_idx : nat) : outcome (list (list cipher)) :=
  do indices <- compute_indices pt_idx (sl_dims P);
  map_out (fun i =>
    do ni <- get i (sl_dims P);
    do idx <- get i indices;
    let num := ceil_div ni n in
    map_out (fun j => do pt <- query_poly ni num j (N.to_nat idx); Ok (encrypt (rnd i j) pt)) (seq 0 num)) (seq 0 (length indices)).
(** GetPtIndex and GetPtOffset (1448-1455), GenerateIndexQuery (1254-1259). *)
Definition gen_index_query (rnd : nat -> nat -> nat) (raw_idx : nat) : outcome (list (list cipher)) :=
  if sl_epp P =? 0 then UB else gen_query rnd (raw_idx / sl_epp P).

(** ComputeExpansionRatio (54-63) of the last parameters. *)
Definition expansion_ratio : nat := list_sum (map ratio last).
(** ComposeToCiphertext (208-239) of [pts]. *)
Definition add_digit (shift : nat) (p : list N) (w : list N) : outcome (list N) :=
  if 64 <=? shift then UB else
  loop (length p) 0 (fun j w =>
    do x <- get j w; do y <- get j p;
    put j (if shift =? 0 then y else u64 (x + u64 (N.shiftl y (N.of_nat shift)))) w) w.
Definition compose_words (r : nat) (pts : list (list N)) : outcome (list N) :=
  loop r 0 (fun i w => do p <- get i pts; add_digit (i * logt) p w) (repeat 0%N n).
Definition compose (pts : list (list N)) : outcome cipher :=
  let er := expansion_ratio in
  if er =? 0 then UB else
  do (c, _) <- loop (length pts / er) 0 (fun _ '(c, pts) =>
      do (d, pts) <- loop (length last) 0 (fun j '(d, pts) =>
          do q <- get j last;
          do w <- compose_words (ratio q) pts;
          Ok (d ++ w, skipn (ratio q) pts)) ([], pts);
      Ok (c ++ [d], pts)) ([], pts);
  Ok c.

(** One level of DecodeResponse (1391-1416): the ciphertexts composed and the plaintexts left over. *)
Definition decode_level (count : nat) (tmp : list cipher) : outcome (list cipher * list (list N)) :=
  loop (length tmp) 0 (fun j '(newtmp, plain) =>
    do c <- get j tmp;
    let plain := plain ++ [decrypt c] in
    if negb (j =? 0) && ((j + 1) mod (expansion_ratio * count) =? 0) then
      do c <- compose plain; Ok (newtmp ++ [c], [])
    else Ok (newtmp, plain)) ([], []).
Fixpoint decode_levels (d count : nat) (tmp : list cipher) : outcome (list N) :=
  match d with
  | O => UB
  | S d' =>
    do (newtmp, plain) <- decode_level count tmp;
    match d' with
    | O => enforce (length tmp =? 1) (get 0 plain)
    | _ => decode_levels d' count newtmp
    end
  end.
Definition decode_partition (tmp : list cipher) : outcome (list N) :=
  do c0 <- get 0 tmp;
  decode_levels (length (sl_dims P)) (length c0) tmp.

(** ExtractBytes (1457-1470). *)
Definition extract_bytes (pt : list N) (offset loc : nat) : outcome (list N) :=
  do elems <- sl_unpack logt (decode pt) (sl_epp P * sl_size P) (sl_size P);
  slice_row elems (offset * loc) ((offset + 1) * loc).

(** DecodeResponse (1352-1421). *)
Definition decode_index_response (response : list (list cipher)) (raw_idx : nat) : outcome (list N) :=
  if sl_epp P =? 0 then UB else
  do pts <- map_out (fun i => do r <- get i response; decode_partition r) (seq 0 (sl_pnum P));
  do parts <- map_out (fun i =>
      do pt <- get i pts;
      let loc := if i =? sl_pnum P - 1 then sl_size P - i * sl_psize P else sl_psize P in
      extract_bytes pt (raw_idx mod sl_epp P) loc) (seq 0 (sl_pnum P));
  Ok (concat parts).
End Seal.
