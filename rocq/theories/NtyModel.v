(** Model of multi-party PSI with an aided server (psi/algorithm/nty/nty_mp_psi.cc and
    server_aided_psi.cc).  All parties are run together: what one party sends is what the
    other receives.

    Given: AES under a key ([enc], [dec]), the hash of every OKVS ([cr i]: AesCrHash under
    the seed party i drew), the sizes Baxos::Init computes from a number of items (floating
    point, [shape]; both ends call it with the count of the sending party), random seeds,
    std::shuffle as some permutation.  AllGatherItemsSize tells everybody the true counts. *)
From Coq Require Import List Arith NArith Bool.
From Verif Require Import Base StoreModel JoinModel OkvsModel Rr22OprfModel PaxEncModel BaxEncModel.
Import ListNotations.
Local Open Scope N_scope.

Record okvs_shape := mk_shape { sh_bins : nat; sh_param : okvs_param; sh_gap : nat; sh_ipb : nat }.
Definition sh_size (s : okvs_shape) : nat := (sh_bins s * (N.to_nat (ok_sparse (sh_param s)) + ok_dense (sh_param s)))%nat.

(** How a party computes: CPU, threads, the buffer size and the order in which its threads
    finish the bins (see BaxEncModel). *)
Record machine := mk_machine { m_avx : bool; m_threads : nat; m_cap : nat; m_order : list nat }.

(** std::set_intersection on sorted vectors (server_aided_psi.cc 104-107). *)
Fixpoint nset_inter (a : list N) : list N -> list N :=
  match a with
  | [] => fun _ => []
  | x :: a' =>
      fix go (b : list N) : list N :=
        match b with
        | [] => []
        | y :: b' => if x <? y then nset_inter a' b
                     else if y <? x then go b'
                     else x :: nset_inter a' b'
        end
  end.
(** ServerAssist (server_aided_psi.cc 84-117): both vectors are sorted and intersected. *)
Definition server_assist (helper receiver : list N) : list N :=
  nset_inter (sort_by N.leb helper) (sort_by N.leb receiver).

(** google::dense_hash_map<uint128_t, uint32_t>: insert keeps what is there; the empty key
    (nty_mp_psi.cc 372, drawn at random) must be neither inserted nor looked up. *)
Definition dmap_insert (empty k v : N) (m : list (N * N)) : outcome (list (N * N)) :=
  if k =? empty then UB
  else if existsb (fun kv => fst kv =? k) m then Ok m else Ok (m ++ [(k, v)]).
Definition dmap_find (empty k : N) (m : list (N * N)) : outcome (option N) :=
  if k =? empty then UB
  else Ok (match find (fun kv => fst kv =? k) m with Some kv => Some (snd kv) | None => None end).
(** GetIntersection (nty_mp_psi.cc 368-388). *)
Definition nty_intersection (empty : N) (inputs hashed raw : list N) : outcome (list N) :=
  do m <- ofold (fun ih m => dmap_insert empty (snd ih) (u32 (N.of_nat (fst ih))) m) (number 0 hashed) [];
  do idx <- ofold (fun r acc => do f <- dmap_find empty r m; Ok (match f with Some i => acc ++ [i] | None => acc end)) raw [];
  ofold (fun i acc => do x <- vget inputs (N.to_nat i); Ok (acc ++ [x])) idx [].

Section NTY.
Variable enc dec : N -> N -> N.
Variable cr : nat -> N -> N.
Variable shape : nat -> okvs_shape.
Variable mach : nat -> machine.

(** GenOkvs (nty_mp_psi.cc 324-343) of party i: the messages of SendChunked. *)
Definition gen_okvs (i : nat) (items values : list N) : outcome (list (list N)) :=
  let s := shape (length items) in let m := mach i in
  do p <- baxos_solve (cr i) (m_avx m) (sh_bins s) (sh_param s) (sh_gap s) (length items) (m_cap m) (sh_ipb s) (m_threads m)
            (m_order m) items values (repeat 0 (sh_size s));
  Ok (send_chunked send_chunk_size p).
(** DecodeOkvs (346-364) by party j of the table of party i, which has count items. *)
Definition decode_okvs (j i count : nat) (items : list N) (msgs : list (list N)) : outcome (list N) :=
  let s := shape count in let m := mach j in
  do got <- recv_chunked (sh_size s) [] msgs;
  baxos_decode (cr i) (m_avx m) (sh_bins s) (sh_param s) (m_threads m) (fst got) items.

Section Roles.
(** World size, the three ranks, the inputs of every party and its PRF seed (drawn by the
    aided server), the seed the helper draws for the two-party PSI, and the two shuffles. *)
Variable wsize srv hlp rcv : nat.
Variable inputs : nat -> list N.
Variable seed : nat -> N.
Variable key : N.
Variable shufH shufR : list N -> list N.
Variable empty : N.
Variable broadcast : bool.

(** Everybody but the three (nty_mp_psi.cc 97-101, 143-144, 154-155). *)
Definition nty_others : list nat :=
  filter (fun i => negb (Nat.eqb i srv || Nat.eqb i hlp || Nat.eqb i rcv)) (seq 0 wsize).

(** AES_ecb_encrypt_blks of all inputs; element-wise xor. *)
Definition prf (k : N) (xs : list N) : list N := map (enc k) xs.
Definition xor_into (acc tmp : list N) : list N := zip_with N.lxor acc tmp.

(** The values the aided server encodes: MultiPartyPsi 108-118, ThreePartyPsi 254-258. *)
Definition server_values : list N :=
  if Nat.eqb wsize 3 then prf (seed hlp) (inputs srv)
  else fold_left (fun acc k => xor_into acc (prf (seed k) (inputs srv))) nty_others (repeat 0 (length (inputs srv))).

(** The helper's values: MultiPartyPsi 134-166 - it decodes the table of every other party,
    received by threads of their own -, ThreePartyPsi 273-288. *)
Definition helper_values : outcome (list N) :=
  let H := inputs hlp in
  if Nat.eqb wsize 3 then Ok (xor_into H (prf (seed hlp) H))
  else
    do ds <- omapM (fun i => do msgs <- gen_okvs i (inputs i) (prf (seed i) (inputs i));
                             decode_okvs hlp i (length (inputs i)) H msgs) nty_others;
    Ok (xor_into H (fold_left xor_into ds (repeat 0 (length H)))).
(** The receiver's values (181-187 and 300-306). *)
Definition receiver_values : outcome (list N) :=
  let R := inputs rcv in
  do msgs <- gen_okvs srv (inputs srv) server_values;
  do d <- decode_okvs rcv srv (length (inputs srv)) R msgs;
  Ok (xor_into R d).

(** Constructor checks (48-59) and Run (70-86): what every party returns. *)
Definition nty_run : outcome (list (list N)) :=
  enforce (negb (Nat.eqb srv hlp) && negb (Nat.eqb srv rcv) && negb (Nat.eqb hlp rcv))
  (enforce ((srv <? wsize)%nat && (hlp <? wsize)%nat && (rcv <? wsize)%nat)
  (enforce (3 <=? wsize)%nat
   (do hv <- helper_values;
    do rv <- receiver_values;
    (* SendEncItems of both (server_aided_psi.cc 26-40), ServerAssist, decryption (51-68) *)
    let raw := map (dec key) (server_assist (shufH (prf key hv)) (shufR (prf key rv))) in
    do res <- nty_intersection empty (inputs rcv) rv raw;
    Ok (map (fun i => if Nat.eqb i rcv || broadcast then res else []) (seq 0 wsize))))).
End Roles.
End NTY.
