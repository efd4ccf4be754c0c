(** Model of SimplePIR: experiment/pir/simplepir/{client,server,util,network_util}.cc.

    Machine words are integers; the arithmetic of uint64_t and uint128_t is written with an
    explicit modulus.  Random values (the output of PrgAesCtr on the seed, the secret vector, the
    Gaussian errors) are arguments.
    Simplified: sqrt of the double of N is the exact root of a perfect square and
    floor(double(q) / double(p)) is the integer quotient, as both are for N, q, p below 2^53;
    the construction of the Gaussian table (client.cc 92-139) is left out, an error is any int. *)
From Coq Require Import List ZArith NArith Bool Arith.
From Verif Require Import Base Text Rr22MatchModel OkvsModel.
Import ListNotations.
Local Open Scope Z_scope.

Definition w64 (x : Z) : Z := x mod 2 ^ 64.
Definition w128 (x : Z) : Z := x mod 2 ^ 128.

(** InnerProductModq (util.cc 44-59). *)
Definition inner_modq (row col : list Z) (q : Z) : outcome Z :=
  enforce (Nat.eqb (length row) (length col))
   (enforce (0 <? q)
     (Ok (fold_left (fun result rc => w128 (result + fst rc * snd rc)) (combine row col) 0 mod q))).

Record sim_server := { ss_dim : nat; ss_q : Z; ss_n : nat; ss_db : list (list Z); ss_a : list (list Z) }.
Record sim_client := { sc_dim : nat; sc_q : Z; sc_n : nat; sc_p : Z; sc_delta : Z;
                       sc_row : nat; sc_s : list Z; sc_hint : list (list Z); sc_a : list (list Z) }.

(** The constructors (client.cc 22-38, server.cc 23-33). *)
Definition params_ok (dim : nat) (q : Z) (n : nat) (p : Z) : bool :=
  (Nat.ltb 0 n && Nat.eqb n (Nat.sqrt n * Nat.sqrt n) && Nat.ltb 0 dim && (0 <? q) && (0 <? p))%bool.
Definition sim_server_new (dim : nat) (q : Z) (n : nat) (p : Z) : outcome sim_server :=
  enforce (params_ok dim q n p) (Ok {| ss_dim := dim; ss_q := q; ss_n := n; ss_db := []; ss_a := [] |}).
Definition sim_client_new (dim : nat) (q : Z) (n : nat) (p : Z) : outcome sim_client :=
  enforce (params_ok dim q n p)
    (Ok {| sc_dim := dim; sc_q := q; sc_n := n; sc_p := p; sc_delta := q / p;
           sc_row := 0; sc_s := []; sc_hint := []; sc_a := [] |}).

(** SetDatabase (server.cc 35-50): only the first row's length is looked at. *)
Definition set_database (s : sim_server) (db : list (list Z)) : outcome sim_server :=
  let m := Nat.sqrt (ss_n s) in
  match db with
  | [] => Throw
  | r0 :: _ =>
      enforce (Nat.eqb (length db) m)
       (enforce (Nat.eqb (length r0) m)
         (Ok {| ss_dim := ss_dim s; ss_q := ss_q s; ss_n := ss_n s; ss_db := db; ss_a := ss_a s |}))
  end.

(** GenerateLweMatrix (server.cc 52-64); [rv] is what the generator yields for the seed. *)
Definition lwe_matrix (rv : list Z) (s : sim_server) : sim_server :=
  let m := Nat.sqrt (ss_n s) in
  {| ss_dim := ss_dim s; ss_q := ss_q s; ss_n := ss_n s; ss_db := ss_db s;
     ss_a := map (fun i => map (fun j => nth (i * m + j) rv 0 mod ss_q s) (seq 0 m)) (seq 0 (ss_dim s)) |}.

(** GetHint (server.cc 68-83). *)
Definition get_hint (s : sim_server) : outcome (list Z) :=
  do rows <- omapM (fun i => omapM (fun j => inner_modq (nth i (ss_db s) []) (nth j (ss_a s) []) (ss_q s))
                                   (seq 0 (ss_dim s)))
                   (seq 0 (Nat.sqrt (ss_n s)));
  Ok (concat rows).

(** Answer (server.cc 85-95). *)
Definition sim_answer (s : sim_server) (qu : list Z) : outcome (list Z) :=
  omapM (fun i => inner_modq (nth i (ss_db s) []) qu (ss_q s)) (seq 0 (Nat.sqrt (ss_n s))).

(** GetValue (server.cc 97-106). *)
Definition sim_value (s : sim_server) (idx : nat) : outcome Z :=
  let m := Nat.sqrt (ss_n s) in
  enforce (Nat.ltb idx (ss_n s)) (Ok (nth (Nat.modulo idx m) (nth (Nat.div idx m) (ss_db s) []) 0)).

(** Setup (client.cc 40-55); a hint vector that is too short is read past its end. *)
Definition sim_setup (rv : list Z) (hint_vec : list Z) (c : sim_client) : outcome sim_client :=
  let m := Nat.sqrt (sc_n c) in
  if Nat.ltb (length hint_vec) (m * sc_dim c) then UB
  else Ok {| sc_dim := sc_dim c; sc_q := sc_q c; sc_n := sc_n c; sc_p := sc_p c; sc_delta := sc_delta c;
             sc_row := sc_row c; sc_s := sc_s c;
             sc_hint := map (fun i => map (fun j => nth (i * sc_dim c + j) hint_vec 0) (seq 0 (sc_dim c))) (seq 0 m);
             sc_a := map (fun i => map (fun j => nth (j * m + i) rv 0 mod sc_q c) (seq 0 (sc_dim c))) (seq 0 m) |}.

(** Query (client.cc 59-85).  [secret] are the 64-bit values RandU64 gives GenerateRandomVector
    (util.cc 22-42), [errs] the samples of SampleGaussian.  The new state keeps row and secret. *)
Definition sim_query (secret errs : list Z) (c : sim_client) (idx : nat) : outcome (sim_client * list Z) :=
  enforce (Nat.ltb idx (sc_n c))
   (let m := Nat.sqrt (sc_n c) in
    let col := Nat.modulo idx m in
    enforce (Nat.ltb 0 (sc_dim c))
     (enforce (1 <? sc_q c)
       (let s := map (fun i => nth i secret 0 mod sc_q c) (seq 0 (sc_dim c)) in
        do qu <- omapM (fun i =>
                   do ip <- inner_modq (nth i (sc_a c) []) s (sc_q c);
                   let x := w64 (ip + (if Nat.eqb i col then sc_delta c else 0)) in
                   let x := w64 (x + w64 (nth i errs 0)) in
                   Ok (x mod sc_q c)) (seq 0 m);
        Ok ({| sc_dim := sc_dim c; sc_q := sc_q c; sc_n := sc_n c; sc_p := sc_p c; sc_delta := sc_delta c;
               sc_row := Nat.div idx m; sc_s := s; sc_hint := sc_hint c; sc_a := sc_a c |}, qu)))).

(** Recover (client.cc 82-90): [phase] is a uint64_t and is not reduced modulo q. *)
Definition sim_recover (c : sim_client) (ans : list Z) : outcome Z :=
  match nth_error ans (sc_row c), nth_error (sc_hint c) (sc_row c) with
  | Some a, Some h =>
      do hs <- inner_modq h (sc_s c) (sc_q c);
      let phase := w64 (a - hs) in
      if sc_delta c =? 0 then UB
      else
        let d := if phase mod sc_delta c >=? sc_delta c / 2
                 then w64 (phase / sc_delta c + 1) else phase / sc_delta c in
        Ok (d mod sc_p c)
  | _, _ => UB
  end.

(** SerializeVector and DeserializeVector (network_util.cc 22-40, 49-70): a count of eight bytes,
    then eight bytes for each element; reading past the end of the buffer is undefined. *)
Definition sim_encode (data : list N) : bytes :=
  to_bytes 8 (N.of_nat (length data)) ++ concat (map (to_bytes 8) data).
Fixpoint sim_read (count : nat) (b : bytes) : outcome (list N) :=
  match count with
  | O => Ok []
  | S k => if Nat.ltb (length b) 8 then UB
           else do r <- sim_read k (skipn 8 b); Ok (of_bytes (firstn 8 b) :: r)
  end.
Definition sim_decode (b : bytes) : outcome (list N) :=
  if Nat.ltb (length b) 8 then UB else sim_read (N.to_nat (of_bytes (firstn 8 b))) (skipn 8 b).

(** The offline phase and one round of the protocol, composed from the calls of both sides in
    the order of pir_test.cc 46-95; any number of rounds with one client. *)
Definition sim_offline (dim : nat) (q : Z) (n : nat) (p : Z) (rv : list Z) (db : list (list Z))
  : outcome (sim_server * sim_client) :=
  do s0 <- sim_server_new dim q n p;
  do s1 <- set_database s0 db;
  let s := lwe_matrix rv s1 in
  do h <- get_hint s;
  do c0 <- sim_client_new dim q n p;
  do c <- sim_setup rv h c0;
  Ok (s, c).
Definition sim_round (s : sim_server) (c : sim_client) (secret errs : list Z) (idx : nat) : outcome (sim_client * Z) :=
  do (c', qu) <- sim_query secret errs c idx;
  do ans <- sim_answer s qu;
  do v <- sim_recover c' ans;
  Ok (c', v).
Fixpoint sim_rounds (s : sim_server) (c : sim_client) (rs : list (list Z * list Z * nat)) : outcome (list Z) :=
  match rs with
  | [] => Ok []
  | (secret, errs, idx) :: r =>
      do (c', v) <- sim_round s c secret errs idx;
      do vs <- sim_rounds s c' r;
      Ok (v :: vs)
  end.
