(** Model of unbalanced PSI run in phases, one after another, on the same cache directories:
    AbstractUbPsiParty::Run (psi/interface.cc 281-312), EcdhUbPsiServer and EcdhUbPsiClient
    (psi/algorithm/ecdh/ub_psi/server.cc 38-203, client.cc 32-141) and the part of JoinProcessor that
    clears and reads the server's cache directory (psi/utils/join_processor.cc 53-79, 239-268).

    One run has both parties in the same mode (MODE_OFFLINE_GEN_CACHE: the server alone).  The
    protocol inside a run is UbPsiModel.  Simplified: the sorted copy of the input that the server
    keeps in its cache directory (join_sorted_input.csv) is its table of unique keys in the order
    they are read; each party has its own directory; a run that throws ends the sequence. *)
From Coq Require Import List NArith Bool Arith.
From Verif Require Import Base Text ShufModel UbCacheModel UbPsiModel.
Import ListNotations.

(** UbPsiConfig::Mode. *)
Inductive ph_mode : Type := PhGen | PhTransfer | PhOffline | PhOnline | PhFull.

Section Ph.
Variable Item : Type.
Variable simple_eval : bytes -> Item -> bytes.   (* SimpleEvaluate under a server key *)
Variable evaluate : bytes -> bytes -> bytes.     (* Evaluate under a server key *)
Variable blind : bytes -> Item -> bytes.         (* Blind under a client key *)
Variable finalize : bytes -> bytes -> bytes.     (* Finalize under a client key *)
Variable cl pl : nat.                            (* GetCompareLength, GetEcPointLength *)

(** What the two configurations, the input files and the random generators give one run. *)
Record ph_run : Type := mk_ph {
  pr_mode : ph_mode;
  pr_key_file : option bytes;           (* content of server_secret_key_path, None: path is empty *)
  pr_fresh_key : bytes;                 (* SecureRandBytes at the server *)
  pr_client_key : bytes;                (* SecureRandBytes at the client *)
  pr_src : list (raw_batch Item);       (* the server's input as its provider yields it *)
  pr_client : list (list (Item * N));   (* the client's input *)
  pr_moved : Item;
  pr_bsg : nat; pr_bst : nat; pr_bso : nat; pr_bsc : nat; pr_threads : nat;
  pr_sched : nat -> nat -> list (nat * nat);
  pr_shuffle : option (list nat);       (* None: client_get_result *)
  pr_server_gets : bool
}.

(** The server's cache directory: ub_psi_cache.bin with its meta, and the sorted input. *)
Record ph_sdisk : Type := mk_sdisk { sd_cache : option cache; sd_table : option (list (Item * N)) }.
Definition ph_empty : ph_sdisk := mk_sdisk None None.
Record ph_state : Type := mk_state { ps_server : ph_sdisk; ps_client : cdisk }.
Definition ph_init : ph_state := mk_state ph_empty no_cache.

(** Init at the server: CheckUbPsiServerConfig empties the cache directory in the modes that build
    a cache (join_processor.cc 61-74). *)
Definition ph_server_init (m : ph_mode) (d : ph_sdisk) : ph_sdisk :=
  match m with PhGen | PhOffline | PhFull => ph_empty | PhTransfer | PhOnline => d end.

(** OfflineGenCache (server.cc 63-87). *)
Definition ph_gen_key (r : ph_run) : bytes :=
  match pr_key_file r with Some k => k | None => pr_fresh_key r end.
Definition ph_table (r : ph_run) : list (Item * N) := concat (map (rb_items Item) (pr_src r)).
Definition ph_gen (r : ph_run) (d : ph_sdisk) : outcome ph_sdisk :=
  do c <- offline_server Item (simple_eval (ph_gen_key r)) cl (ph_gen_key r) (pr_bsg r) (pr_moved r) (pr_src r);
  Ok (mk_sdisk (Some c) (Some (ph_table r))).

(** OfflineTransferCache (server.cc 95-107, client.cc 58-82): a cache the client already has is
    removed with its directory (client.cc 62-65). *)
Definition ph_clear (d : cdisk) : cdisk := match cd_data d with Some _ => no_cache | None => d end.
Definition ph_transfer (r : ph_run) (s : ph_state) : outcome ph_state :=
  match sd_cache (ps_server s) with
  | None => Throw
  | Some c =>
    do bt <- cache_batches (pr_bst r) c;
    do items <- recv_into cl (fun x => x) (map cache_msg bt);
    do d <- store_session cl (ph_clear (ps_client s)) items;
    Ok (mk_state (ps_server s) d)
  end.

(** The key of the online phase (server.cc 153-160). *)
Definition ph_online_key (r : ph_run) (c : cache) : bytes :=
  match pr_key_file r with Some k => k | None => ca_priv c end.
(** DealResultIndex on the indices found: the keys they stand for; an index past the end of the table
    is an error (table_utils.cc 565-569). *)
Fixpoint ph_rows (t : list (Item * N)) (ix : list (N * N)) : outcome (list (Item * N)) :=
  match ix with
  | [] => Ok []
  | (i, c) :: r => match nth_error t (N.to_nat i) with
                   | Some e => omap (cons (fst e, c)) (ph_rows t r)
                   | None => Throw
                   end
  end.
(** What the parties write: the common keys with the number of the peer's extra copies, and the
    peer's number of rows; None for a party that gets no result. *)
Definition ph_out : Type := option (list (Item * N) * N).
(** Online (server.cc 151-203, client.cc 89-141).  Opening its store leaves the client's disk as
    the flush writes it. *)
Definition ph_online (r : ph_run) (s : ph_state) : outcome (ph_state * (ph_out * ph_out)) :=
  match sd_cache (ps_server s), sd_table (ps_server s) with
  | Some c, Some t =>
    do ((rc, nc), (rs, ns)) <-
      online Item (blind (pr_client_key r)) (evaluate (ph_online_key r c)) (finalize (pr_client_key r)) cl pl
        (pr_bso r) (pr_bsc r) (pr_threads r) (pr_sched r) (pr_shuffle r) (pr_server_gets r) c (ps_client s) (pr_client r);
    do (d1, st) <- store_open cl (ps_client s);
    do oc <- match pr_shuffle r with
             | None => omap (fun k => Some (k, nc)) (ph_rows (concat (pr_client r)) rc)
             | Some _ => Ok None
             end;
    do os <- if pr_server_gets r then omap (fun k => Some (k, ns)) (ph_rows t rs) else Ok None;
    Ok (mk_state (ps_server s) (fst (store_flush d1 st)), (oc, os))
  | _, _ => Throw
  end.

(** Run (interface.cc 281-312) at both parties. *)
Definition ph_step (r : ph_run) (s : ph_state) : outcome (ph_state * (ph_out * ph_out)) :=
  let d := ph_server_init (pr_mode r) (ps_server s) in
  match pr_mode r with
  | PhGen => do d' <- ph_gen r d; Ok (mk_state d' (ps_client s), (None, None))
  | PhTransfer => do s' <- ph_transfer r (mk_state d (ps_client s)); Ok (s', (None, None))
  | PhOffline => do d' <- ph_gen r d; do s' <- ph_transfer r (mk_state d' (ps_client s)); Ok (s', (None, None))
  | PhOnline => ph_online r (mk_state d (ps_client s))
  | PhFull => do d' <- ph_gen r d; do s' <- ph_transfer r (mk_state d' (ps_client s)); ph_online r s'
  end.
Fixpoint ph_steps (rs : list ph_run) (s : ph_state) : outcome ph_state :=
  match rs with
  | [] => Ok s
  | r :: k => do (s', _) <- ph_step r s; ph_steps k s'
  end.
End Ph.
