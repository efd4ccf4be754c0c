(** What a sequence of runs of unbalanced PSI should give, from its history alone. *)
From Coq Require Import List NArith Permutation.
From Verif Require Import Base Text StoreModel StoreProofs2 ShufModel UbCacheModel UbPsiSpec UbPsiProofs2 PhModel.
Import ListNotations.

Section Spec.
Variable Item : Type.
Variable eqb : Item -> Item -> bool.

(** The keys of [self] that [peer] has, each with the peer's extra copies of it. *)
Definition ph_common (self peer : list (Item * N)) : list (Item * N) :=
  flat_map (fun e => match find (fun q => eqb (fst q) (fst e)) peer with Some q => [(fst e, snd q)] | None => [] end) self.

Definition ph_builds (m : ph_mode) : bool := match m with PhGen | PhOffline | PhFull => true | _ => false end.
Definition ph_sends (m : ph_mode) : bool := match m with PhTransfer | PhOffline | PhFull => true | _ => false end.

(** [ph_served rs g]: [g] is the last run of [rs] that built a cache, and that cache was sent to the
    client by it or by a later run. *)
Definition ph_served (rs : list (ph_run Item)) (g : ph_run Item) : Prop :=
  exists before after, rs = before ++ g :: after /\ ph_builds (pr_mode Item g) = true /\
    Forall (fun r => ph_builds (pr_mode Item r) = false) after /\
    Exists (fun r => ph_sends (pr_mode Item r) = true) (g :: after).

(** What an online phase needs of the run that built the cache, of its own run, and of the OPRF under
    the keys of the two. *)
Definition ph_good_build (g : ph_run Item) : Prop :=
  Forall (fun b => rb_items Item b <> [] /\ Permutation (rb_left Item b) (seq 0 (length (rb_items Item b)))) (pr_src Item g) /\
  (N.of_nat (length (ph_table Item g)) < max32)%N /\ Forall (fun e => (snd e < max32)%N) (ph_table Item g) /\
  NoDup (map fst (ph_table Item g)) /\ 0 < pr_bsg Item g.
Definition ph_good_online (r : ph_run Item) : Prop :=
  (N.of_nat (length (concat (pr_client Item r))) < max32)%N /\ NoDup (map fst (concat (pr_client Item r))) /\
  0 < pr_bso Item r /\ 0 < pr_bsc Item r /\ 0 < pr_threads Item r /\
  (forall i n, valid_schedule n (pr_threads Item r) (pr_sched Item r i n)) /\
  good_shuffle (length (concat (pr_client Item r))) (pr_shuffle Item r).
Definition ph_good_oprf (simple_eval blind : bytes -> Item -> bytes) (evaluate finalize : bytes -> bytes -> bytes) (cl pl : nat) (k ck : bytes) (keys : list Item) : Prop :=
  (forall x, length (simple_eval k x) = cl) /\ (forall x, length (blind ck x) = pl) /\
  (forall x, length (evaluate k (blind ck x)) = pl) /\ (forall x, finalize ck (evaluate k (blind ck x)) = simple_eval k x) /\
  (forall x y, In x keys -> In y keys -> simple_eval k x = simple_eval k y -> x = y).
(** The two outputs are right for the server's table [t] and the client's [cli]. *)
Definition ph_right (r : ph_run Item) (t : list (Item * N)) (o : ph_out Item * ph_out Item) : Prop :=
  let cli := concat (pr_client Item r) in
  match pr_shuffle Item r with
  | None => exists l, fst o = Some (l, total_rows Item t) /\ Permutation l (ph_common cli t)
  | Some _ => fst o = None
  end /\
  if pr_server_gets Item r then exists l, snd o = Some (l, total_rows Item cli) /\ Permutation l (ph_common t cli)
  else snd o = None.
End Spec.
