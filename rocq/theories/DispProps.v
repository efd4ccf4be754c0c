(** C96: what the APSI sender's dispatcher answers. *)
From Coq Require Import List NArith Lia Bool Arith.
From Verif Require Import Base Text DispModel DispSpec DispProofs.
Import ListNotations.

(** With a grouped database, whatever was asked before and whatever messages are skipped in between:
    every request is answered from the bucket it names, a bucket without rows with zero packages. *)
Theorem C96_grouped :
  forall DB K P R (params : DB -> P) (oprf : K -> bytes -> bytes) (search : DB -> bytes -> option (list R)) stripped own_key keqb get n content d ms,
  holds DB K get n content -> Forall (regular (names_below n)) ms ->
  exists outs, serve DB K P R params oprf search stripped own_key keqb (Grouped DB K get) d ms = Ok (outs, false) /\
    Forall2 (replied P R (own_reply DB K P R oprf search content)) ms outs.
Proof. intros. now apply (grouped_serve DB K P R params oprf search stripped own_key keqb get n content d ms). Qed.
Print Assumptions C96_grouped.

(** The same for buckets in files of their own, if all can be loaded. *)
Theorem C96_switched :
  forall DB K P R (params : DB -> P) (oprf : K -> bytes -> bytes) (search : DB -> bytes -> option (list R)) stripped own_key keqb load n k0 init ms,
  fits DB K stripped own_key keqb load n -> (init < n)%N -> Forall (regular (names_below n)) ms ->
  exists b d outs, new_switched DB K stripped own_key keqb load k0 init = Ok (b, d) /\
    serve DB K P R params oprf search stripped own_key keqb b d ms = Ok (outs, false) /\
    Forall2 (replied P R (fun r out => own_reply DB K P R oprf search load r out /\
      (r = QParams -> exists i db k, (i < n)%N /\ load i = Some (db, k) /\ out = [AParams P R (params db)]))) ms outs.
Proof.
  intros DB K P R params oprf search stripped own_key keqb load n k0 init ms F I M.
  destruct (switched_new DB K stripped own_key keqb load n k0 init F I) as (b & d & E & A).
  destruct (switched_serve DB K P R params oprf search stripped own_key keqb load n b d ms F A M) as (outs & E' & G). exists b, d, outs. auto.
Qed.
Print Assumptions C96_switched.

(** One database: every request is answered from it, whatever bucket it names. *)
Theorem C96_single :
  forall DB K P R (params : DB -> P) (oprf : K -> bytes -> bytes) (search : DB -> bytes -> option (list R)) stripped own_key keqb db k ms,
  stripped db = true -> Forall (regular (fun _ => True)) ms ->
  exists b d outs, new_single DB K stripped (Some db) k = Ok (b, d) /\
    serve DB K P R params oprf search stripped own_key keqb b d ms = Ok (outs, false) /\
    Forall2 (replied P R (fun r out => own_reply DB K P R oprf search (fun _ => Some (db, k)) r out /\ (r = QParams -> out = [AParams P R (params db)]))) ms outs.
Proof.
  intros DB K P R params oprf search stripped own_key keqb db k ms S M.
  destruct (single_serve DB K P R params oprf search stripped own_key keqb db k ms M) as (outs & E & G).
  exists (Single DB K), (mk_disp DB K (Some db) k), outs. unfold new_single. rewrite S. auto.
Qed.
Print Assumptions C96_single.

(** If every bucket has rows and all have the same parameters, a request for parameters is answered at
    any time. *)
Theorem C96_params :
  forall DB K P R (params : DB -> P) (oprf : K -> bytes -> bytes) (search : DB -> bytes -> option (list R)) stripped own_key keqb get n content p buckets b d ms,
  holds DB K get n content -> (forall i, (i < n)%N -> exists db k, content i = Some (db, k) /\ params db = p) ->
  N.of_nat buckets = n -> new_grouped DB K get buckets = Ok (b, d) -> Forall (regular (names_below n)) ms ->
  exists outs, serve DB K P R params oprf search stripped own_key keqb b d ms = Ok (outs, false) /\
    Forall2 (replied P R (fun r out => r = QParams -> out = [AParams P R p])) ms outs.
Proof.
  intros DB K P R params oprf search stripped own_key keqb get n content p buckets b d ms H HP B E M. unfold new_grouped in E.
  destruct (find_bucket DB K get buckets 0) as [d'| | |] eqn:F; try discriminate. cbn [bind] in E. injection E as <- <-.
  apply find_spec in F. destruct F as (j & db & k & L & G & -> & _).
  apply (grouped_params DB K P R params oprf search stripped own_key keqb get n content p _ ms H HP); [|exact M].
  assert (J : (j < n)%N) by lia. pose proof (H j J) as Hj. destruct (HP j J) as (db' & k' & C & Pd). rewrite C, G in Hj. injection Hj as -> ->.
  exists db'. auto.
Qed.
Print Assumptions C96_params.

(** A dispatcher for a grouped database starts exactly if a bucket has rows and the buckets before it
    can be read. *)
Theorem C96_start :
  forall DB K (get : N -> bucket_db DB K) n b d,
  new_grouped DB K get n = Ok (b, d) <->
  b = Grouped DB K get /\ exists j db k, (j < N.of_nat n)%N /\ get j = BDb DB K db k /\ d = mk_disp DB K (Some db) k /\
    forall l, (l < j)%N -> exists k', get l = BNone DB K k'.
Proof.
  intros DB K get n b d. unfold new_grouped. split.
  - destruct (find_bucket DB K get n 0) as [d'| | |] eqn:F; try discriminate. cbn [bind]. intros E. injection E as <- <-. split; [reflexivity|].
    apply find_spec in F. destruct F as (j & db & k & L & G & E & H). exists j, db, k. repeat split; [lia|exact G|exact E|]. intros l Hl. apply H. lia.
  - intros [-> (j & db & k & L & G & E & H)]. assert (F : find_bucket DB K get n 0 = Ok d).
    { apply find_spec. exists j, db, k. split; [lia|]. split; [exact G|]. split; [exact E|]. intros l Hl. apply H. lia. }
    now rewrite F.
Qed.
Print Assumptions C96_start.

(** The loop ends with the first empty OPRF request for the largest bucket number; what was answered
    before does not depend on it, what comes later is not answered. *)
Theorem C96_stop :
  forall DB K P R (params : DB -> P) (oprf : K -> bytes -> bytes) (search : DB -> bytes -> option (list R)) stripped own_key keqb b d ms m post,
  Forall (regular (fun _ => True)) ms -> carries m (QOprf 4294967295 []) ->
  exists outs, length outs = length ms /\
    serve DB K P R params oprf search stripped own_key keqb b d (ms ++ m :: post) = Ok (outs ++ [[]], true) /\
    serve DB K P R params oprf search stripped own_key keqb b d ms = Ok (outs, false).
Proof. intros. now apply serve_stop. Qed.
Print Assumptions C96_stop.

(** Requests for a bucket that cannot be read, as one beyond the number of buckets, get no reply at
    all: the receiver waits for ever. *)
Theorem C96_unanswered :
  forall DB K P R (params : DB -> P) (oprf : K -> bytes -> bytes) (search : DB -> bytes -> option (list R)) stripped own_key keqb get d ms,
  Forall (regular (fun r => match r with QParams => False | QOprf b _ | QQuery b _ => get b = BThrow DB K end)) ms ->
  serve DB K P R params oprf search stripped own_key keqb (Grouped DB K get) d ms = Ok (map (fun _ => []) ms, false).
Proof. intros. now apply failed_serve. Qed.
Print Assumptions C96_unanswered.

(** So do OPRF requests that are empty or cannot be computed, and queries that do not fit the database. *)
Theorem C96_silent :
  forall DB K P R (params : DB -> P) (oprf : K -> bytes -> bytes) (search : DB -> bytes -> option (list R)) stripped own_key keqb d db ms,
  d_db DB K d = Some db ->
  Forall (regular (fun r => match r with QParams => False | QOprf _ data => data = [] \/ oprf (d_key DB K d) data = [] | QQuery _ data => search db data = None end)) ms ->
  serve DB K P R params oprf search stripped own_key keqb (Single DB K) d ms = Ok (map (fun _ => []) ms, false).
Proof. intros. now apply silent_serve with (db := db). Qed.
Print Assumptions C96_silent.

(** A small library: keys and databases are numbers. *)
Definition x_oprf (k : N) (data : bytes) : bytes := map (N.add k) data.
Definition x_search (db : N) (data : bytes) : option (list N) := Some (filter (fun x => (x =? db)%N) data).
Definition x_msg (r : request) : message :=
  let ty := match r with QParams => TParms | QOprf _ _ => TOprf | QQuery _ _ => TQuery end in
  mk_message (LOk _ (ty, true)) (fun _ => LOk _ r).
Definition x_serve (b : backend N N) (d : disp N N) (rs : list request) :=
  serve N N N N (fun db => db) x_oprf x_search (fun _ => true) (fun _ => 0%N) N.eqb b d (map x_msg rs).
(** Bucket 0 has rows, bucket 1 none, there is no other. *)
Definition x_get (b : N) : bucket_db N N :=
  if (b =? 0)%N then BDb N N 5%N 100%N else if (b =? 1)%N then BNone N N 7%N else BThrow N N.

(** After a request about a bucket without rows, a request for the parameters gets no reply; before it
    does. *)
Theorem C96_params_refuted :
  exists d, new_grouped N N x_get 2 = Ok (Grouped N N x_get, d) /\
    x_serve (Grouped N N x_get) d [QParams; QQuery 1 [5%N]; QParams] =
      Ok ([[AParams N N 5%N]; [AQuery N N 0 []]; []], false).
Proof. exists (mk_disp N N (Some 5%N) 100%N). split; reflexivity. Qed.
Print Assumptions C96_params_refuted.

(** A bucket file that cannot be loaded: the first request gets no reply, the second is answered with
    the key of the bucket before it. *)
Theorem C96_switch_refuted :
  exists load b d data, load 1%N = None /\ load 0%N = Some (5%N, 100%N) /\
    new_switched N N (fun _ => true) (fun _ => 0%N) N.eqb load 0%N 0%N = Ok (b, d) /\
    x_serve b d [QOprf 1 data; QOprf 1 data; QQuery 1 data] = Ok ([[]; [AOprf N N (x_oprf 100 data)]; [AQuery N N 0 []]], false) /\ data <> [].
Proof.
  exists (fun b => if (b =? 0)%N then Some (5%N, 100%N) else None).
  exists (Switched N N (fun b => if (b =? 0)%N then Some (5%N, 100%N) else None) (mk_switch N N 0%N (Some 5%N) 100%N)).
  exists (mk_disp N N (Some 5%N) 100%N), [1%N]. repeat split. discriminate.
Qed.
Print Assumptions C96_switch_refuted.

(** A database that still has its key: the constructor uses a pointer it has moved from, also if the
    given key is the right one. *)
Theorem C96_unstripped_refuted :
  forall DB K (stripped : DB -> bool) db (k : K), stripped db = false -> new_single DB K stripped (Some db) k = UB.
Proof. intros DB K stripped db k H. unfold new_single. now rewrite H. Qed.
Print Assumptions C96_unstripped_refuted.

(** An exception of another kind while loading a message ends the loop: requests behind it are not
    answered. *)
Theorem C96_load_refuted :
  exists m d, m_head m = LOk _ (TQuery, true) /\ m_body m TQuery = LOther request /\
    serve N N N N (fun db => db) x_oprf x_search (fun _ => true) (fun _ => 0%N) N.eqb (Single N N) d [m; x_msg QParams] = Throw.
Proof.
  exists (mk_message (LOk _ (TQuery, true)) (fun _ => LOther _)), (mk_disp N N (Some 5%N) 1%N).
  repeat split.
Qed.
Print Assumptions C96_load_refuted.

Example C96_example :
  holds N N x_get 2 (fun b => if (b =? 0)%N then Some (5%N, 100%N) else None) /\
  Forall (regular (names_below 2)) (map x_msg [QOprf 1 [3%N]; QOprf 0 [3%N]; QQuery 0 [5%N; 6%N]] ++ [mk_message (LRuntime _) (fun _ => LRuntime _)]) /\
  x_serve (Grouped N N x_get) (mk_disp N N None 0%N) [QOprf 1 [3%N]; QOprf 0 [3%N]; QQuery 0 [5%N; 6%N]] =
    Ok ([[AOprf N N [10%N]]; [AOprf N N [103%N]]; [AQuery N N 1 [5%N]]], false).
Proof.
  split; [|split; [|reflexivity]].
  - intros b Hb. assert (C : b = 0%N \/ b = 1%N) by lia. destruct C as [-> | ->]; [reflexivity|]. now exists 7%N.
  - cbn [map app]. constructor; [|constructor; [|constructor; [|constructor; [|constructor]]]].
    + right. eexists. split; [exists TOprf; split; [cbn; tauto|split; reflexivity]|]. split; [discriminate|]. cbn. lia.
    + right. eexists. split; [exists TOprf; split; [cbn; tauto|split; reflexivity]|]. split; [discriminate|]. cbn. lia.
    + right. eexists. split; [exists TQuery; split; [cbn; tauto|split; reflexivity]|]. split; [discriminate|]. cbn. lia.
    + left. now left.
Qed.
