(** Model of the APSI sender's dispatcher: psi/wrapper/apsi/cli/sender_dispatcher.cc, with
    psi/wrapper/apsi/sender.cc (RunParams 44-77, GenerateOPRFResponse and RunOPRF 79-135, the replies
    of RunQuery 137-313), psi/wrapper/apsi/utils/bucket.cc and the receiving side of
    psi/wrapper/apsi/yacl_channel.cc.

    Arguments: the APSI library (databases, keys, the answers computed with them and the parsing of
    message bodies) and the store of buckets.  Not modelled: the ZMQ channel's client numbers, the
    order in which result packages of one query are sent, the sleeps between messages. *)
From Coq Require Import List NArith Bool.
From Verif Require Import Base Text.
Import ListNotations.
Local Open Scope N_scope.

(** max of uint32_t, the bucket of the request to stop (sender_dispatcher.cc 338-342). *)
Definition stop_bucket : N := 4294967295.

Inductive request : Type :=
| QParams
| QOprf (bucket : N) (data : bytes)
| QQuery (bucket : N) (data : bytes).

Section Dispatcher.
Variables DB K P R : Type.
Variable params : DB -> P.
(** OPRFSender::ProcessQueries; empty if it throws (sender.cc 99-113). *)
Variable oprf : K -> bytes -> bytes.
(** The result packages of a query; [None]: the query does not fit the database and RunQuery
    throws (sender.cc 143-146). *)
Variable search : DB -> bytes -> option (list R).

Inductive reply : Type :=
| AParams (p : P)
| AOprf (data : bytes)
| AQuery (count : N) (packages : list R).

(** sender_db_ and oprf_key_. *)
Record disp : Type := mk_disp { d_db : option DB; d_key : K }.

(** RunParams (sender.cc 44-77): without a database it throws. *)
Definition do_params (d : disp) : list reply :=
  match d_db d with Some db => [AParams (params db)] | None => [] end.
(** RunOPRF (sender.cc 79-135): an empty answer is not sent. *)
Definition do_oprf (d : disp) (data : bytes) : list reply :=
  match data with
  | [] => []
  | _ => match oprf (d_key d) data with [] => [] | r => [AOprf r] end
  end.
(** dispatch_query behind SetBucketIdx (sender_dispatcher.cc 427-452) and RunQuery (sender.cc
    176-198, 247-311): without a database zero packages. *)
Definition do_query (d : disp) (data : bytes) : list reply :=
  match d_db d with
  | None => [AQuery 0 []]
  | Some db => match search db data with Some ps => [AQuery (N.of_nat (length ps)) ps] | None => [] end
  end.

(* ------------------------------------------------------------------ *)
(** * Where buckets come from *)

(** What GetBucketDB gives: an exception, a null database with a new key, or a database. *)
Inductive bucket_db : Type := BThrow | BNone (k : K) | BDb (db : DB) (k : K).

(** The switcher's state (bucket.cc 33-56): current bucket, database, key. *)
Record switch : Type := mk_switch { s_cur : N; s_db : option DB; s_key : K }.

Inductive backend : Type :=
| Single
| Switched (load : N -> option (DB * K)) (s : switch)
| Grouped (get : N -> bucket_db).

(** BucketSenderDbSwitcher::SetBucketIdx (bucket.cc 41-56); if loading fails the key stays. *)
Definition switch_to (load : N -> option (DB * K)) (forced : bool) (idx : N) (s : switch) : switch :=
  if negb forced && (idx =? s_cur s) then s else
  match load idx with
  | Some (db, k) => mk_switch idx (Some db) k
  | None => mk_switch idx None (s_key s)
  end.

(** is_stripped() or the keys agree. *)
Variable stripped : DB -> bool.
Variable own_key : DB -> K.
Variable keqb : K -> K -> bool.

(** LoadBucket (sender_dispatcher.cc 121-142): the new state, and whether it throws. *)
Definition load_current (s : switch) : disp * bool :=
  (mk_disp (s_db s) (s_key s),
   match s_db s with
   | None => true
   | Some db => negb (stripped db) && negb (keqb (s_key s) (own_key db))
   end).

(** SetBucketIdx (sender_dispatcher.cc 98-119): new backend and state, and whether it throws. *)
Definition set_bucket (b : backend) (d : disp) (idx : N) : backend * disp * bool :=
  match b with
  | Grouped get =>
    match get idx with
    | BThrow => (b, d, true)
    | BNone k => (b, mk_disp None k, false)
    | BDb db k => (b, mk_disp (Some db) k, false)
    end
  | Single => (b, d, false)
  | Switched load s =>
    if idx =? s_cur s then (b, d, false) else
    let s' := switch_to load false idx s in
    let '(d', t) := load_current s' in (Switched load s', d', t)
  end.

(** dispatch_parms, dispatch_oprf and dispatch_query over a YaclChannel (sender_dispatcher.cc 265-282,
    316-355, 415-453): an exception is logged and nothing is sent.  The last component: stop. *)
Definition dispatch (b : backend) (d : disp) (r : request) : backend * disp * list reply * bool :=
  match r with
  | QParams => (b, d, do_params d, false)
  | QOprf idx data =>
    if match data with [] => idx =? stop_bucket | _ => false end then (b, d, [], true) else
    let '(b', d', t) := set_bucket b d idx in (b', d', if t then [] else do_oprf d' data, false)
  | QQuery idx data =>
    let '(b', d', t) := set_bucket b d idx in (b', d', if t then [] else do_query d' data, false)
  end.

(* ------------------------------------------------------------------ *)
(** * Messages *)

(** SenderOperationType; other values of the header's byte are [TOther]. *)
Inductive optype : Type := TUnknown | TParms | TOprf | TQuery | TOther.
Definition opeqb (a b : optype) : bool :=
  match a, b with
  | TUnknown, TUnknown | TParms, TParms | TOprf, TOprf | TQuery, TQuery | TOther, TOther => true
  | _, _ => false
  end.
(** Result of a load: the value, an exception that is a runtime_error, one that is an
    invalid_argument, or another exception. *)
Inductive loaded (A : Type) : Type := LOk (a : A) | LRuntime | LInvalid | LOther.
Arguments LOk {A} a. Arguments LRuntime {A}. Arguments LInvalid {A}. Arguments LOther {A}.

(** A message as the library parses it: header (type and whether the version agrees) and, per type, the
    body. *)
Record message : Type := mk_message { m_head : loaded (optype * bool); m_body : optype -> loaded request }.

(** receive_operation (yacl_channel.cc 59-143) with a valid context; [Ok None]: nullptr. *)
Definition receive_operation (expected : optype) (m : message) : outcome (option request) :=
  match m_head m with
  | LRuntime => Ok None
  | LInvalid | LOther => Throw
  | LOk (ty, same) =>
    if negb same then Ok None
    else if negb (opeqb expected TUnknown) && negb (opeqb expected ty) then Ok None
    else match ty with
    | TParms | TOprf | TQuery =>
      match m_body m ty with LOk r => Ok (Some r) | LRuntime | LInvalid => Ok None | LOther => Throw end
    | _ => Ok None
    end
  end.

(** run over a YaclChannel (sender_dispatcher.cc 195-244), for the messages that arrive: the replies to
    each message, and [true] if the loop was stopped; an exception leaves run. *)
Fixpoint serve (b : backend) (d : disp) (ms : list message) : outcome (list (list reply) * bool) :=
  match ms with
  | [] => Ok ([], false)
  | m :: ms' =>
    do r <- receive_operation TUnknown m;
    match r with
    | None => do x <- serve b d ms'; Ok ([] :: fst x, snd x)
    | Some r =>
      let '(b', d', out, stop) := dispatch b d r in
      if stop then Ok ([out], true) else
      do x <- serve b' d' ms'; Ok (out :: fst x, snd x)
    end
  end.

(* ------------------------------------------------------------------ *)
(** * Constructors *)

(** SenderDispatcher(sender_db, oprf_key) (sender_dispatcher.cc 42-58): the parameter is moved from
    before it is used again, so the comparison of the keys dereferences a null pointer. *)
Definition new_single (db : option DB) (k : K) : outcome (backend * disp) :=
  match db with
  | None => Throw
  | Some x => if stripped x then Ok (Single, mk_disp (Some x) k) else UB
  end.
(** SenderDispatcher(switcher) (74-78, bucket.cc 33-39). *)
Definition new_switched (load : N -> option (DB * K)) (k0 : K) (init : N) : outcome (backend * disp) :=
  let s := switch_to load true init (mk_switch 0 None k0) in
  let '(d, t) := load_current s in if t then Throw else Ok (Switched load s, d).
(** SenderDispatcher(group_db) (80-91): buckets in order until one has a database. *)
Fixpoint find_bucket (get : N -> bucket_db) (n : nat) (i : N) : outcome disp :=
  match n with
  | O => Throw
  | S n' =>
    match get i with
    | BThrow => Throw
    | BNone _ => find_bucket get n' (i + 1)
    | BDb db k => Ok (mk_disp (Some db) k)
    end
  end.
Definition new_grouped (get : N -> bucket_db) (buckets : nat) : outcome (backend * disp) :=
  do d <- find_bucket get buckets 0; Ok (Grouped get, d).
End Dispatcher.
