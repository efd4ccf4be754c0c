(** Model of psi/checkpoint/recovery.{h,cc}: the recovery folder, the calls a PSI party makes
    and the disk writes they perform.  A crash keeps a prefix of the events of a run.

    Simplified: file contents are the stored record, not its JSON text; the folder is used by one
    process at a time; the locking in SaveCheckpointFile (84) has no effect on the order of the
    calls modelled here. *)
From Coq Require Import List NArith Bool Arith.
From Verif Require Import Base.
Import ListNotations.

(** RecoveryCheckpoint::Stage (checkpoint.proto 9-21). *)
Definition STAGE_UNSPECIFIED := 0.
Definition STAGE_INIT_END := 1.
Definition STAGE_PRE_PROCESS_END := 2.
Definition STAGE_ONLINE_START := 3.
Definition STAGE_ONLINE_END := 4.
Definition STAGE_POST_PROCESS_END := 5.

Section Recovery.
Variable Config : Type.
Variable config_eqb : Config -> Config -> bool.       (* MessageDifferencer::Equals *)
Variable default_config : Config.
Variable Key : Type.

Record ckpt : Type := mk_ckpt {
  c_stage : nat; c_config : Config; c_digest : list N;
  c_self : N; c_peer : N; c_parsed : N }.
Definition empty_ckpt : ckpt := mk_ckpt STAGE_UNSPECIFIED default_config [] 0 0 0.
Definition set_stage (s : nat) (c : ckpt) : ckpt :=
  mk_ckpt s (c_config c) (c_digest c) (c_self c) (c_peer c) (c_parsed c).

(** checkpoint.json: absent, complete, or cut off (opened with truncation, then written: 93-96). *)
Inductive cfile : Type := Absent | Torn | Saved (c : ckpt).
Record folder : Type := mk_folder { f_ckpt : cfile; f_key : option Key }.
Definition fresh_folder : folder := mk_folder Absent None.

(** Disk writes and what a party observes. *)
Inductive event : Type :=
| WCkpt (f : cfile)
| WKey (k : Key)
| OInit (cfg : Config) (dig : list N)               (* MarkInitEnd returned *)
| OKey (k : option Key)                             (* MarkPreProcessEnd returned; the key in use *)
| OStart (finished : bool) (peer_dual peer_parsed : N).
Definition apply_event (d : folder) (e : event) : folder :=
  match e with
  | WCkpt f => mk_folder f (f_key d)
  | WKey k => mk_folder (f_ckpt d) (Some k)
  | _ => d
  end.
Definition apply_events (d : folder) (es : list event) : folder := fold_left apply_event es d.

(** SaveCheckpointFile (83-97): open truncates, then the content is written. *)
Definition save (c : ckpt) : list event := [WCkpt Torn; WCkpt (Saved c)].

(** Constructor (49-81): a file that does not parse throws (42-44). *)
Definition load (d : folder) : outcome ckpt :=
  match f_ckpt d with Absent => Ok empty_ckpt | Torn => Throw | Saved c => Ok c end.

(** The record the peer sends in MarkOnlineStart (155-162). *)
Record record : Type := mk_record { r_stage : nat; r_peer : N; r_parsed : N }.
Definition record_of (c : ckpt) : record := mk_record (c_stage c) (c_peer c) (c_parsed c).

Inductive call : Type :=
| CInit (cfg : Config) (dig : list N)
| CPre (cryptor_key : option Key)        (* None: no cryptor; Some k: the cryptor's fresh key *)
| COnline (peer : record)
| CSelf (cnt : N)
| CPeer (cnt : N)
| CParsed (cnt : N)
| COnlineEnd
| CPostEnd.

(** MarkInitEnd (99-120). *)
Fixpoint bytes_eqb (a b : list N) : bool :=
  match a, b with
  | [], [] => true
  | x :: a', y :: b' => N.eqb x y && bytes_eqb a' b'
  | _, _ => false
  end.
Definition mark_init_end (cfg : Config) (dig : list N) (c : ckpt) : outcome (ckpt * list event) :=
  if negb (Nat.eqb (c_stage c) STAGE_UNSPECIFIED)
  then enforce (config_eqb cfg (c_config c)) (enforce (bytes_eqb dig (c_digest c)) (Ok (c, [OInit cfg dig])))
  else let c' := mk_ckpt STAGE_INIT_END cfg dig (c_self c) (c_peer c) (c_parsed c) in
       Ok (c', save c' ++ [OInit cfg dig]).

(** MarkPreProcessEnd (122-146); [key_on_disk] is what reading the key file gives. *)
Definition mark_pre (k : option Key) (c : ckpt) (key_on_disk : option Key) : ckpt * list event :=
  match k with
  | None => (c, [OKey None])
  | Some fresh =>
      if Nat.ltb (c_stage c) STAGE_PRE_PROCESS_END
      then let c' := set_stage STAGE_PRE_PROCESS_END c in
           (c', WKey fresh :: save c' ++ [OKey (Some fresh)])
      else (c, [OKey key_on_disk])
  end.

(** MarkOnlineStart (148-211) with a link; [peer] is the record received. *)
Definition finished (own peer : record) : bool :=
  Nat.leb STAGE_ONLINE_END (r_stage own) && Nat.leb STAGE_ONLINE_END (r_stage peer).
Definition mark_online_start (peer : record) (c : ckpt) : ckpt * list event :=
  let obs := OStart (finished (record_of c) peer) (r_peer peer) (r_parsed peer) in
  if Nat.ltb (c_stage c) STAGE_ONLINE_START
  then let c' := set_stage STAGE_ONLINE_START c in (c', save c' ++ [obs])
  else (c, [obs]).

(** UpdateEcdhDualMaskedItemSelfCount, ...PeerCount, UpdateParsedBucketCount (213-238). *)
Definition update_self (n : N) (c : ckpt) : ckpt :=
  mk_ckpt STAGE_ONLINE_START (c_config c) (c_digest c) n (c_peer c) (c_parsed c).
Definition update_peer (n : N) (c : ckpt) : ckpt :=
  mk_ckpt STAGE_ONLINE_START (c_config c) (c_digest c) (c_self c) n (c_parsed c).
Definition update_parsed (n : N) (c : ckpt) : ckpt :=
  mk_ckpt STAGE_ONLINE_START (c_config c) (c_digest c) (c_self c) (c_peer c) n.

(** MarkOnlineEnd, MarkPostProcessEnd (240-256). *)
Definition mark_stage (s : nat) (c : ckpt) : ckpt * list event :=
  if Nat.ltb (c_stage c) s then let c' := set_stage s c in (c', save c') else (c, []).

Definition exec (d : folder) (x : call) (c : ckpt) : outcome (ckpt * list event) :=
  match x with
  | CInit cfg dig => mark_init_end cfg dig c
  | CPre k => Ok (mark_pre k c (f_key d))
  | COnline p => Ok (mark_online_start p c)
  | CSelf n => let c' := update_self n c in Ok (c', save c')
  | CPeer n => let c' := update_peer n c in Ok (c', save c')
  | CParsed n => let c' := update_parsed n c in Ok (c', save c')
  | COnlineEnd => Ok (mark_stage STAGE_ONLINE_END c)
  | CPostEnd => Ok (mark_stage STAGE_POST_PROCESS_END c)
  end.

(** The events of a sequence of calls; an exception ends the run. *)
Fixpoint run_calls (xs : list call) (c : ckpt) (d : folder) : list event :=
  match xs with
  | [] => []
  | x :: r =>
      match exec d x c with
      | Ok (c', es) => es ++ run_calls r c' (apply_events d es)
      | _ => []
      end
  end.
Definition run (xs : list call) (d : folder) : list event :=
  match load d with Ok c => run_calls xs c d | _ => [] end.

(** A protocol-ordered run: Init (interface.cc 139-140, repeated in ecdh/receiver.cc 45-47),
    PreProcess, Online with its updates, the end marks. *)
Definition program (cfg : Config) (dig : list N) (again : bool) (k : option Key) (peer : record)
  (ups : list call) (ends : list call) : list call :=
  CInit cfg dig :: (if again then [CInit cfg dig] else []) ++ CPre k :: COnline peer :: ups ++ ends.
Definition is_update (x : call) : Prop :=
  match x with CSelf _ | CPeer _ | CParsed _ => True | _ => False end.
Definition is_end (x : call) : Prop := match x with COnlineEnd | CPostEnd => True | _ => False end.

(** Any number of protocol-ordered runs on a folder, each cut off anywhere. *)
Inductive history (kinds : option Key -> Prop) : folder -> list event -> Prop :=
| h_start : history kinds fresh_folder []
| h_run : forall d es cfg dig again k peer ups ends n,
    history kinds d es -> kinds k ->
    Forall is_update ups -> Forall is_end ends ->
    let new := firstn n (run (program cfg dig again k peer ups ends) d) in
    history kinds (apply_events d new) (es ++ new).

(** Where the bucket protocols resume (kkrt/receiver.cc 106-110, rr22/receiver.cc 104-108). *)
Definition start_bucket (own peer : record) : N := N.min (r_parsed peer) (r_parsed own).
(** Where MaskSelf resumes (ecdh_psi.cc 462-480). *)
Definition processed_items (self_touch peer_touch : bool) (own : ckpt) (peer : record) : N :=
  if self_touch && peer_touch then N.min (r_peer peer) (c_self own)
  else if self_touch && negb peer_touch then c_self own
  else r_peer peer.
End Recovery.
