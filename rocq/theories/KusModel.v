(** Model of the launcher's start from a Kuscia task: psi/apps/psi_launcher/
    kuscia_adapter.cc, LinkResource::Acquire (psi/utils/resource_manager.cc) and the
    start of apps/psi_launcher/main.cc.

    Parsing JSON is not modelled: the parsed messages are records.  The part of a
    launch configuration that is only passed on is a number. *)
From Coq Require Import List NArith ZArith Bool Arith String Ascii.
From Verif Require Import Base Text.
Import ListNotations.
Local Open Scope list_scope.

Definition str (s : string) : bytes := map N_of_ascii (list_ascii_of_string s).

(* ------------------------------------------------------------------ *)
(** * std::map<std::string, std::string> *)

(** operator< of std::string. *)
Fixpoint blt (a b : bytes) : bool :=
  match a, b with
  | [], [] => false
  | [], _ => true
  | _, [] => false
  | x :: a', y :: b' => if (x =? y)%N then blt a' b' else (x <? y)%N
  end.

(** map[k] = v on the entries in order. *)
Fixpoint smap_set (m : list (bytes * bytes)) (k v : bytes) : list (bytes * bytes) :=
  match m with
  | [] => [(k, v)]
  | (k', v') :: r =>
    if beqb k k' then (k, v) :: r
    else if blt k k' then (k, v) :: m else (k', v') :: smap_set r k v
  end.

(* ------------------------------------------------------------------ *)
(** * FromKusciaConfig (kuscia_adapter.cc 33-98) *)

(** kuscia::Party: name and the endpoints of its services. *)
Record kparty := mk_kparty { kp_name : bytes; kp_services : list (list bytes) }.
(** LaunchConfig: parties of link_config (id, host), self_link_party, the rest. *)
Record lcfg := mk_lcfg { l_parties : list (bytes * bytes); l_self : bytes; l_rest : N }.
(** The parsed file. *)
Record ktask := mk_ktask {
  k_parties : list kparty; k_self : Z;          (* task_cluster_def *)
  k_configs : list (bytes * lcfg);              (* sf_psi_config_map *)
  k_ports : list N }.                           (* allocated_ports *)

(** Repeated fields are not checked in release builds. *)
Definition at_z {A : Type} (l : list A) (i : Z) : outcome A :=
  if (i <? 0)%Z then UB else match nth_error l (Z.to_nat i) with Some x => Ok x | None => UB end.

(** map::at of protobuf ends the process when the key is absent. *)
Fixpoint config_at (m : list (bytes * lcfg)) (k : bytes) : outcome lcfg :=
  match m with
  | [] => Throw
  | (k', c) :: r => if beqb k' k then Ok c else config_at r k
  end.

(** The address of a party as seen by this one (78-81). *)
Definition k_host (self : bool) (port : N) (p : kparty) : outcome bytes :=
  if self then Ok (str "0.0.0.0:" ++ dec port)
  else match kp_services p with
       | (e :: _) :: _ => Ok (str "http://" ++ e)
       | _ => UB
       end.

(** Loop 75-82. *)
Fixpoint k_hosts (ps : list kparty) (i self : Z) (port : N) (m : list (bytes * bytes)) : outcome (list (bytes * bytes)) :=
  match ps with
  | [] => Ok m
  | p :: r =>
    do h <- k_host (i =? self)%Z port p;
    k_hosts r (i + 1)%Z self port (smap_set m (kp_name p) h)
  end.

Definition from_kuscia (t : ktask) : outcome lcfg :=
  do me <- at_z (k_parties t) (k_self t);
  do c <- config_at (k_configs t) (kp_name me);
  match k_ports t with
  | [] => UB
  | port :: _ =>
    do hs <- k_hosts (k_parties t) 0%Z (k_self t) port [];
    Ok (mk_lcfg (l_parties c ++ hs) (kp_name me) (l_rest c))
  end.

(* ------------------------------------------------------------------ *)
(** * LinkResource::Acquire (resource_manager.cc 36-45): the rank; a later party of the
      same id replaces an earlier one *)
Fixpoint last_rank (ps : list (bytes * bytes)) (i : nat) (name : bytes) (r : option nat) : option nat :=
  match ps with
  | [] => r
  | (id, _) :: q => last_rank q (S i) name (if beqb id name then Some i else r)
  end.
Definition link_rank (c : lcfg) : outcome nat :=
  match last_rank (l_parties c) 0 (l_self c) None with Some r => Ok r | None => Throw end.

(** What main does before it runs anything (main.cc 49-58, 85-90): no link when
    self_link_party is empty. *)
Definition kuscia_start (t : ktask) : outcome (lcfg * option nat) :=
  do c <- from_kuscia t;
  match l_self c with [] => Ok (c, None) | _ => do r <- link_rank c; Ok (c, Some r) end.
