(** Model of how a run of PSI is set up: psi/apps/psi_launcher/launch.cc 325-541 (the configs of
    psi/config/{protocol,psi,ub_psi}.h turned into the messages of psi_v2.proto),
    psi/apps/psi_launcher/factory.cc 36-101, psi/interface.cc 195-279 (the two checks of Init).

    Simplified: enumerations hold only the declared values; messages that are always compared as
    present (protocol_config, recovery_config, input_attr) are plain records, the others that are
    compared are options; the configs travel through serialisation unchanged; a run of two parties
    throws if one of them throws. *)
From Coq Require Import List NArith Bool String.
From Verif Require Import Base JoinModel.
Import ListNotations.
Local Open Scope N_scope.

(** ** psi/config/*.h *)
(** PsiProtocol (protocol.h 24-57) *)
Inductive a_protocol : Type := AUnspec | AEcdh | AKkrt | ARr22 | AEcdh3pc | AEcdhNpc | AKkrtNpc | ADp.
(** EllipticCurveType (curve.h) and CurveType (psi.proto) *)
Inductive a_curve : Type := ACurveInvalid | ACurve25519 | ACurveFourq | ACurveSm2 | ACurveSecp | ACurveElligator.
Inductive v_curve : Type := VCurveInvalid | VCurve25519 | VCurveFourq | VCurveSm2 | VCurveSecp | VCurveElligator.
(** SourceType, ResultJoinType (psi.h 27-48); IoType of psi_v2.proto *)
Inductive a_io : Type := AIoUnspec | AIoCsv.
Inductive v_io : Type := VIoUnspec | VIoCsv.
Inductive a_join : Type := AJoinUnspec | AJoinInner | AJoinLeft | AJoinRight | AJoinFull | AJoinDiff.

(** PsiExecuteConfig (psi.h 105-120) with its parts *)
Record a_conf : Type := mk_a {
  a_proto : a_protocol; a_receiver : N; a_bucket : N; a_broadcast : bool; a_ecurve : a_curve; a_batch : N;
  a_low_comm : bool; a_dp : N * N;
  a_in_type : a_io; a_in_path : string; a_keys : list string; a_unique : bool;
  a_out_type : a_io; a_out_path : string; a_no_align : bool; a_null : string;
  a_jtype : a_join; a_left_rank : N;
  a_ckpt : bool; a_ckpt_path : string }.

(** ** psi_v2.proto *)
Inductive v_protocol : Type := VUnspec | VEcdh | VKkrt | VRr22.
Inductive v_role : Type := RUnspec | RReceiver | RSender | RServer | RClient.
(** AdvancedJoinType; [None] is UNSPECIFIED *)
Definition v_join : Type := option join_type.

(** PsiConfig *)
Record v_conf : Type := mk_v {
  v_proto : v_protocol; v_prole : v_role; v_broadcast : bool;
  v_ecdh : option (v_curve * N); v_kkrt : option N; v_rr22 : option (N * bool);
  v_in_type : v_io; v_in_path : string; v_out_type : v_io; v_out_path : string;
  v_keys : list string; v_debug : string; v_no_align : bool;
  v_rec : bool; v_rec_folder : string;
  v_jtype : v_join; v_left : v_role; v_digest : bool; v_unique : bool;
  v_null : option string; v_threshold : N; v_count_path : string }.

(** ** The maps of launch.cc; std::map::at throws for a key that is not there. *)
(** kV2ProtoclMap 325-328 *)
Definition proto_map (p : a_protocol) : outcome v_protocol :=
  match p with AEcdh => Ok VEcdh | AKkrt => Ok VKkrt | ARr22 => Ok VRr22 | _ => Throw end.
(** kPsiTypeMap 330-335 *)
Inductive l_type : Type := Ecdh3pc | EcdhNpc | KkrtNpc | Dp2pc.
Definition type_map (p : a_protocol) : outcome l_type :=
  match p with AEcdh3pc => Ok Ecdh3pc | AEcdhNpc => Ok EcdhNpc | AKkrtNpc => Ok KkrtNpc | ADp => Ok Dp2pc | _ => Throw end.
(** kCurTypeMap 337-345 *)
Definition curve_map (c : a_curve) : outcome v_curve :=
  match c with
  | ACurveInvalid => Ok VCurveInvalid | ACurve25519 => Ok VCurve25519 | ACurveFourq => Ok VCurveFourq
  | ACurveSm2 => Ok VCurveSm2 | ACurveSecp => Ok VCurveSecp | ACurveElligator => Ok VCurveElligator
  end.
(** kIoTypeMap 347-349 *)
Definition io_map (t : a_io) : outcome v_io := match t with AIoUnspec => Ok VIoUnspec | AIoCsv => Ok VIoCsv end.
(** kJoinTypeMap 351-364 *)
Definition join_map (t : a_join) : outcome v_join :=
  match t with
  | AJoinUnspec => Ok None | AJoinInner => Ok (Some JInner) | AJoinLeft => Ok (Some JLeft)
  | AJoinRight => Ok (Some JRight) | AJoinFull => Ok (Some JFull) | AJoinDiff => Ok (Some JDifference)
  end.

(** ExecConfToV2Conf 366-423 at the party of rank [rank] *)
Definition exec_to_v2 (e : a_conf) (rank : N) : outcome v_conf :=
  do p <- proto_map (a_proto e);
  do c <- curve_map (a_ecurve e);
  do it <- io_map (a_in_type e);
  do ot <- io_map (a_out_type e);
  do jt <- join_map (a_jtype e);
  Ok (mk_v p (if a_receiver e =? rank then RReceiver else RSender) (a_broadcast e)
        (Some (c, a_batch e)) (Some (a_bucket e)) (Some (a_bucket e, a_low_comm e))
        it (a_in_path e) ot (a_out_path e) (a_keys e) "" (a_no_align e)
        (a_ckpt e) (a_ckpt_path e)
        jt (if a_left_rank e =? a_receiver e then RReceiver else RSender) true (a_unique e)
        (Some (a_null e)) 0 "").

(** ** factory.cc 36-81 *)
Inductive party : Type := PEcdh (r : v_role) | PThresholdEcdh (r : v_role) | PKkrt (r : v_role) | PRr22 (r : v_role).
Definition create_party (c : v_conf) : outcome party :=
  match v_prole c with
  | RReceiver | RSender =>
    match v_proto c with
    | VEcdh => Ok (if v_threshold c =? 0 then PEcdh (v_prole c) else PThresholdEcdh (v_prole c))
    | VKkrt => Ok (PKkrt (v_prole c))
    | VRr22 => Ok (PRr22 (v_prole c))
    | VUnspec => Throw
    end
  | _ => Throw
  end.
(** role_ of the party (interface.cc 314-320). *)
Definition party_role (p : party) : v_role := match p with PEcdh r | PThresholdEcdh r | PKkrt r | PRr22 r => r end.

(** ** interface.cc *)
Definition v_protocol_eqb (a b : v_protocol) : bool :=
  match a, b with VUnspec, VUnspec | VEcdh, VEcdh | VKkrt, VKkrt | VRr22, VRr22 => true | _, _ => false end.
Definition v_role_eqb (a b : v_role) : bool :=
  match a, b with
  | RUnspec, RUnspec | RReceiver, RReceiver | RSender, RSender | RServer, RServer | RClient, RClient => true
  | _, _ => false
  end.
Definition v_curve_eqb (a b : v_curve) : bool :=
  match a, b with
  | VCurveInvalid, VCurveInvalid | VCurve25519, VCurve25519 | VCurveFourq, VCurveFourq
  | VCurveSm2, VCurveSm2 | VCurveSecp, VCurveSecp | VCurveElligator, VCurveElligator => true
  | _, _ => false
  end.
Definition v_io_eqb (a b : v_io) : bool := match a, b with VIoUnspec, VIoUnspec | VIoCsv, VIoCsv => true | _, _ => false end.
Definition join_type_eqb (a b : join_type) : bool :=
  match a, b with
  | JInner, JInner | JLeft, JLeft | JRight, JRight | JFull, JFull | JDifference, JDifference => true
  | _, _ => false
  end.
Definition opt_eqb {A} (eqb : A -> A -> bool) (a b : option A) : bool :=
  match a, b with Some x, Some y => eqb x y | None, None => true | _, _ => false end.
Fixpoint list_eqb {A} (eqb : A -> A -> bool) (a b : list A) : bool :=
  match a, b with
  | [], [] => true
  | x :: r, y :: s => eqb x y && list_eqb eqb r s
  | _, _ => false
  end.
Definition pair_eqb {A B} (e : A -> A -> bool) (g : B -> B -> bool) (a b : A * B) : bool := e (fst a) (fst b) && g (snd a) (snd b).

(** std::set of the keys: the number of different ones (218) *)
Fixpoint count_distinct (l : list string) : nat :=
  match l with
  | [] => 0
  | x :: r => if existsb (String.eqb x) r then count_distinct r else S (count_distinct r)
  end.

(** CheckSelfConfig 195-228; the curve of a missing ecdh_config is CURVE_INVALID_TYPE. *)
Definition check_self (role : v_role) (c : v_conf) : outcome v_conf :=
  let curve := match v_ecdh c with Some (k, _) => k | None => VCurveInvalid end in
  if v_protocol_eqb (v_proto c) VEcdh && v_curve_eqb curve VCurveInvalid then Throw
  else if negb (v_role_eqb (v_prole c) role) then Throw
  else if negb (v_io_eqb (v_in_type c) VIoCsv) then Throw
  else if negb (v_io_eqb (v_out_type c) VIoCsv) then Throw
  else if Nat.eqb (List.length (v_keys c)) 0 then Throw
  else if negb (Nat.eqb (count_distinct (v_keys c)) (List.length (v_keys c))) then Throw
  else Ok (mk_v (v_proto c) (v_prole c) (v_broadcast c) (v_ecdh c) (v_kkrt c) (v_rr22 c)
             (v_in_type c) (v_in_path c) (v_out_type c) (v_out_path c) (v_keys c) (v_debug c) (v_no_align c)
             (v_rec c) (v_rec_folder c) (v_jtype c) (v_left c)
             (if negb (v_digest c) && v_rec c then true else v_digest c)
             (v_unique c) (v_null c) (v_threshold c) (v_count_path c)).

(** What a party sends in CheckPeerConfig (231-246). *)
Definition peer_view (c : v_conf) : v_conf :=
  mk_v (v_proto c) (v_prole c) (v_broadcast c) (v_ecdh c) (v_kkrt c) (v_rr22 c)
    VIoUnspec "" VIoUnspec "" [] "" false (v_rec c) "" (v_jtype c) (v_left c) (v_digest c)
    false (v_null c) (v_threshold c) "".

(** MessageDifferencer::Equals: every field, a missing message differs from an empty one. *)
Definition v_equals (a b : v_conf) : bool :=
  v_protocol_eqb (v_proto a) (v_proto b) && v_role_eqb (v_prole a) (v_prole b) && Bool.eqb (v_broadcast a) (v_broadcast b)
  && opt_eqb (pair_eqb v_curve_eqb N.eqb) (v_ecdh a) (v_ecdh b) && opt_eqb N.eqb (v_kkrt a) (v_kkrt b)
  && opt_eqb (pair_eqb N.eqb Bool.eqb) (v_rr22 a) (v_rr22 b)
  && v_io_eqb (v_in_type a) (v_in_type b) && String.eqb (v_in_path a) (v_in_path b)
  && v_io_eqb (v_out_type a) (v_out_type b) && String.eqb (v_out_path a) (v_out_path b)
  && list_eqb String.eqb (v_keys a) (v_keys b) && String.eqb (v_debug a) (v_debug b) && Bool.eqb (v_no_align a) (v_no_align b)
  && Bool.eqb (v_rec a) (v_rec b) && String.eqb (v_rec_folder a) (v_rec_folder b)
  && opt_eqb join_type_eqb (v_jtype a) (v_jtype b) && v_role_eqb (v_left a) (v_left b) && Bool.eqb (v_digest a) (v_digest b)
  && Bool.eqb (v_unique a) (v_unique b) && opt_eqb String.eqb (v_null a) (v_null b)
  && (v_threshold a =? v_threshold b) && String.eqb (v_count_path a) (v_count_path b).

Definition no_role (c : v_conf) : v_conf :=
  mk_v (v_proto c) RUnspec (v_broadcast c) (v_ecdh c) (v_kkrt c) (v_rr22 c)
    (v_in_type c) (v_in_path c) (v_out_type c) (v_out_path c) (v_keys c) (v_debug c) (v_no_align c)
    (v_rec c) (v_rec_folder c) (v_jtype c) (v_left c) (v_digest c) (v_unique c) (v_null c) (v_threshold c) (v_count_path c).

(** CheckPeerConfig 248-279 on the two messages, in the order of the ranks. *)
Definition check_peer (m0 m1 : v_conf) : outcome unit :=
  if v_role_eqb (v_prole m0) (v_prole m1) then Throw
  else enforce (v_equals (no_role m0) (no_role m1)) (Ok tt).

(** ** JoinProcessor's constructors (join_processor.cc 100-173, 175-230): what decides which lines
    are written *)
Record join_proc : Type := mk_jp { jp_type : join_type; jp_role : v_role; jp_left : v_role; jp_null : string }.
Definition jp_make (t : v_join) (role left : v_role) (null : option string) : outcome join_proc :=
  let ty := match t with None => JInner | Some ty => ty end in
  if negb (join_type_eqb ty JInner) && v_role_eqb left RUnspec then Throw
  else Ok (mk_jp ty role left (match null with Some s => if String.eqb s "" then "NULL" else s | None => "NULL" end)).
(** The intersect and the except file are kept (156-167, 212-223). *)
Definition jp_inter (p : join_proc) : bool := negb (join_type_eqb (jp_type p) JDifference).
Definition jp_except (p : join_proc) : bool :=
  join_type_eqb (jp_type p) JDifference || join_type_eqb (jp_type p) JFull
  || (join_type_eqb (jp_type p) JLeft && v_role_eqb (jp_left p) (jp_role p))
  || (join_type_eqb (jp_type p) JRight && negb (v_role_eqb (jp_left p) (jp_role p))).
(** GenerateResult 322-338: the number of lines below the header, given the lines of the two files
    and the peer's count. *)
Definition jp_lines (p : join_proc) (inter except peer : nat) : nat :=
  ((if jp_inter p then inter else 0)
   + (if negb (v_role_eqb (jp_role p) (jp_left p))
         && (join_type_eqb (jp_type p) JLeft || join_type_eqb (jp_type p) JDifference || join_type_eqb (jp_type p) JFull)
      then peer else 0)
   + (if jp_except p then except else 0)
   + (if v_role_eqb (jp_role p) (jp_left p)
         && (join_type_eqb (jp_type p) JRight || join_type_eqb (jp_type p) JDifference || join_type_eqb (jp_type p) JFull)
      then peer else 0))%nat.

(** ** Two parties: RunPsi (launch.cc 97-128) up to JoinProcessor::Make in Init (interface.cc 67-80). *)
Record started : Type := mk_started { st_party : party; st_conf : v_conf; st_join : join_proc }.
Definition start2 (c0 c1 : v_conf) : outcome (started * started) :=
  do p0 <- create_party c0;
  do p1 <- create_party c1;
  do d0 <- check_self (party_role p0) c0;
  do d1 <- check_self (party_role p1) c1;
  do _ <- check_peer (peer_view d0) (peer_view d1);
  do j0 <- jp_make (v_jtype d0) (v_prole d0) (v_left d0) (v_null d0);
  do j1 <- jp_make (v_jtype d1) (v_prole d1) (v_left d1) (v_null d1);
  Ok (mk_started p0 d0 j0, mk_started p1 d1 j1).
(** PsiExecute at the ranks 0 and 1 with one of the three protocols (launch.cc 469-471). *)
Definition exec2 (e0 e1 : a_conf) : outcome (started * started) :=
  do c0 <- exec_to_v2 e0 0;
  do c1 <- exec_to_v2 e1 1;
  start2 c0 c1.

(** ** Legacy protocols: ExecConfToBucketConf 425-449, PsiExecute 451-478 *)
Record b_conf : Type := mk_b {
  b_type : l_type; b_receiver : N; b_broadcast : bool; b_in_path : string; b_fields : list string; b_precheck : bool;
  b_out_path : string; b_sort : bool; b_curve : v_curve; b_bucket : N; b_dp : N * N }.
Definition exec_to_bucket (e : a_conf) : outcome b_conf :=
  do t <- type_map (a_proto e);
  do c <- curve_map (a_ecurve e);
  Ok (mk_b t (a_receiver e) (a_broadcast e) (a_in_path e) (a_keys e) (negb (a_unique e))
        (a_out_path e) (negb (a_no_align e)) c (a_bucket e) (a_dp e)).
(** What PsiExecute hands on (before any link is used). *)
Definition dispatch (e : a_conf) (rank : N) : outcome (b_conf + v_conf) :=
  match a_proto e with
  | AUnspec => Throw
  | AEcdh3pc | AEcdhNpc | AKkrtNpc | ADp => omap inl (exec_to_bucket e)
  | _ => omap inr (exec_to_v2 e rank)
  end.

(** ** Unbalanced PSI: the join part of UbExecConfToUbconf 493-540 and of RunUbPsi; the two parties'
    configs are not compared. *)
Definition ub_role (r : v_role) : outcome v_role :=
  match r with RServer => Ok RServer | RClient => Ok RClient | _ => Throw end.
Definition ub_left (role : v_role) (left_rank rank : N) : v_role :=
  match role with
  | RServer => if left_rank =? rank then RServer else RClient
  | _ => if negb (left_rank =? rank) then RServer else RClient
  end.
Definition ub_exec (role : v_role) (t : a_join) (left_rank : N) (null : string) (rank : N) : outcome join_proc :=
  do r <- ub_role role;
  do jt <- join_map t;
  jp_make jt r (ub_left r left_rank rank) (Some null).
