(** When two configurations may run together, and which lines a join keeps. *)
From Coq Require Import List NArith String.
From Verif Require Import JoinModel LaunchModel.
Import ListNotations.

Definition is_join (c : v_conf) (t : join_type) : Prop := v_jtype c = Some t \/ t = JInner /\ v_jtype c = None.

(** A configuration that can be run on its own. *)
Definition conf_valid (c : v_conf) : Prop :=
  v_proto c <> VUnspec /\ (v_prole c = RReceiver \/ v_prole c = RSender) /\
  (v_proto c = VEcdh -> exists k n, v_ecdh c = Some (k, n) /\ k <> VCurveInvalid) /\
  v_in_type c = VIoCsv /\ v_out_type c = VIoCsv /\ v_keys c <> [] /\ NoDup (v_keys c) /\
  (v_left c = RUnspec -> is_join c JInner).

(** The fields on which the parties must agree.  The digest is always on when recovery is. *)
Definition conf_agree (a b : v_conf) : Prop :=
  v_proto a = v_proto b /\ v_broadcast a = v_broadcast b /\
  v_ecdh a = v_ecdh b /\ v_kkrt a = v_kkrt b /\ v_rr22 a = v_rr22 b /\ v_rec a = v_rec b /\
  v_jtype a = v_jtype b /\ v_left a = v_left b /\
  (v_digest a = true \/ v_rec a = true <-> v_digest b = true \/ v_rec b = true) /\
  v_null a = v_null b /\ v_threshold a = v_threshold b.

Definition opposite (a b : v_role) : Prop := a = RReceiver /\ b = RSender \/ a = RSender /\ b = RReceiver.

(** Does a join keep the rows without a partner of the left (right) table? *)
Definition keeps (t : join_type) (is_left : bool) : bool :=
  match t with JInner => false | JLeft => is_left | JRight => negb is_left | JFull | JDifference => true end.
(** The number of lines of the joined table. *)
Definition joined (t : join_type) (inter left_alone right_alone : nat) : nat :=
  match t with
  | JInner => inter
  | JLeft => inter + left_alone
  | JRight => inter + right_alone
  | JFull => inter + left_alone + right_alone
  | JDifference => left_alone + right_alone
  end.

(** The two callers of PsiExecute agree on what must be the same. *)
Definition exec_agree (a b : a_conf) : Prop :=
  a_proto a = a_proto b /\ a_receiver a = a_receiver b /\ a_bucket a = a_bucket b /\ a_broadcast a = a_broadcast b /\
  a_ecurve a = a_ecurve b /\ a_batch a = a_batch b /\ a_low_comm a = a_low_comm b /\
  a_null a = a_null b /\ a_jtype a = a_jtype b /\ a_ckpt a = a_ckpt b /\
  (a_left_rank a = a_receiver a <-> a_left_rank b = a_receiver b).
Definition exec_valid (e : a_conf) : Prop :=
  (a_proto e = AEcdh \/ a_proto e = AKkrt \/ a_proto e = ARr22) /\
  (a_proto e = AEcdh -> a_ecurve e <> ACurveInvalid) /\
  a_in_type e = AIoCsv /\ a_out_type e = AIoCsv /\ a_keys e <> [] /\ NoDup (a_keys e).
Definition exec_join (e : a_conf) : join_type :=
  match a_jtype e with
  | AJoinUnspec | AJoinInner => JInner | AJoinLeft => JLeft | AJoinRight => JRight | AJoinFull => JFull | AJoinDiff => JDifference
  end.
(** PsiProtocol's protocols with more than two parties or with differential privacy *)
Definition legacy (p : a_protocol) : Prop := p = AEcdh3pc \/ p = AEcdhNpc \/ p = AKkrtNpc \/ p = ADp.
