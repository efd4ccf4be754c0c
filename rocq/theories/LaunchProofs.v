From Coq Require Import List NArith Arith Bool String Lia.
From Verif Require Import Base JoinModel LaunchModel LaunchSpec.
Import ListNotations.
Local Open Scope N_scope.

Lemma proto_eqb_eq : forall a b, v_protocol_eqb a b = true <-> a = b. Proof. intros [] []; split; (reflexivity || discriminate). Qed.
Lemma role_eqb_eq' : forall a b, v_role_eqb a b = true <-> a = b. Proof. intros [] []; split; (reflexivity || discriminate). Qed.
Lemma curve_eqb_eq : forall a b, v_curve_eqb a b = true <-> a = b. Proof. intros [] []; split; (reflexivity || discriminate). Qed.
Lemma io_eqb_eq : forall a b, v_io_eqb a b = true <-> a = b. Proof. intros [] []; split; (reflexivity || discriminate). Qed.
Lemma join_eqb_eq : forall a b, join_type_eqb a b = true <-> a = b. Proof. intros [] []; split; (reflexivity || discriminate). Qed.
Lemma opt_eqb_eq : forall A (e : A -> A -> bool), (forall x y, e x y = true <-> x = y) -> forall a b, opt_eqb e a b = true <-> a = b.
Proof. intros A e H [x|] [y|]; cbn; rewrite ?H; split; intros E; congruence. Qed.
Lemma pair_eqb_eq : forall A B (e : A -> A -> bool) (g : B -> B -> bool), (forall x y, e x y = true <-> x = y) -> (forall x y, g x y = true <-> x = y) ->
  forall a b, pair_eqb e g a b = true <-> a = b.
Proof. intros A B e g H G [x y] [z w]. unfold pair_eqb. cbn. rewrite andb_true_iff, H, G. split; [intros [-> ->]; reflexivity|intros E; inversion E; auto]. Qed.
Lemma bool_eqb_eq : forall a b, Bool.eqb a b = true <-> a = b. Proof. intros a b. apply eqb_true_iff. Qed.

Lemma count_distinct_le : forall l, (count_distinct l <= List.length l)%nat.
Proof. induction l as [|x l IH]; cbn; [lia|]. destruct (existsb _ l); lia. Qed.
Lemma count_distinct_nodup : forall l, count_distinct l = List.length l <-> NoDup l.
Proof.
  induction l as [|x l IH]; cbn; [split; constructor|]. destruct (existsb (String.eqb x) l) eqn:E.
  - split; intros H.
    + pose proof (count_distinct_le l). lia.
    + inversion H; subst. apply existsb_exists in E. destruct E as (y & I & Q). apply String.eqb_eq in Q. subst. contradiction.
  - split; intros H.
    + constructor; [|apply IH; lia]. intros I. assert (X : existsb (String.eqb x) l = true) by (apply existsb_exists; exists x; rewrite String.eqb_refl; auto). congruence.
    + inversion H; subst. f_equal. apply IH. assumption.
Qed.

Definition self_ok (role : v_role) (c : v_conf) : Prop :=
  (v_proto c = VEcdh -> exists k n, v_ecdh c = Some (k, n) /\ k <> VCurveInvalid) /\ v_prole c = role /\
  v_in_type c = VIoCsv /\ v_out_type c = VIoCsv /\ v_keys c <> [] /\ NoDup (v_keys c).
Definition with_digest (c : v_conf) : v_conf :=
  mk_v (v_proto c) (v_prole c) (v_broadcast c) (v_ecdh c) (v_kkrt c) (v_rr22 c)
    (v_in_type c) (v_in_path c) (v_out_type c) (v_out_path c) (v_keys c) (v_debug c) (v_no_align c)
    (v_rec c) (v_rec_folder c) (v_jtype c) (v_left c) (v_digest c || v_rec c)
    (v_unique c) (v_null c) (v_threshold c) (v_count_path c).

Lemma check_self_spec : forall role c, (self_ok role c /\ check_self role c = Ok (with_digest c)) \/ (~ self_ok role c /\ check_self role c = Throw).
Proof.
  intros role c. unfold check_self.
  destruct (v_protocol_eqb (v_proto c) VEcdh && v_curve_eqb match v_ecdh c with Some (k, _) => k | None => VCurveInvalid end VCurveInvalid) eqn:E1.
  { right. split; [|reflexivity]. intros (H & _). apply andb_true_iff in E1. destruct E1 as [P C]. apply proto_eqb_eq in P. apply curve_eqb_eq in C.
    destruct (H P) as (k & n & Q & N). rewrite Q in C. contradiction. }
  destruct (v_role_eqb (v_prole c) role) eqn:E2; cbn [negb].
  2:{ right. split; [|reflexivity]. intros (_ & H & _). apply role_eqb_eq' in H. congruence. }
  destruct (v_io_eqb (v_in_type c) VIoCsv) eqn:E3; cbn [negb].
  2:{ right. split; [|reflexivity]. intros (_ & _ & H & _). apply io_eqb_eq in H. congruence. }
  destruct (v_io_eqb (v_out_type c) VIoCsv) eqn:E4; cbn [negb].
  2:{ right. split; [|reflexivity]. intros (_ & _ & _ & H & _). apply io_eqb_eq in H. congruence. }
  destruct (Nat.eqb (List.length (v_keys c)) 0) eqn:E5.
  { right. split; [|reflexivity]. intros (_ & _ & _ & _ & H & _). apply Nat.eqb_eq in E5. apply length_zero_iff_nil in E5. contradiction. }
  destruct (Nat.eqb (count_distinct (v_keys c)) (List.length (v_keys c))) eqn:E6; cbn [negb].
  2:{ right. split; [|reflexivity]. intros (_ & _ & _ & _ & _ & H). apply count_distinct_nodup, Nat.eqb_eq in H. congruence. }
  left. split.
  - repeat split.
    + intros P. apply andb_false_iff in E1. destruct E1 as [E1|E1]; [rewrite P in E1; discriminate|].
      destruct (v_ecdh c) as [[k n]|]; [|discriminate]. exists k, n. split; [reflexivity|]. intros ->. discriminate.
    + apply role_eqb_eq'. exact E2.
    + apply io_eqb_eq. exact E3.
    + apply io_eqb_eq. exact E4.
    + intros Z. rewrite Z in E5. discriminate.
    + apply count_distinct_nodup, Nat.eqb_eq. exact E6.
  - unfold with_digest. do 2 f_equal. destruct (v_digest c), (v_rec c); reflexivity.
Qed.

Definition same_view (a b : v_conf) : Prop :=
  v_proto a = v_proto b /\ v_broadcast a = v_broadcast b /\
  v_ecdh a = v_ecdh b /\ v_kkrt a = v_kkrt b /\ v_rr22 a = v_rr22 b /\ v_rec a = v_rec b /\
  v_jtype a = v_jtype b /\ v_left a = v_left b /\ v_digest a = v_digest b /\ v_null a = v_null b /\ v_threshold a = v_threshold b.

Lemma check_peer_spec : forall a b,
  (v_prole a <> v_prole b /\ same_view a b /\ check_peer (peer_view a) (peer_view b) = Ok tt) \/
  (~ (v_prole a <> v_prole b /\ same_view a b) /\ check_peer (peer_view a) (peer_view b) = Throw).
Proof.
  intros a b. unfold check_peer. cbn [v_prole peer_view].
  destruct (v_role_eqb (v_prole a) (v_prole b)) eqn:R.
  { right. split; [|reflexivity]. intros (H & _). apply role_eqb_eq' in R. contradiction. }
  assert (NR : v_prole a <> v_prole b) by (intros E; apply role_eqb_eq' in E; congruence).
  assert (EQ : v_equals (no_role (peer_view a)) (no_role (peer_view b)) = true <-> same_view a b).
  { unfold v_equals, same_view. cbn [no_role peer_view v_proto v_prole v_broadcast v_ecdh v_kkrt v_rr22 v_in_type v_in_path v_out_type v_out_path v_keys
      v_debug v_no_align v_rec v_rec_folder v_jtype v_left v_digest v_unique v_null v_threshold v_count_path].
    rewrite !andb_true_iff, proto_eqb_eq, !bool_eqb_eq, N.eqb_eq, !role_eqb_eq', (opt_eqb_eq _ _ join_eqb_eq), (opt_eqb_eq _ _ N.eqb_eq), (opt_eqb_eq _ _ String.eqb_eq),
      (opt_eqb_eq _ _ (pair_eqb_eq _ _ _ _ curve_eqb_eq N.eqb_eq)), (opt_eqb_eq _ _ (pair_eqb_eq _ _ _ _ N.eqb_eq bool_eqb_eq)).
    cbn [v_io_eqb String.eqb list_eqb]. tauto. }
  destruct (v_equals _ _) eqn:E; cbn [enforce].
  - left. split; [exact NR|]. split; [apply EQ; reflexivity|reflexivity].
  - right. split; [|reflexivity]. intros (_ & H). apply EQ in H. discriminate.
Qed.

Lemma jp_make_spec : forall t r l n,
  ((l = RUnspec -> t = None \/ t = Some JInner) /\ exists j, jp_make t r l n = Ok j /\ jp_type j = match t with None => JInner | Some x => x end /\ jp_role j = r /\ jp_left j = l /\
     jp_null j = match n with Some s => if String.eqb s "" then "NULL"%string else s | None => "NULL"%string end) \/
  (~ (l = RUnspec -> t = None \/ t = Some JInner) /\ jp_make t r l n = Throw).
Proof.
  intros t r l n. unfold jp_make.
  destruct (v_role_eqb l RUnspec) eqn:R; [apply role_eqb_eq' in R; subst|].
  - destruct t as [[]|]; cbn; try (left; split; [auto|]; eexists; split; [reflexivity|]; repeat split; fail);
      (right; split; [intros H; destruct (H eq_refl); discriminate|reflexivity]).
  - left. split; [intros ->; discriminate|]. rewrite andb_false_r. eexists. split; [reflexivity|]. repeat split.
Qed.

Lemma create_spec : forall c,
  (v_proto c <> VUnspec /\ (v_prole c = RReceiver \/ v_prole c = RSender) /\ exists p, create_party c = Ok p /\ party_role p = v_prole c /\
     p = match v_proto c with
         | VEcdh => if v_threshold c =? 0 then PEcdh (v_prole c) else PThresholdEcdh (v_prole c)
         | VKkrt => PKkrt (v_prole c)
         | _ => PRr22 (v_prole c)
         end) \/
  (~ (v_proto c <> VUnspec /\ (v_prole c = RReceiver \/ v_prole c = RSender)) /\ create_party c = Throw).
Proof.
  intros c. unfold create_party. destruct (v_prole c), (v_proto c);
    try (right; split; [intros (A & [B|B]); (discriminate || contradiction)|reflexivity]; fail);
    left; split; [discriminate| |discriminate| |discriminate| |discriminate| |discriminate| |discriminate|]; (split; [auto|]; eexists; split; [reflexivity|]; split; [|reflexivity]);
    try reflexivity; destruct (v_threshold c =? 0); reflexivity.
Qed.

Definition jtype (c : v_conf) : join_type := match v_jtype c with None => JInner | Some t => t end.
Definition start_ok (c0 c1 : v_conf) (s0 s1 : started) : Prop :=
  let ok c s := st_conf s = with_digest c /\ party_role (st_party s) = v_prole c /\
    st_party s = match v_proto c with
         | VEcdh => if v_threshold c =? 0 then PEcdh (v_prole c) else PThresholdEcdh (v_prole c)
         | VKkrt => PKkrt (v_prole c)
         | _ => PRr22 (v_prole c)
         end /\
    jp_type (st_join s) = jtype c /\ jp_role (st_join s) = v_prole c /\ jp_left (st_join s) = v_left c /\
    jp_null (st_join s) = match v_null c with Some s => if String.eqb s "" then "NULL"%string else s | None => "NULL"%string end in
  ok c0 s0 /\ ok c1 s1.

Lemma digest_iff : forall a b c d : bool, a || b = c || d <-> (a = true \/ b = true <-> c = true \/ d = true).
Proof. intros [] [] [] []; cbn; intuition discriminate. Qed.

Lemma start2_spec : forall c0 c1,
  (conf_valid c0 /\ conf_valid c1 /\ opposite (v_prole c0) (v_prole c1) /\ conf_agree c0 c1 /\
     exists s0 s1, start2 c0 c1 = Ok (s0, s1) /\ start_ok c0 c1 s0 s1) \/
  (~ (conf_valid c0 /\ conf_valid c1 /\ opposite (v_prole c0) (v_prole c1) /\ conf_agree c0 c1) /\ start2 c0 c1 = Throw).
Proof.
  intros c0 c1. unfold start2.
  destruct (create_spec c0) as [(P0 & R0 & p0 & -> & RP0 & K0)|(F & ->)]; cbn [bind].
  2:{ right. split; [|reflexivity]. intros ((A & B & _) & _). tauto. }
  destruct (create_spec c1) as [(P1 & R1 & p1 & -> & RP1 & K1)|(F & ->)]; cbn [bind].
  2:{ right. split; [|reflexivity]. intros (_ & (A & B & _) & _). tauto. }
  destruct (check_self_spec (party_role p0) c0) as [(S0 & ->)|(F & ->)]; cbn [bind].
  2:{ right. split; [|reflexivity]. intros (V & _). apply F. unfold conf_valid in V. unfold self_ok. rewrite RP0. tauto. }
  destruct (check_self_spec (party_role p1) c1) as [(S1 & ->)|(F & ->)]; cbn [bind].
  2:{ right. split; [|reflexivity]. intros (_ & V & _). apply F. unfold conf_valid in V. unfold self_ok. rewrite RP1. tauto. }
  assert (OP : v_prole c0 <> v_prole c1 <-> opposite (v_prole c0) (v_prole c1)).
  { unfold opposite. destruct R0 as [-> | ->], R1 as [-> | ->]; intuition discriminate. }
  assert (AG : same_view (with_digest c0) (with_digest c1) <-> conf_agree c0 c1).
  { unfold same_view, conf_agree, with_digest. cbn [v_proto v_broadcast v_ecdh v_kkrt v_rr22 v_rec v_jtype v_left v_digest v_null v_threshold].
    rewrite digest_iff. tauto. }
  destruct (check_peer_spec (with_digest c0) (with_digest c1)) as [(NR & SV & ->)|(F & ->)]; cbn [bind].
  2:{ right. split; [|reflexivity]. intros (_ & _ & O & A). apply F. split; [exact (proj2 OP O)|apply AG; exact A]. }
  cbn [v_jtype v_left v_null v_prole with_digest] in *.
  assert (IJ : forall c, (v_left c = RUnspec -> v_jtype c = None \/ v_jtype c = Some JInner) <-> (v_left c = RUnspec -> is_join c JInner)).
  { intros c. unfold is_join. intuition. }
  destruct (jp_make_spec (v_jtype c0) (v_prole c0) (v_left c0) (v_null c0)) as [(J0 & j0 & -> & A0 & B0 & D0 & E0)|(F & ->)]; cbn [bind].
  2:{ right. split; [|reflexivity]. intros (V & _). apply F. apply IJ. apply V. }
  destruct (jp_make_spec (v_jtype c1) (v_prole c1) (v_left c1) (v_null c1)) as [(J1 & j1 & -> & A1 & B1 & D1 & E1)|(F & ->)]; cbn [bind].
  2:{ right. split; [|reflexivity]. intros (_ & V & _). apply F. apply IJ. apply V. }
  left. unfold self_ok in *. split; [|split; [|split; [|split]]].
  - unfold conf_valid. rewrite <- IJ. tauto.
  - unfold conf_valid. rewrite <- IJ. tauto.
  - apply OP. exact NR.
  - apply AG. exact SV.
  - do 2 eexists. split; [reflexivity|]. unfold start_ok. cbn [st_conf st_party st_join]. split; repeat split; assumption.
Qed.

(** What a party writes. *)
Definition proc (t : join_type) (r l : v_role) (n : string) : join_proc := mk_jp t r l n.
Lemma lines_left : forall j inter e p, jp_left j = jp_role j -> jp_lines j inter e p = joined (jp_type j) inter e p /\ jp_except j = keeps (jp_type j) true.
Proof. intros [t r l n] inter e p. cbn. intros ->. destruct r, t; cbn; split; (reflexivity || lia). Qed.
Lemma lines_right : forall j inter e p, jp_left j <> jp_role j -> jp_lines j inter e p = joined (jp_type j) inter p e /\ jp_except j = keeps (jp_type j) false.
Proof. intros [t r l n] inter e p. cbn. intros H. destruct r, l; try (contradiction H; reflexivity); destruct t; cbn; split; (reflexivity || lia). Qed.
