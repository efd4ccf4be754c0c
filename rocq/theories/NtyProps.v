(** Properties of multi-party PSI with an aided server. *)
From Coq Require Import List Arith NArith Bool Lia Permutation.
From Verif Require Import Base BaseProofs StoreModel OkvsModel GfProofs Rr22OprfModel PaxEncModel PaxEncProofs BaxEncModel NtyModel NtySpec NtyProofs NtyProofs2.
Import ListNotations.
Local Open Scope N_scope.

Section Main.
Variable enc dec : N -> N -> N.
Variable cr : nat -> N -> N.
Variable shape : nat -> okvs_shape.
Variable mach : nat -> machine.
Variable wsize srv hlp rcv : nat.
Variable inputs : nat -> list N.
Variable seed : nat -> N.
Variable key : N.
Variable shufH shufR : list N -> list N.
Variable empty : N.
Variable broadcast : bool.
Notation run := (nty_run enc dec cr shape mach wsize srv hlp rcv inputs seed key shufH shufR empty broadcast).
Notation rvals := (receiver_values enc cr shape mach wsize srv hlp rcv inputs seed).
Notation hvals := (helper_values enc cr shape mach wsize srv hlp rcv inputs seed).

Lemma run_facts : forall res, nty_given enc dec cr shape mach wsize hlp rcv inputs shufH shufR -> run = Ok res ->
  (srv < wsize)%nat /\ (hlp < wsize)%nat /\ (rcv < wsize)%nat /\ hlp <> rcv /\
  exists VR VH raw, rvals = Ok (map VR (inputs rcv)) /\ hvals = Ok (map VH (inputs hlp)) /\
    (forall x, x < 2 ^ 128 -> VR x < 2 ^ 128 /\ VH x < 2 ^ 128) /\
    (forall x, common wsize inputs x -> VR x = VH x) /\
    (forall v, v < 2 ^ 128 -> times v raw = Nat.min (times v (map VH (inputs hlp))) (times v (map VR (inputs rcv)))) /\
    (forall r, In r raw -> In r (map VR (inputs rcv))) /\
    res = map (fun i => if Nat.eqb i rcv || broadcast then flat_map (report (inputs rcv) (map VR (inputs rcv))) raw else []) (seq 0 wsize).
Proof.
  intros res (G1 & G2 & G3 & G4 & G5 & G6 & G7 & G8) H. unfold nty_run in H.
  apply enf_ok in H. destruct H as [A H]. apply enf_ok in H. destruct H as [B H]. apply enf_ok in H. destruct H as [C H].
  rewrite !andb_true_iff, !negb_true_iff, !Nat.eqb_neq in A. rewrite !andb_true_iff, !Nat.ltb_lt in B.
  destruct A as [[A1 A2] A3], B as [[B1 B2] B3]. do 4 (split; [assumption|]).
  apply bind_ok in H. destruct H as (hv & EH & H). apply bind_ok in H. destruct H as (rv & ER & H). cbv zeta in H.
  apply bind_ok in H. destruct H as (r & EI & H). apply ok_inj in H.
  destruct (receiver_is enc cr shape mach G3 wsize srv hlp rcv inputs seed G1 G5 rv B1 A1 A2 ER) as (DR & HR & MR & BR).
  destruct (helper_is enc cr shape mach G3 wsize srv hlp rcv inputs seed G1 G5 hv EH) as (DH & HH & MH & BH).
  set (VR := fun x => N.lxor x (DR x)) in *. set (VH := fun x => N.lxor x (DH x)) in *.
  assert (BV : forall x, x < 2 ^ 128 -> VR x < 2 ^ 128 /\ VH x < 2 ^ 128) by (intros x X; split; apply lxor_below; auto).
  assert (BHv : Forall (fun v => v < 2 ^ 128) hv) by (rewrite HH; apply Forall_map, Forall_forall; intros x I; apply BV; eapply G4; eassumption).
  assert (BRv : Forall (fun v => v < 2 ^ 128) rv) by (rewrite HR; apply Forall_map, Forall_forall; intros x I; apply BV; eapply G4; eassumption).
  destruct (raw_facts (enc key) (dec key) shufH shufR hv rv (G2 key) G6 G7 BHv BRv) as [T I].
  unfold prf in EI. set (raw := map (dec key) (server_assist (shufH (map (enc key) hv)) (shufR (map (enc key) rv)))) in *.
  destruct (inter_ok_empty _ _ _ _ _ EI) as [E1 E2]. rewrite inter_is in EI; try assumption; [|rewrite HR; apply map_length]. apply ok_inj in EI.
  exists VR, VH, raw. rewrite <- HR, <- HH. do 3 (split; [assumption|]). split; [|split; [assumption|split; [assumption|]]].
  - intros x Cx. unfold VR, VH. rewrite MR, MH; [reflexivity| |apply Cx; assumption]. intros i Io. apply others_in in Io. apply Cx. apply Io.
  - rewrite <- H, EI. reflexivity.
Qed.

Lemma in_combine_map : forall (f : N -> N) l x, In x l -> In (x, f x) (combine l (map f l)).
Proof. intros f l x. induction l as [|y l IH]; intros H; [contradiction|]. cbn [map combine]. destruct H as [->|H]; [left; reflexivity|right; auto]. Qed.

Lemma own_inj : forall V R, own_distinct R (map V R) -> forall y y', In y R -> In y' R -> V y = V y' -> y = y'.
Proof. intros V R H y y' I I' E. apply (H y y' (V y)); [apply in_combine_map; assumption|]. rewrite E. apply in_combine_map. assumption. Qed.

(** C64.  Every party that gets a result gets exactly the items everybody has, provided the
    values of different items differ ([own_distinct], [no_collision]).  Without this proviso
    the claim is false, and not only by chance: see C64_extra_items_refuted. *)
Theorem C64_exact_partial : forall res rv hv, nty_given enc dec cr shape mach wsize hlp rcv inputs shufH shufR ->
  run = Ok res -> rvals = Ok rv -> hvals = Ok hv -> own_distinct (inputs rcv) rv -> no_collision wsize inputs (inputs rcv) rv (inputs hlp) hv ->
  length res = wsize /\
  forall i x, (i < wsize)%nat ->
    (i = rcv \/ broadcast = true ->
       (common wsize inputs x -> times x (nth i res []) = Nat.min (times x (inputs hlp)) (times x (inputs rcv))) /\
       (~ common wsize inputs x -> ~ In x (nth i res []))) /\
    (i <> rcv -> broadcast = false -> nth i res [] = []).
Proof.
  intros res rv hv G H ER EH OD NC. destruct (run_facts res G H) as (S & Hh & Hr & Hne & VR & VH & raw & E1 & E2 & BV & MV & T & I & ->).
  assert (rv = map VR (inputs rcv)) by congruence. assert (hv = map VH (inputs hlp)) by congruence. subst rv hv.
  pose proof (own_inj _ _ OD) as Inj. destruct G as (_ & _ & _ & G4 & _).
  split; [rewrite map_length, seq_length; reflexivity|]. intros i x Hi.
  rewrite (nth_indep _ [] ((fun i => if Nat.eqb i rcv || broadcast then flat_map (report (inputs rcv) (map VR (inputs rcv))) raw else []) 0%nat)) by (rewrite map_length, seq_length; assumption).
  rewrite (map_nth (fun i => if Nat.eqb i rcv || broadcast then flat_map (report (inputs rcv) (map VR (inputs rcv))) raw else [])).
  rewrite seq_nth by assumption. cbn [Nat.add]. split.
  - intros W. replace (Nat.eqb i rcv || broadcast) with true by (destruct W as [->| ->]; [rewrite Nat.eqb_refl|rewrite orb_true_r]; reflexivity).
    assert (TX : In x (inputs rcv) -> times x (flat_map (report (inputs rcv) (map VR (inputs rcv))) raw) = Nat.min (times (VR x) (map VH (inputs hlp))) (times (VR x) (map VR (inputs rcv)))).
    { intros Ix. rewrite report_times by assumption. apply T. apply BV. eapply G4; eassumption. }
    split.
    + intros Cx. pose proof (Cx rcv Hr) as Ir. pose proof (Cx hlp Hh) as Ih. rewrite TX by assumption. f_equal.
      * rewrite (MV x Cx). apply times_map. intros y Iy E. symmetry. apply (NC x y (VR x)).
        -- apply in_combine_map. assumption.
        -- rewrite (MV x Cx), <- E. apply in_combine_map. assumption.
      * apply times_map. intros y Iy E. apply Inj; assumption.
    + intros Cx In'. pose proof (report_in (inputs rcv) (map VR (inputs rcv)) raw x (map_length _ _) In') as Ir.
      apply (count_occ_In N.eq_dec) in In'. fold (times x (flat_map (report (inputs rcv) (map VR (inputs rcv))) raw)) in In'. rewrite TX in In' by assumption.
      assert (J : (times (VR x) (map VH (inputs hlp)) > 0)%nat) by lia. apply (count_occ_In N.eq_dec) in J. apply in_map_iff in J. destruct J as (z & E & Iz).
      apply Cx. apply (NC x z (VR x)); [apply in_combine_map; assumption|]. rewrite <- E. apply in_combine_map. assumption.
  - intros W1 W2. rewrite (proj2 (Nat.eqb_neq _ _) W1), W2. reflexivity.
Qed.

(** C64.  An item everybody has is reported, if no two of the receiver's items have one value. *)
Theorem C64_complete : forall res rv x, nty_given enc dec cr shape mach wsize hlp rcv inputs shufH shufR ->
  run = Ok res -> rvals = Ok rv -> own_distinct (inputs rcv) rv -> common wsize inputs x -> In x (nth rcv res []).
Proof.
  intros res rv x G H ER OD Cx. destruct (run_facts res G H) as (S & Hh & Hr & Hne & VR & VH & raw & E1 & E2 & BV & MV & T & I & ->).
  assert (rv = map VR (inputs rcv)) by congruence. subst rv. pose proof (own_inj _ _ OD) as Inj. destruct G as (_ & _ & _ & G4 & _).
  rewrite (nth_indep _ [] ((fun i => if Nat.eqb i rcv || broadcast then flat_map (report (inputs rcv) (map VR (inputs rcv))) raw else []) 0%nat)) by (rewrite map_length, seq_length; assumption).
  rewrite (map_nth (fun i => if Nat.eqb i rcv || broadcast then flat_map (report (inputs rcv) (map VR (inputs rcv))) raw else [])).
  rewrite seq_nth by assumption. cbn [Nat.add]. rewrite Nat.eqb_refl. cbn [orb]. pose proof (Cx rcv Hr) as Ir. pose proof (Cx hlp Hh) as Ih.
  apply (count_occ_In N.eq_dec). fold (times x (flat_map (report (inputs rcv) (map VR (inputs rcv))) raw)). rewrite report_times by assumption.
  rewrite T by (apply BV; eapply G4; eassumption).
  assert (X : (times (VR x) (map VH (inputs hlp)) > 0)%nat) by (apply (count_occ_In N.eq_dec); rewrite (MV x Cx); apply in_map; assumption).
  assert (Y : (times (VR x) (map VR (inputs rcv)) > 0)%nat) by (apply (count_occ_In N.eq_dec); apply in_map; assumption). lia.
Qed.

(** C64.  Whatever collides, only items of the receiver are reported. *)
Theorem C64_own_items : forall res i x, nty_given enc dec cr shape mach wsize hlp rcv inputs shufH shufR ->
  run = Ok res -> In x (nth i res []) -> In x (inputs rcv).
Proof.
  intros res i x G H X. destruct (run_facts res G H) as (S & Hh & Hr & Hne & VR & VH & raw & E1 & E2 & BV & MV & T & I & ->).
  destruct (Nat.ltb_spec i wsize) as [L|L]; [|rewrite nth_overflow in X by (rewrite map_length, seq_length; assumption); contradiction].
  rewrite (nth_indep _ [] ((fun i => if Nat.eqb i rcv || broadcast then flat_map (report (inputs rcv) (map VR (inputs rcv))) raw else []) 0%nat)) in X by (rewrite map_length, seq_length; assumption).
  rewrite (map_nth (fun i => if Nat.eqb i rcv || broadcast then flat_map (report (inputs rcv) (map VR (inputs rcv))) raw else [])) in X.
  rewrite seq_nth in X by assumption. cbn [Nat.add] in X. destruct (Nat.eqb i rcv || broadcast); [|contradiction]. eapply report_in; [apply map_length|exact X].
Qed.

(** C64.  Exactly which of the receiver's items are reported: those whose value the helper
    has as well. *)
Theorem C64_reported_iff : forall res rv hv x, nty_given enc dec cr shape mach wsize hlp rcv inputs shufH shufR ->
  run = Ok res -> rvals = Ok rv -> hvals = Ok hv -> own_distinct (inputs rcv) rv ->
  In x (nth rcv res []) <-> exists v, In (x, v) (combine (inputs rcv) rv) /\ In v hv.
Proof.
  intros res rv hv x G H ER EH OD. destruct (run_facts res G H) as (S & Hh & Hr & Hne & VR & VH & raw & E1 & E2 & BV & MV & T & I & ->).
  assert (rv = map VR (inputs rcv)) by congruence. assert (hv = map VH (inputs hlp)) by congruence. subst rv hv.
  pose proof (own_inj _ _ OD) as Inj. destruct G as (_ & _ & _ & G4 & _).
  rewrite (nth_indep _ [] ((fun i => if Nat.eqb i rcv || broadcast then flat_map (report (inputs rcv) (map VR (inputs rcv))) raw else []) 0%nat)) by (rewrite map_length, seq_length; assumption).
  rewrite (map_nth (fun i => if Nat.eqb i rcv || broadcast then flat_map (report (inputs rcv) (map VR (inputs rcv))) raw else [])).
  rewrite seq_nth by assumption. cbn [Nat.add]. rewrite Nat.eqb_refl. cbn [orb].
  assert (TX : In x (inputs rcv) -> times x (flat_map (report (inputs rcv) (map VR (inputs rcv))) raw) = Nat.min (times (VR x) (map VH (inputs hlp))) (times (VR x) (map VR (inputs rcv)))).
  { intros Ix. rewrite report_times by assumption. apply T. apply BV. eapply G4; eassumption. }
  split.
  - intros X. pose proof (report_in (inputs rcv) (map VR (inputs rcv)) raw x (map_length _ _) X) as Ir. exists (VR x). split; [apply in_combine_map; assumption|].
    apply (count_occ_In N.eq_dec) in X. fold (times x (flat_map (report (inputs rcv) (map VR (inputs rcv))) raw)) in X. rewrite TX in X by assumption.
    apply (count_occ_In N.eq_dec). unfold times in X. lia.
  - intros (v & X & Y). assert (Ir : In x (inputs rcv)) by (apply in_combine_l in X; assumption).
    assert (v = VR x). { clear - X. induction (inputs rcv) as [|y l IH]; [contradiction|]. destruct X as [X|X]; [congruence|auto]. }
    subst v. apply (count_occ_In N.eq_dec). fold (times x (flat_map (report (inputs rcv) (map VR (inputs rcv))) raw)). rewrite TX by assumption.
    assert (A : (times (VR x) (map VH (inputs hlp)) > 0)%nat) by (apply (count_occ_In N.eq_dec); assumption).
    assert (B : (times (VR x) (map VR (inputs rcv)) > 0)%nat) by (apply (count_occ_In N.eq_dec); apply in_map; assumption). lia.
Qed.

(** C64.  The run returns if the tables of the server and the others can be solved, unless
    the random key that marks empty places of the receiver's map is one of its values. *)
Theorem C64_returns : nty_given enc dec cr shape mach wsize hlp rcv inputs shufH shufR ->
  (srv < wsize)%nat -> (hlp < wsize)%nat -> (rcv < wsize)%nat -> srv <> hlp -> srv <> rcv -> hlp <> rcv ->
  (exists p, gen_okvs cr shape mach srv (inputs srv) (server_values enc wsize srv hlp rcv inputs seed) = Ok p) ->
  (forall i, (i < wsize)%nat -> i <> srv -> i <> hlp -> i <> rcv -> exists p, gen_okvs cr shape mach i (inputs i) (map (enc (seed i)) (inputs i)) = Ok p) ->
  (exists res, run = Ok res) \/ (run = UB /\ exists rv, rvals = Ok rv /\ In empty rv).
Proof.
  intros G S1 S2 S3 N1 N2 N3 [p E] Ho. pose proof G as (G1 & G2 & G3 & G4 & G5 & G6 & G7 & G8).
  assert (HH : exists hv, hvals = Ok hv).
  { unfold helper_values. destruct (Nat.eqb wsize 3); [eexists; reflexivity|].
    assert (X : forall l, (forall i, In i l -> In i (nty_others wsize srv hlp rcv)) -> exists ds,
      omapM (fun i => do msgs <- gen_okvs cr shape mach i (inputs i) (prf enc (seed i) (inputs i)); decode_okvs cr shape mach hlp i (length (inputs i)) (inputs hlp) msgs) l = Ok ds).
    { induction l as [|i l IH]; intros Hl; [eexists; reflexivity|]. cbn [omapM].
      pose proof (proj1 (others_in wsize srv hlp rcv i) (Hl i (or_introl eq_refl))) as (I1 & I2 & I3 & I4).
      destruct (Ho i I1 I2 I3 I4) as [q Eq]. unfold prf at 1. rewrite Eq. cbn [bind]. destruct (G5 i I1 I3 I4) as [F O].
      destruct (gen_decode cr shape mach G3 i (inputs i) (map (enc (seed i)) (inputs i)) q F O (map_length _ _)) as (D & D1 & _); [apply Forall_map, Forall_forall; intros; apply G1|assumption|].
      rewrite D1. cbn [bind]. destruct IH as [ds Eds]; [intros; apply Hl; right; assumption|]. rewrite Eds. eexists. reflexivity. }
    destruct (X _ (fun i I => I)) as [ds Eds]. rewrite Eds. eexists. reflexivity. }
  destruct HH as [hv HH].
  assert (HR : exists rv, rvals = Ok rv).
  { unfold receiver_values. rewrite E. cbn [bind]. destruct (G5 srv S1 N1 N2) as [F O]. rewrite server_values_is in E.
    destruct (gen_decode cr shape mach G3 srv (inputs srv) (map (mask enc wsize srv hlp rcv seed) (inputs srv)) p F O (map_length _ _)) with (2 := E) as (D & D1 & _).
    - apply Forall_map, Forall_forall. intros x _. apply mask_below. assumption.
    - rewrite D1. eexists. reflexivity. }
  destruct HR as [rv HR].
  unfold nty_run. rewrite HH, HR. cbn [bind]. rewrite !(proj2 (Nat.eqb_neq _ _)), !(proj2 (Nat.ltb_lt _ _)) by assumption. cbn [negb andb enforce].
  rewrite (proj2 (Nat.leb_le 3 wsize)) by lia. cbn [enforce]. cbv zeta.
  destruct (receiver_is enc cr shape mach G3 wsize srv hlp rcv inputs seed G1 G5 rv S1 N1 N2 HR) as (DR & VR & _ & BR).
  destruct (helper_is enc cr shape mach G3 wsize srv hlp rcv inputs seed G1 G5 hv HH) as (DH & VH & _ & BH).
  assert (BHv : Forall (fun v => v < 2 ^ 128) hv) by (rewrite VH; apply Forall_map, Forall_forall; intros x I; apply lxor_below; [eapply G4; eassumption|auto]).
  assert (BRv : Forall (fun v => v < 2 ^ 128) rv) by (rewrite VR; apply Forall_map, Forall_forall; intros x I; apply lxor_below; [eapply G4; eassumption|auto]).
  destruct (raw_facts (enc key) (dec key) shufH shufR hv rv (G2 key) G6 G7 BHv BRv) as [T I]. unfold prf.
  destruct (in_dec N.eq_dec empty rv) as [Y|Y].
  - right. split; [|exists rv; auto]. 
    assert (U : forall l m, In empty (map snd l) -> ofold (fun ih m => dmap_insert empty (snd ih) (u32 (N.of_nat (fst ih))) m) l m = UB).
    { clear. induction l as [|ih l IH]; intros m H; [contradiction|]. cbn [ofold map] in *. unfold dmap_insert at 1. destruct (N.eqb_spec (snd ih) empty) as [X|X]; [reflexivity|].
      destruct H as [H|H]; [contradiction|]. destruct (existsb _ m); cbn [bind]; apply IH; assumption. }
    unfold nty_intersection. rewrite U by (rewrite number_snd; assumption). reflexivity.
  - left. rewrite inter_is; [eexists; reflexivity|rewrite VR; apply map_length|assumption|assumption|]. intros X. apply Y. apply I. exact X.
Qed.
End Main.
Print Assumptions C64_exact_partial.
Print Assumptions C64_complete.
Print Assumptions C64_own_items.
Print Assumptions C64_reported_iff.
Print Assumptions C64_returns.

(** It is not true that only common items are reported, collisions of random-looking values
    aside.  The tables are solved without randomness: columns no key needed stay 0, and an
    item that meets only such columns decodes to 0.  The server's table and the tables of
    the others then hide nothing from the receiver and the helper, and an item only these
    two have is reported.  Here with four parties, four items each and the sizes the code
    takes for four items (22 sparse and 8 dense columns). *)
Definition ex_enc (k x : N) : N := (0x9e3779b97f4a7c15f39cc0605cedc835 * x + k * 0xd1b54a32d192ed03) mod 2 ^ 128.
Definition ex_dec (k y : N) : N := (0x28969101c22823532f07eb1a988d4a1d * ((y + (2 ^ 128 - k * 0xd1b54a32d192ed03 mod 2 ^ 128)) mod 2 ^ 128)) mod 2 ^ 128.
Definition ex_cr (i : nat) (x : N) : N := let y := (x + 77 * N.of_nat i + 1) * 0x9e3779b97f4a7c15f39cc0605cedc835 mod 2 ^ 128 in
  (N.lxor y (N.shiftr y 61)) * 0xd1342543de82ef95da942042e4dd58b5 mod 2 ^ 128.
Definition ex_shape (n : nat) : okvs_shape := mk_shape 1 (mk_okvs 3 22 8 DGF128) 8 n.
Definition ex_mach (_ : nat) : machine := mk_machine true 1 4 [0%nat].
Definition ex_in (l : list (list N)) (i : nat) : list N := nth i l [].
Definition ex_seed (i : nat) : N := N.of_nat i + 12345.
Lemma ex_given : forall w h r l, (forall i x, In x (ex_in l i) -> x < 2 ^ 128) -> N.of_nat (length (ex_in l r)) <= 2 ^ 32 ->
  nty_given ex_enc ex_dec ex_cr ex_shape ex_mach w h r (ex_in l) (@rev N) (fun l => l).
Proof.
  intros w h r l H1 H2. split; [intros k x; apply N.mod_lt; discriminate|]. split.
  { intros k x X. unfold ex_enc, ex_dec. set (c := k * 0xd1b54a32d192ed03). set (a := 0x9e3779b97f4a7c15f39cc0605cedc835). set (b := 0x28969101c22823532f07eb1a988d4a1d).
    assert (E : ((a * x + c) mod 2 ^ 128 + (2 ^ 128 - c mod 2 ^ 128)) mod 2 ^ 128 = (a * x) mod 2 ^ 128).
    { rewrite N.add_mod_idemp_l by discriminate. pose proof (N.div_mod c (2 ^ 128)) as D. pose proof (N.mod_lt c (2 ^ 128)) as L. specialize (D ltac:(discriminate)). specialize (L ltac:(discriminate)).
      replace (a * x + c + (2 ^ 128 - c mod 2 ^ 128)) with (a * x + (c / 2 ^ 128 + 1) * 2 ^ 128) by lia. rewrite N.mod_add by discriminate. reflexivity. }
    rewrite E, N.mul_mod_idemp_r, N.mul_assoc by discriminate. rewrite <- N.mul_mod_idemp_l by discriminate. change ((b * a) mod 2 ^ 128) with 1. rewrite N.mul_1_l. apply N.mod_small. assumption. }
  split; [intros i x; apply N.mod_lt; discriminate|]. split; [exact H1|]. split; [|split; [|split; [|assumption]]].
  - intros i _ _ _. split; [|apply Permutation_refl]. unfold fit_shape. cbn. repeat split; try lia.
  - intros k. symmetry. apply Permutation_rev.
  - apply Permutation_refl.
Qed.

Theorem C64_extra_items_refuted : exists enc dec cr shape mach inputs seed key shufH shufR empty res rv x,
  nty_given enc dec cr shape mach 4 1 2 inputs shufH shufR /\ (forall i, NoDup (inputs i)) /\
  nty_run enc dec cr shape mach 4 0 1 2 inputs seed key shufH shufR empty true = Ok res /\
  receiver_values enc cr shape mach 4 0 1 2 inputs seed = Ok rv /\ own_distinct (inputs 2%nat) rv /\
  In x (nth 2 res []) /\ ~ In x (inputs 0%nat) /\ ~ In x (inputs 3%nat).
Proof.
  exists ex_enc, ex_dec, ex_cr, ex_shape, ex_mach, (ex_in [[1; 2; 3; 4]; [4; 20; 31; 21]; [31; 4; 60; 61]; [3; 4; 5; 6]]), ex_seed, 999, (@rev N), (fun l => l), 0.
  do 2 eexists. exists 31. split; [|split; [|split; [vm_compute; reflexivity|split; [vm_compute; reflexivity|split; [|split; [|split]]]]]].
  - apply ex_given; [|cbn; lia]. intros i x I. destruct i as [|[|[|[|[|i]]]]]; cbn in I; intuition lia.
  - intros i. destruct i as [|[|[|[|[|i]]]]]; cbn; repeat constructor; cbn; intuition discriminate.
  - intros y y' v I J. cbn [ex_in nth combine] in I, J.
    repeat match goal with H : In _ (_ :: _) |- _ => destruct H as [H|H] | H : In _ [] |- _ => contradiction end; congruence.
  - cbn. auto.
  - cbn. intuition discriminate.
  - cbn. intuition discriminate.
Qed.
Print Assumptions C64_extra_items_refuted.

(** Runs with four and with three parties; the first meets the hypotheses of C64_exact_partial. *)
Example C64_example :
  let l := [[1; 2; 3; 4]; [4; 20; 21; 22]; [22; 20; 4; 23]; [3; 4; 5; 6]] in
  nty_run ex_enc ex_dec ex_cr ex_shape ex_mach 4 0 1 2 (ex_in l) ex_seed 999 (@rev N) (fun l => l) 0 true = Ok [[4]; [4]; [4]; [4]] /\
  nty_run ex_enc ex_dec ex_cr ex_shape ex_mach 3 2 0 1 (ex_in [[7; 8; 9; 10]; [8; 1; 10; 9]; [10; 3; 11; 9]]) ex_seed 999 (@rev N) (fun l => l) 0 false = Ok [[]; [10; 9]; []] /\
  exists rv hv, receiver_values ex_enc ex_cr ex_shape ex_mach 4 0 1 2 (ex_in l) ex_seed = Ok rv /\ helper_values ex_enc ex_cr ex_shape ex_mach 4 0 1 2 (ex_in l) ex_seed = Ok hv /\
    own_distinct (ex_in l 2) rv /\ no_collision 4 (ex_in l) (ex_in l 2) rv (ex_in l 1) hv.
Proof.
  cbv zeta. split; [vm_compute; reflexivity|]. split; [vm_compute; reflexivity|]. do 2 eexists. split; [vm_compute; reflexivity|]. split; [vm_compute; reflexivity|]. split.
  - intros y y' v I J. cbn [ex_in nth combine] in I, J.
    repeat match goal with H : In _ (_ :: _) |- _ => destruct H as [H|H] | H : In _ [] |- _ => contradiction end; congruence.
  - intros y z v I J. cbn [ex_in nth combine] in I, J.
    repeat match goal with H : In _ (_ :: _) |- _ => destruct H as [H|H] | H : In _ [] |- _ => contradiction end; try congruence.
    assert (y = 4 /\ z = 4) as [-> ->] by (split; congruence). split; [reflexivity|]. intros i Hi. destruct i as [|[|[|[|i]]]]; cbn; auto; lia.
Qed.
