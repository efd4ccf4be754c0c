(** C100: in-memory PSI (MemoryPsi, the Python binding mem_psi) among n parties. *)
From Coq Require Import List NArith Bool Arith Lia Sorting.Permutation Sorting.Sorted.
From Verif Require Import Base Text TextProofs PirPackModel SyncModel KkrtModel KkrtSpec KkrtProps OpModel OpSpec OpProofs OpProps
  NPartyModel NPartySpec NPartyProps Ecdh3pcModel Ecdh3pcProps EcdhModel EcdhProofs Ecdh3pcProofs DpPsiModel DpPsiSpec DpPsiProps
  MemModel MemSpec MemProofs.
Import ListNotations.

(** Construction succeeds exactly with a type, a receiver in the world and, for ECDH_PSI_3PC,
    three parties. *)
Theorem C100_start : forall c n,
  check_options c n = Ok tt <-> (mc_type c <> 0%N /\ mc_receiver c < n /\ (mc_type c = 4%N -> n = 3)).
Proof. exact check_ok. Qed.
Print Assumptions C100_start.

(** When a party has no items, nobody gets any and nobody fails, whatever the protocol. *)
Theorem C100_empty : forall P c inputs, check_options c (length inputs) = Ok tt -> In [] inputs ->
  mem_psi P c inputs = Ok (repeat [] (length inputs)).
Proof.
  intros P c inputs C E. unfold mem_psi. rewrite C. cbn [bind].
  destruct (existsb (fun l => Nat.eqb (length l) 0) inputs) eqn:X.
  - f_equal. apply map_repeat. reflexivity.
  - apply no_empty in X. contradiction.
Qed.
Print Assumptions C100_empty.

(** Three parties: the receiver, or everybody, gets the receiver's items that both others
    have, in the receiver's order. *)
Theorem C100_three :
  forall (Point : Type) (hash_point : bytes -> Point) (mask : nat -> Point -> Point)
         (ser : Point -> bytes) (deser : bytes -> Point) (L dual_mask_size bsz : nat)
         (srt shuffle : list bytes -> list bytes) (P : protocols) (c : mem_config) (inputs : list (list bytes)),
  let items k := nth k inputs [] in
  let m := mc_receiver c in
  let a := next_rank m in
  let b := prev_rank m in
  let two x := ser (mask a (mask b (hash_point x))) in
  let tri x := last_bytes dual_mask_size (ser (mask m (mask a (mask b (hash_point x))))) in
  (forall master rank ins, p_three P master rank ins =
     run3 Point hash_point mask ser deser L dual_mask_size bsz srt shuffle master rank ins) ->
  (forall x, deser (ser x) = x) -> (forall x, length (ser x) = L) -> dual_mask_size <= L -> 0 < bsz ->
  (forall i j x, mask i (mask j x) = mask j (mask i x)) ->
  (forall l, Permutation (srt l) l) -> (forall l, bsorted (srt l)) -> (forall l, Permutation (shuffle l) l) ->
  (forall x y, In x (items a) -> In y (items b) -> two x = two y -> x = y) ->
  (forall x y, In x (items a) -> In y (items m) -> tri x = tri y -> x = y) ->
  mc_type c = 4%N -> length inputs = 3 -> m < 3 -> ~ In [] inputs ->
  exists out r, mem_psi P c inputs = Ok out /\ handed (mc_broadcast c) m r out 3 /\
    r = filter (fun z => existsb (beqb z) (items a) && existsb (beqb z) (items b)) (items m) /\
    (NoDup (items m) -> exact inputs r).
Proof.
  intros Point hash_point mask ser deser L dms bsz srt shuffle P c inputs items m a b two tri HP DS LS HD HB CM SP SS SH I2 I3 T LN HM NE.
  set (r := filter (fun z => existsb (beqb z) (items a) && existsb (beqb z) (items b)) (items m)).
  destruct (mem_hands P c inputs r) as (out & E & H).
  - apply check_ok. rewrite T, LN. repeat split; auto. discriminate.
  - exact NE.
  - rewrite T. cbn. auto 6.
  - intros rank _. unfold on_run. rewrite T. cbn [N.eqb Pos.eqb t_kkrt_2pc t_ecdh_3pc]. rewrite HP.
    exact (C16_three_party_exact Point hash_point mask ser deser L dms bsz srt shuffle m rank items DS LS HD HB CM SP SS SH I2 I3).
  - exists out, r. rewrite LN in H. split; [exact E | ]. split; [exact H | ]. split; [reflexivity | ].
    intros ND. split; [now apply NoDup_filter | ].
    assert (AB : forall x, in_all inputs x <-> In x (items m) /\ In x (items a) /\ In x (items b)).
    { intros x. destruct inputs as [ | l0 [ | l1 [ | l2 [ | ]]]]; try discriminate LN. unfold in_all, items, a, b. cbn [In].
      destruct m as [ | [ | [ | ]]]; [ | | | lia]; cbn [next_rank prev_rank Nat.modulo nth];
        (split; [intros Q; repeat split; apply Q; cbn; auto | intros (Q1 & Q2 & Q3) l [<- | [<- | [<- | []]]]; assumption]). }
    assert (XB : forall x l, existsb (beqb x) l = true <-> In x l).
    { intros x l. rewrite existsb_exists. split.
      - intros (y & I & Q). apply beqb_spec in Q. now subst.
      - intros I. exists x. split; [exact I | now apply beqb_spec]. }
    intros x. unfold r. rewrite filter_In, andb_true_iff, !XB, AB. tauto.
Qed.
Print Assumptions C100_three.

(** Any number of parties, over ECDH or KKRT: the receiver, or everybody, gets the items all
    parties have, each once. *)
Theorem C100_many :
  forall (psi : bool -> list bytes -> list bytes -> list bytes) (srt : list bytes -> list bytes)
         (srtv : list (nat * nat) -> list (nat * nat)) (P : protocols) (c : mem_config) (inputs : list (list bytes)),
  (forall kkrt, exact_two_party (psi kkrt)) ->
  (forall l, Permutation (srt l) l) -> (forall l, Permutation (srtv l) l) ->
  (forall kkrt n master ins self, p_many P kkrt n master ins self = nparty (psi kkrt) srt srtv n master ins self) ->
  mc_type c = 5%N \/ mc_type c = 6%N -> 2 <= length inputs -> mc_receiver c < length inputs ->
  ~ In [] inputs -> (forall l, In l inputs -> NoDup l) ->
  exists out r, mem_psi P c inputs = Ok out /\ handed (mc_broadcast c) (mc_receiver c) r out (length inputs) /\
    exact inputs r.
Proof.
  intros psi srt srtv P c inputs EX SP SV HP T LN HM NE ND.
  set (n := length inputs) in *. set (m := mc_receiver c) in *. set (items := fun k => nth k inputs []).
  assert (NDI : forall r, r < n -> NoDup (items r)) by (intros r Hr; apply ND, nth_In, Hr).
  set (k := N.eqb (mc_type c) 6).
  destruct (C39_common_elements (psi k) srt srtv (EX k) SP SV n m items m LN HM HM NDI) as (r & E & NR & R1 & _).
  destruct (mem_hands P c inputs r) as (out & E2 & H).
  - apply check_ok. split; [destruct T as [-> | ->]; discriminate | ]. split; [exact HM | ].
    destruct T as [-> | ->]; discriminate.
  - exact NE.
  - destruct T as [-> | ->]; cbn; auto.
  - intros rank Hr. fold n. fold items. fold m.
    assert (O : on_run P c n items rank = nparty (psi k) srt srtv n m items rank).
    { unfold on_run, k. destruct T as [-> | ->]; cbn [N.eqb Pos.eqb t_kkrt_2pc t_ecdh_3pc t_ecdh_npc t_kkrt_npc]; apply HP. }
    rewrite O. destruct (Nat.eqb_spec rank m) as [-> | D]; [exact E | ].
    destruct (C39_common_elements (psi k) srt srtv (EX k) SP SV n m items rank LN HM Hr NDI) as (r' & E' & _ & _ & R2).
    now rewrite E', (R2 D).
  - exists out, r. split; [exact E2 | ]. split; [exact H | ]. split; [exact NR | ].
    intros x. rewrite (R1 eq_refl x). apply common_all.
Qed.
Print Assumptions C100_many.

(** Two parties over KKRT: unless the cuckoo table has no room, the receiver, or both, get
    the common items, each once. *)
Theorem C100_kkrt :
  forall blake e c a b,
  let inputs := [a; b] in
  let m := mc_receiver c in
  let rin := nth m inputs [] in
  let sin := nth (1 - m) inputs [] in
  kkrt_good blake e (map (fun x => (x, 1%N)) rin) (map (fun x => (x, 1%N)) sin) ->
  mc_type c = 2%N -> m < 2 -> a <> [] -> b <> [] -> NoDup a -> NoDup b ->
  exists fuel0,
   (forall fuel P, fuel0 <= fuel -> (forall x y, p_kkrt P x y = mem_kkrt blake e fuel x y) -> mem_psi P c inputs = Throw) \/
   exists out r,
    (forall fuel P, fuel0 <= fuel -> (forall x y, p_kkrt P x y = mem_kkrt blake e fuel x y) -> mem_psi P c inputs = Ok out) /\
    handed (mc_broadcast c) m r out 2 /\ exact inputs r.
Proof.
  intros blake e c a b inputs m rin sin G T HM NA NB DA DB.
  assert (IA : In rin inputs /\ In sin inputs).
  { unfold rin, sin, inputs. destruct m as [ | [ | ]]; [ | | lia]; cbn; auto. }
  assert (AL : forall Q : list bytes -> Prop, Q a -> Q b -> forall l, In l inputs -> Q l).
  { intros Q Qa Qb l [<- | [<- | []]]; assumption. }
  destruct (kkrt_picks blake e rin sin G (AL _ DA DB _ (proj1 IA)) (AL _ DA DB _ (proj2 IA))
              (AL (fun l => l <> []) NA NB _ (proj1 IA)) (AL (fun l => l <> []) NA NB _ (proj2 IA))) as (f0 & [TH | (idx & r & O & PK & NR & IFF)]).
  - exists f0. left. intros fuel P HF HP. unfold mem_psi.
    assert (C : check_options c (length inputs) = Ok tt).
    { apply check_ok. rewrite T. split; [discriminate | ]. split; [exact HM | discriminate]. }
    rewrite C. cbn [bind].
    assert (X : existsb (fun l => Nat.eqb (length l) 0) inputs = false).
    { apply no_empty. intros [Q | [Q | []]]; congruence. }
    rewrite X. replace (existsb (N.eqb (mc_type c)) registered) with true by (now rewrite T).
    cbn [enforce]. unfold base_run. change (length inputs) with 2. change (seq 0 2) with [0; 1].
    cbn [map_out]. unfold on_run at 1. rewrite T. change (N.eqb 2 t_kkrt_2pc) with true. cbn iota.
    unfold two_party. cbn [Nat.eqb negb].
    fold m. fold rin. fold sin. rewrite HP, (TH fuel HF). destruct m; reflexivity.
  - exists f0. right.
    assert (RUN : forall fuel P, f0 <= fuel -> (forall x y, p_kkrt P x y = mem_kkrt blake e fuel x y) ->
      exists out, mem_psi P c inputs = Ok out /\ handed (mc_broadcast c) m r out 2).
    { intros fuel P HF HP. apply (mem_hands P c inputs r).
      - apply check_ok. rewrite T. split; [discriminate | ]. split; [exact HM | discriminate].
      - intros [Q | [Q | []]]; congruence.
      - rewrite T. cbn. auto.
      - intros rank _. unfold on_run. rewrite T. change (N.eqb 2 t_kkrt_2pc) with true. cbn iota.
        unfold two_party. change (length inputs) with 2. cbn [Nat.eqb negb]. fold m. fold rin. fold sin.
        rewrite HP, (O fuel HF). cbn [bind]. rewrite PK. destruct (Nat.eqb rank m); reflexivity. }
    set (P0 := mk_protocols (mem_kkrt blake e f0) (fun _ _ _ => Throw) (fun _ _ _ _ _ => Throw) (fun _ _ => Throw) (fun _ => Throw)).
    destruct (RUN f0 P0 (le_n _) (fun x y => eq_refl)) as (out & E & H). exists out, r. split.
    + intros fuel P HF HP. destruct (RUN fuel P HF HP) as (out' & E' & H'). rewrite E'. f_equal.
      destruct H as [L H], H' as [L' H']. apply nth_error_ext'; [congruence | ]. intros i x y Hx Hy.
      rewrite (H i y Hy), (H' i x Hx). reflexivity.
    + split; [exact H | ]. split; [exact NR | ]. intros x. rewrite IFF. unfold in_all, rin, sin, inputs.
      destruct m as [ | [ | ]]; [ | | lia]; cbn [nth Nat.sub In];
        (split; [intros [Q1 Q2] l [<- | [<- | []]]; assumption | intros Q; split; apply Q; auto]).
Qed.
Print Assumptions C100_kkrt.

(** Differentially private PSI between two parties: what the receiver, or both, get are items
    of the receiver: of its sampled items the common ones that were kept and others that were
    added; nothing when all sampled items are common. *)
Theorem C100_dp :
  forall (Point : Type) (hash_point : bytes -> Point) (mask : nat -> Point -> Point)
         (ser : Point -> bytes) (deser : bytes -> Point) (L dual_mask_size bsz idx_batch : nat)
         (srt : list bytes -> list bytes) (shuffled : list nat) (c1 c2 cq : nat -> bool)
         (P : protocols) (c : mem_config) (a b : list bytes),
  let inputs := [a; b] in
  let m := mc_receiver c in
  let B := nth m inputs [] in
  let A := nth (1 - m) inputs [] in
  let dual x := last_bytes dual_mask_size (ser (mask 0 (mask 1 (hash_point x)))) in
  let sampled := kept c1 shuffled in
  let common := filter (fun j => held A (nth j B [])) sampled in
  let other := filter (fun j => negb (held A (nth j B []))) sampled in
  p_dp P A B = omap dp_bob_idx (dp_run Point hash_point mask ser deser dual_mask_size bsz idx_batch srt A B shuffled c1 c2 cq) ->
  (forall x, deser (ser x) = x) -> (forall x, length (ser x) = L) -> dual_mask_size <= L ->
  0 < bsz -> 0 < idx_batch -> (forall x, mask 0 (mask 1 x) = mask 1 (mask 0 x)) ->
  (forall l, Permutation (srt l) l) -> Permutation shuffled (seq 0 (length B)) ->
  (forall x y, In x A -> In y B -> dual x = dual y -> x = y) ->
  mc_type c = 12%N -> m < 2 -> a <> [] -> b <> [] ->
  exists out r idx, mem_psi P c inputs = Ok out /\ handed (mc_broadcast c) m r out 2 /\
    r = map (fun j => nth j B []) idx /\
    match other with
    | [] => idx = []
    | _ => StronglySorted lt idx /\ Permutation idx (kept c2 common ++ kept cq other)
    end.
Proof.
  intros Point hash_point mask ser deser L dms bsz ib srt shuffled c1 c2 cq P c a b inputs m B A dual sampled common other
    HP DS LS HD HB HI CM SP PS INJ T HM NA NB.
  destruct (C72_dp_psi_result Point hash_point mask ser deser L dms bsz ib srt A B shuffled c1 c2 cq DS LS HD HB HI CM SP PS INJ)
    as (o & E & _ & _ & _ & R).
  rewrite E in HP. change (p_dp P A B = Ok (dp_bob_idx o)) in HP.
  assert (R' : match other with
    | [] => dp_bob_idx o = []
    | _ => StronglySorted lt (dp_bob_idx o) /\ Permutation (dp_bob_idx o) (kept c2 common ++ kept cq other)
    end).
  { unfold other, common, sampled. destruct (filter (fun j => negb (held A (nth j B []))) (kept c1 shuffled)); [exact R | ]. destruct R as (R1 & R2 & _). auto. }
  assert (KI : forall (f : nat -> bool) (l : list nat) x, In x (kept f l) -> In x l).
  { intros f l x. unfold kept. intros I. apply in_map_iff in I. destruct I as ([i y] & E1 & I). cbn in E1. subst y.
    apply filter_In in I. destruct I as [I _]. revert I. generalize 0 as s. induction l as [ | z l IH]; intros s I; [destruct I | ].
    cbn [number In] in I. destruct I as [I | I]; [injection I as _ <-; now left | right; eapply IH; exact I]. }
  assert (LT : forall i, In i (dp_bob_idx o) -> i < length B).
  { intros i Hi. assert (S : In i shuffled).
    { destruct other as [ | y ys] eqn:OE; [rewrite R' in Hi; destruct Hi | ]. destruct R' as [_ R2].
      apply (Permutation_in _ R2), in_app_iff in Hi. destruct Hi as [Hi | Hi]; apply KI in Hi.
      - unfold common in Hi. apply filter_In in Hi. exact (KI _ _ _ (proj1 Hi)).
      - rewrite <- OE in Hi. unfold other in Hi. apply filter_In in Hi. exact (KI _ _ _ (proj1 Hi)). }
    apply (Permutation_in _ PS), in_seq in S. lia. }
  destruct (mem_hands P c inputs (map (fun j => nth j B []) (dp_bob_idx o))) as (out & E2 & H).
  - apply check_ok. rewrite T. split; [discriminate | ]. split; [exact HM | discriminate].
  - intros [Q | [Q | []]]; congruence.
  - rewrite T. cbn. auto.
  - intros rank _. unfold on_run. rewrite T.
    change (N.eqb 12 t_kkrt_2pc) with false. change (N.eqb 12 t_ecdh_3pc) with false. change (N.eqb 12 t_ecdh_npc) with false.
    change (N.eqb 12 t_kkrt_npc) with false. change (N.eqb 12 t_dp_2pc) with true. cbn iota.
    unfold two_party. change (length inputs) with 2. cbn [Nat.eqb negb]. fold m. fold B. fold A.
    rewrite HP. cbn [bind]. rewrite (pick_spec B _ LT). destruct (Nat.eqb rank m); reflexivity.
  - exists out, (map (fun j => nth j B []) (dp_bob_idx o)), (dp_bob_idx o). auto.
Qed.
Print Assumptions C100_dp.

(** The full claim: what the constructor accepts runs, with the common items as the result.  It
    does not hold for the type of the example in the documentation (ECDH_PSI_2PC, broadcast,
    receiver 0): MemoryPsi is constructed, sizes are exchanged, and then every run with items on
    both sides fails; with an empty set on one side it succeeds. *)
Theorem C100_documented_refuted : exists c,
  mc_type c = 1%N /\ mc_receiver c = 0 /\ mc_broadcast c = true /\
  check_options c 2 = Ok tt /\
  (forall P a b, a <> [] -> b <> [] -> mem_psi P c [a; b] = Throw) /\
  (forall P a, mem_psi P c [a; []] = Ok [[]; []]).
Proof.
  exists (mk_mc 1 0 true). split; [reflexivity | ]. split; [reflexivity | ]. split; [reflexivity | ]. split; [reflexivity | ]. split.
  - intros P [ | x a] [ | y b] NA NB; try congruence. reflexivity.
  - intros P [ | x a]; reflexivity.
Qed.
Print Assumptions C100_documented_refuted.

(** Of the types the constructor accepts, exactly five are run. *)
Theorem C100_types : forall P c inputs, check_options c (length inputs) = Ok tt -> ~ In [] inputs ->
  ~ In (mc_type c) [2; 4; 5; 6; 12]%N -> mem_psi P c inputs = Throw.
Proof.
  intros P c inputs C NE NT. unfold mem_psi. rewrite C. cbn [bind]. apply no_empty in NE. rewrite NE.
  destruct (existsb (N.eqb (mc_type c)) registered) eqn:X; [ | reflexivity].
  exfalso. apply NT. apply existsb_exists in X. destruct X as (t & I & E). apply N.eqb_eq in E. rewrite E.
  cbn in I |- *. intuition.
Qed.
Print Assumptions C100_types.

(** A claim one would expect beside C100_start: the two-party types are refused among more than
    two parties, as ECDH_PSI_3PC is in a world that is not of three.  They are not. *)
Theorem C100_world_refuted : exists c c' n, mc_type c = 2%N /\ mc_type c' = 12%N /\ 2 < n /\
  check_options c n = Ok tt /\ check_options c' n = Ok tt.
Proof. exists (mk_mc 2 1 true), (mk_mc 12 1 true), 3. repeat split; lia. Qed.
Print Assumptions C100_world_refuted.

(** Cases: three parties, receiver 1; five parties, receiver 3; KKRT, receiver 1. *)
Definition mem_ex : protocols :=
  mk_protocols (mem_kkrt ex_blake (ex_env 0) 50) t3_run
    (fun _ => nparty (fun a b => filter (fun x => existsb (beqb x) b) a) (fun l => l) (fun l => l))
    (fun _ _ => Ok []) (fun _ => Diverge).
Definition mem_ex5 : list (list bytes) := map (fun r => map (fun k => [N.of_nat k]) (np_inputs r)) (seq 0 5).
Example C100_example :
  mem_psi mem_ex (mk_mc 4 1 false) (map t3_inputs [0; 1; 2]) = Ok [[]; [[3]; [5]]; []]%N /\
  mem_psi mem_ex (mk_mc 4 1 true) (map t3_inputs [0; 1; 2]) = Ok [[[3]; [5]]; [[3]; [5]]; [[3]; [5]]]%N /\
  mem_psi mem_ex (mk_mc 5 3 true) mem_ex5 = Ok (repeat [[9]; [4]]%N 5) /\
  mem_psi mem_ex (mk_mc 2 1 false) [map fst ex_send_in; map fst ex_recv_in] =
    Ok [[]; [[0x000900090009]; [0x000300010000]; [0x000100000001]]]%N /\
  mem_psi mem_ex (mk_mc 5 3 true) (mem_ex5 ++ [[]]) = Ok (repeat [] 6).
Proof. repeat split; vm_compute; reflexivity. Qed.
Lemma ex_two_exact : exact_two_party (fun a b : list bytes => filter (fun x => existsb (beqb x) b) a).
Proof.
  intros a b Ha _. split; [now apply NoDup_filter | ]. intros x. rewrite filter_In, existsb_exists. split; intros [I E]; (split; [exact I | ]).
  - destruct E as (y & Iy & Ey). apply beqb_spec in Ey. now subst.
  - exists x. split; [exact E | now apply beqb_spec].
Qed.
(** Differential privacy on C72's example, the receiver at rank 0: rows 0, 1 and 4 are reported. *)
Definition mem_ex_dp : protocols :=
  mk_protocols (fun _ _ => Ok []) (fun _ _ _ => Ok []) (fun _ _ _ _ _ => Ok [])
    (fun A B => omap dp_bob_idx (DpPsiProps.ex_run A B [2; 3; 4; 1; 0] (fun k => negb (Nat.eqb k 1)) (fun k => negb (Nat.eqb k 0)) (fun _ => true)))
    (fun _ => Diverge).
Example C100_dp_example :
  mem_psi mem_ex_dp (mk_mc 12 0 true) [ex_B; ex_A] = Ok [[[9]; [8]; [7]]; [[9]; [8]; [7]]]%N /\
  mem_psi mem_ex_dp (mk_mc 12 0 false) [ex_B; ex_A] = Ok [[[9]; [8]; [7]]; []]%N.
Proof. split; vm_compute; reflexivity. Qed.
