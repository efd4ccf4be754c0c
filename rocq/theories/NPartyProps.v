(** C39: N-party PSI gives the master exactly the elements common to all parties. *)
From Coq Require Import List Arith Bool Lia Sorting.Permutation.
From Verif Require Import Base StoreModel NPartyModel NPartySpec NPartyProofs.
Import ListNotations.

Section S.
Context {X : Type}.
Variable psi : list X -> list X -> list X.
Variable srt : list X -> list X.
Variable srtv : list (nat * nat) -> list (nat * nat).
Hypothesis EX : exact_two_party psi.
Hypothesis SP : forall l, Permutation (srt l) l.
Hypothesis SV : forall l, Permutation (srtv l) l.

Lemma size_vec_facts : forall n master (inputs : nat -> list X), master < n ->
  Permutation (size_vec srtv n master inputs) (map (fun r => (length (inputs r), r)) (seq 0 n)) /\
  hd (0, 0) (size_vec srtv n master inputs) = (length (inputs master), master).
Proof using SV.
  clear - SV. intros n master inputs Hm. unfold size_vec.
  set (v := map (fun r => (length (inputs r), r)) (seq 0 n)).
  assert (L : length v = n) by (unfold v; rewrite map_length, seq_length; reflexivity).
  destruct (swap0_perm master v) as [P H]; [lia|].
  assert (N0 : nth master v (0, 0) = (length (inputs master), master)).
  { unfold v. rewrite (nth_indep _ (0, 0) ((fun r => (length (inputs r), r)) 0)) by (rewrite map_length, seq_length; exact Hm).
    rewrite (map_nth (fun r => (length (inputs r), r))), seq_nth by exact Hm. reflexivity. }
  rewrite N0 in H. destruct (swap0 master v) as [|a r].
  - apply Permutation_length in P. cbn in P. lia.
  - cbn [hd] in H. subst a. split; [|reflexivity].
    eapply Permutation_trans; [apply perm_skip, SV|exact P].
Qed.

(** Both members of a pair name each other and the same target, and no party is left out. *)
Theorem C39_pairing : forall vec self, NoDup vec -> In self vec ->
  exists peer target, get_psi_rank vec self = Ok (peer, target) /\ In peer vec /\
    (target = self \/ target = peer) /\
    get_psi_rank vec peer = Ok (self, target) /\
    In target (firstn (Nat.div (length vec + 1) 2) vec).
Proof using.
  clear. intros vec self ND Hs. destruct (pos_of_spec vec self Hs) as [A B]. set (p := pos_of vec self) in *.
  exists (nth (length vec - 1 - p) vec 0), (nth (Nat.min p (length vec - 1 - p)) vec 0).
  split; [rewrite <- B; apply get_psi_rank_spec; assumption|]. split; [apply nth_In; lia|].
  split; [destruct (Nat.min_spec p (length vec - 1 - p)) as [[_ ->]|[_ ->]]; auto|]. split.
  - rewrite get_psi_rank_spec by (auto; lia). replace (length vec - 1 - (length vec - 1 - p)) with p by lia.
    rewrite B, Nat.min_comm. reflexivity.
  - destruct (half_bounds (length vec)) as [B1 B2].
    rewrite <- (firstn_nth' vec (Nat.div (length vec + 1) 2)) by lia. apply nth_In. rewrite firstn_length. lia.
Qed.

Theorem C39_common_elements : forall n master (inputs : nat -> list X) self, 2 <= n -> master < n -> self < n ->
  (forall r, r < n -> NoDup (inputs r)) ->
  exists res, nparty psi srt srtv n master inputs self = Ok res /\ NoDup res /\
    (self = master -> forall x, In x res <-> common n inputs x) /\
    (self <> master -> res = []).
Proof using EX SP SV.
  intros n master inputs self Hn Hm Hs HN. unfold nparty.
  destruct (Nat.leb_spec 2 n) as [L2|L2]; [|lia]. cbn [enforce].
  destruct (size_vec_facts n master inputs Hm) as [P H].
  generalize dependent (size_vec srtv n master inputs). intros v P H.
  assert (LV : length v = n) by (rewrite (Permutation_length P), map_length, seq_length; reflexivity).
  assert (PS : Permutation (map snd v) (seq 0 n)).
  { eapply Permutation_trans; [apply Permutation_map, P|]. rewrite map_map. cbn [snd]. rewrite map_id. apply Permutation_refl. }
  assert (IN : forall r, In r (map snd v) <-> r < n).
  { intros r. split; intros I.
    - apply (Permutation_in _ PS), in_seq in I. lia.
    - apply (Permutation_in _ (Permutation_sym PS)), in_seq. lia. }
  assert (EL : forall s r, In (s, r) v -> r < n /\ s = length (inputs r)).
  { intros s r I. apply (Permutation_in _ P), in_map_iff in I. destruct I as (r' & E & I). apply in_seq in I.
    inversion E; subst. split; [lia|reflexivity]. }
  assert (EMPTY : forall r, r < n -> length (inputs r) = 0 -> forall x, ~ common n inputs x).
  { intros r Hr L0 x C. specialize (C r Hr). apply length_zero_iff_nil in L0. rewrite L0 in C. exact C. }
  assert (ALL : forall x, all_in (map snd v) inputs x <-> common n inputs x).
  { intros x. unfold all_in, common. split; intros A r Hr; apply A, IN; exact Hr. }
  destruct v as [|a [|b t]]; [cbn in LV; lia|cbn in LV; lia|]. cbn [hd] in H.
  destruct (Nat.eqb (fst a) 0 || Nat.eqb (fst b) 0) eqn:Z.
  - exists []. split; [reflexivity|]. split; [constructor|]. split; [|reflexivity]. intros _ x. split; [intros []|].
    intros C. apply orb_true_iff in Z. rewrite !Nat.eqb_eq in Z. destruct a as [sa ra], b as [sb rb]. cbn [fst] in Z.
    destruct (EL sa ra) as [Ra Sa]; [left; reflexivity|]. destruct (EL sb rb) as [Rb Sb]; [right; left; reflexivity|].
    destruct Z as [Z|Z]; [apply (EMPTY ra Ra ltac:(congruence) x C)|apply (EMPTY rb Rb ltac:(congruence) x C)].
  - destruct (levels_spec psi EX srt SP (Nat.log2_up n) (map snd (a :: b :: t)) inputs (length (inputs self)) self)
      as (res & E & NR & R1 & R2).
    + eapply Permutation_NoDup; [apply Permutation_sym, PS|apply seq_NoDup].
    + intros r Hr. apply HN, IN, Hr.
    + rewrite map_length. lia.
    + rewrite map_length, LV. apply Nat.log2_log2_up_spec. lia.
    + apply IN, Hs.
    + intros L0 x A. apply ALL in A. apply (EMPTY self Hs L0 x A).
    + exists res. split; [exact E|]. split; [exact NR|].
      assert (M : nth 0 (map snd (a :: b :: t)) 0 = master) by (subst a; reflexivity).
      rewrite M in R1, R2. split; [|exact R2]. intros S0 x. rewrite (R1 S0). apply ALL.
Qed.

(** All members of a gather group join it in the same round, so no one waits for a party that
    has left; and either nobody or everybody takes part in the final broadcast.  This needs the
    sizes to be sorted: position 1 must hold the smallest set. *)
Hypothesis SS : forall l x, In x l -> fst (hd (0, 0) (srtv l)) <= fst x.

Theorem C39_no_straggler : forall n master (inputs : nat -> list X), 2 <= n -> master < n ->
  (forall self, self < n -> snd (nparty_rounds psi srtv n master inputs self) = snd (nparty_rounds psi srtv n master inputs master)) /\
  (forall self self' i g, self < n -> self' < n ->
     nth_error (fst (nparty_rounds psi srtv n master inputs self)) i = Some g -> In self' g ->
     nth_error (fst (nparty_rounds psi srtv n master inputs self')) i = Some g).
Proof using SV SS.
  clear - SV SS. intros n master inputs Hn Hm. unfold nparty_rounds.
  destruct (size_vec_facts n master inputs Hm) as [P H].
  assert (MINSZ : forall a b t, size_vec srtv n master inputs = a :: b :: t -> forall x, In x t -> fst b <= fst x).
  { intros a b t E x Hx. unfold size_vec in E. destruct (swap0 master _) as [|y r]; [discriminate E|].
    inversion E as [[E1 E2]]. specialize (SS r x). rewrite E2 in SS. apply SS. apply (Permutation_in _ (SV r)). rewrite E2. right. exact Hx. }
  generalize dependent (size_vec srtv n master inputs). intros v P H MINSZ.
  assert (LV : length v = n) by (rewrite (Permutation_length P), map_length, seq_length; reflexivity).
  assert (PS : Permutation (map snd v) (seq 0 n)).
  { eapply Permutation_trans; [apply Permutation_map, P|]. rewrite map_map. cbn [snd]. rewrite map_id. apply Permutation_refl. }
  assert (IN : forall r, r < n -> In r (map snd v)).
  { intros r I. apply (Permutation_in _ (Permutation_sym PS)), in_seq. lia. }
  assert (EL : forall r, r < n -> In (length (inputs r), r) v).
  { intros r I. apply (Permutation_in _ (Permutation_sym P)), in_map_iff. exists r. split; [reflexivity|]. apply in_seq. lia. }
  assert (LK : length (map snd v) <= 2 ^ Nat.log2_up n) by (rewrite map_length, LV; apply Nat.log2_log2_up_spec; lia).
  assert (L2 : 2 <= length (map snd v)) by (rewrite map_length; lia).
  assert (NDV : NoDup (map snd v)) by (eapply Permutation_NoDup; [apply Permutation_sym, PS|apply seq_NoDup]).
  destruct v as [|a [|b t]]; [cbn in LV; lia|cbn in LV; lia|].
  destruct (Nat.eqb (fst a) 0 || Nat.eqb (fst b) 0) eqn:Z.
  { cbn [fst snd]. split; [reflexivity|]. intros self self' [|i] g _ _ E; discriminate E. }
  apply orb_false_iff in Z. rewrite !Nat.eqb_neq in Z. destruct Z as [Za Zb].
  assert (NZ : forall r, r < n -> length (inputs r) <> 0).
  { intros r Hr. destruct (EL r Hr) as [E|[E|I]]; [rewrite E in Za; exact Za|rewrite E in Zb; exact Zb|].
    specialize (MINSZ a b t eq_refl _ I). cbn [fst] in MINSZ. lia. }
  split.
  - intros self Hs.
    destruct (rounds_agree psi (Nat.log2_up n) (map snd (a :: b :: t)) inputs (length (inputs self)) self (length (inputs self)) self NDV L2 LK (IN _ Hs) (IN _ Hs) (NZ _ Hs) (NZ _ Hs)) as [A _].
    destruct (rounds_agree psi (Nat.log2_up n) (map snd (a :: b :: t)) inputs (length (inputs master)) master (length (inputs master)) master NDV L2 LK (IN _ Hm) (IN _ Hm) (NZ _ Hm) (NZ _ Hm)) as [B _].
    congruence.
  - intros self self' i g Hs Hs' E I.
    destruct (rounds_agree psi (Nat.log2_up n) (map snd (a :: b :: t)) inputs (length (inputs self)) self (length (inputs self')) self' NDV L2 LK (IN _ Hs) (IN _ Hs') (NZ _ Hs) (NZ _ Hs')) as [_ A].
    destruct (A i g E) as [_ B]. apply B. exact I.
Qed.
End S.

(** Non-trivial case: five parties, master 3; 4 and 9 are common. *)
Definition np_psi (a b : list nat) : list nat := filter (fun x => existsb (Nat.eqb x) b) a.
Lemma np_psi_exact : exact_two_party np_psi.
Proof.
  intros a b Ha Hb. split; [apply NoDup_filter; exact Ha|]. intros x. unfold np_psi. rewrite filter_In, existsb_exists.
  split; intros [I E]; (split; [exact I|]).
  - destruct E as (y & Iy & Ey). apply Nat.eqb_eq in Ey. subst. exact Iy.
  - exists x. split; [exact E|apply Nat.eqb_refl].
Qed.
Definition np_inputs (r : nat) : list nat :=
  nth r [[1;4;9;7;6]; [9;4;2]; [4;5;9;8]; [3;9;4;1]; [9;4]] [].
Example C39_example :
  nparty np_psi (fun l => l) (fun l => l) 5 3 np_inputs 3 = Ok [9; 4] /\
  map (nparty np_psi (fun l => l) (fun l => l) 5 3 np_inputs) [0; 1; 2; 4] = [Ok []; Ok []; Ok []; Ok []] /\
  (forall r, r < 5 -> NoDup (np_inputs r)).
Proof.
  split; [reflexivity|]. split; [reflexivity|]. intros r Hr.
  do 5 (destruct r as [|r]; [cbn; repeat constructor; cbn; intuition discriminate|]). lia.
Qed.

Print Assumptions C39_pairing.
Definition np_sort (l : list (nat * nat)) : list (nat * nat) :=
  let fix ins x l := match l with [] => [x] | y :: t => if Nat.leb (fst x) (fst y) then x :: l else y :: ins x t end in
  fold_right ins [] l.
Example C39_rounds_example :
  map (fun r => nparty_rounds np_psi np_sort 5 3 np_inputs r) [0; 1; 2; 3; 4] =
  [([], true); ([[3; 4; 1]], true); ([], true); ([[3; 4; 1]; [3; 4]; [3]], true); ([[3; 4; 1]; [3; 4]], true)].
Proof. reflexivity. Qed.

Print Assumptions C39_no_straggler.
Print Assumptions C39_common_elements.
