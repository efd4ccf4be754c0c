(** Lemmas for C82: what an item that somebody lacks, or a party that is not the leader, can output. *)
From Coq Require Import List NArith Bool Arith Lia Permutation.
From Verif Require Import Base BaseProofs StoreModel KmModel KmSpec KmProofs KmProofs2 KmProofs3.
Import ListNotations.

(** The OPRF of one execution with the value at one bin and item replaced. *)
Definition set_oprf (r : km_rand) (ot : nat) (q v : N) : km_rand :=
  mk_kr (fun o x => if (o =? ot) && (x =? q)%N then v else kr_oprf r o x)
        (kr_nonce r) (kr_fill r) (kr_cuckoo r) (kr_dummy r) (kr_walk r).
(** That execution in the second round. *)
Definition set_round2 (R : bool -> nat -> nat -> km_rand) (src leader ot : nat) (q v : N) : bool -> nat -> nat -> km_rand :=
  fun b s d => if b then if (s =? src) && (d =? leader) then set_oprf (R true s d) ot q v else R true s d else R false s d.

Section Count.
Variable ro : N -> N -> N.
Variable tries : nat.
Variable H : list N -> N.
Variable bins_of : nat -> nat * nat.
Variable n leader : nat.

(** A sender without the item sends the same, whatever the OPRF gives for it. *)
Lemma send_set : forall r ot q v xs ys, (forall l, Permutation (kr_walk r l) l) -> ~ In q xs ->
  km_send ro tries bins_of (set_oprf r ot q v) xs ys = km_send ro tries bins_of r xs ys.
Proof using.
  intros r ot q v xs ys W NI. unfold km_send. destruct (_ =? _); [|reflexivity]. cbn [enforce].
  destruct (bins_of (length xs)) as [m0 m1]. apply mapM_ext. intros o _. destruct (km_where m0 o) as [c a]. cbn [set_oprf kr_walk kr_oprf kr_nonce kr_fill].
  rewrite (separate_ext ro tries 0 (km_size c) _ (kr_oprf r o)); [reflexivity|].
  intros p I. apply (Permutation_in _ (W _)) in I. apply bin_from in I. destruct I as [[]|I]. destruct p as [x y]. cbn [fst].
  apply in_combine_l in I. destruct (x =? q)%N eqn:Q; [|rewrite andb_false_r; reflexivity].
  apply N.eqb_eq in Q. subst x. contradiction.
Qed.

Lemma bin_at_set : forall r ot q v m0 m1 queries x, bin_at (set_oprf r ot q v) m0 m1 queries x = bin_at r m0 m1 queries x.
Proof using. reflexivity. Qed.

(** The masked values that can unmask to [w]. *)
Lemma unmask_few : forall size w msg v, 0 < size -> length (snd msg) = size -> km_unmask ro size v msg = w ->
  In v (map (N.lxor w) (snd msg)).
Proof using.
  intros size w msg v HS HL <-. unfold km_unmask. apply in_map_iff. exists (nth (km_place_of ro size v (fst msg)) (snd msg) 0%N). split.
  - rewrite N.lxor_assoc, N.lxor_nilpotent. apply N.lxor_0_r.
  - apply nth_In. rewrite HL. apply mod_nat_lt. exact HS.
Qed.

Lemma xor_one : forall (v : nat -> N) src k, src < k ->
  km_xor (map v (seq 0 k)) = N.lxor (v src) (km_xor (map (fun s => if s =? src then 0%N else v s) (seq 0 k))).
Proof using.
  clear. intros v src k Hk.
  assert (G : forall l, NoDup l -> In src l -> km_xor (map v l) = N.lxor (v src) (km_xor (map (fun s => if s =? src then 0%N else v s) l))).
  { assert (Z : forall l, ~ In src l -> map (fun s => if s =? src then 0%N else v s) l = map v l).
    { intros l NI. apply map_ext_in. intros s I. destruct (s =? src) eqn:Q; [|reflexivity]. apply Nat.eqb_eq in Q. subst. contradiction. }
    induction l as [|s l IH]; intros ND I; [destruct I|]. inversion ND as [|? ? N1 N2]; subst. cbn [map]. change (km_xor (?x :: ?l)) with (N.lxor x (km_xor l)).
    destruct (s =? src) eqn:Q.
    - apply Nat.eqb_eq in Q. subst s. rewrite N.lxor_0_l, Z by assumption. reflexivity.
    - apply Nat.eqb_neq in Q. destruct I as [I|I]; [contradiction|]. rewrite (IH N2 I). rewrite <- !N.lxor_assoc. f_equal. apply N.lxor_comm. }
  apply G; [apply seq_NoDup|apply in_seq; lia].
Qed.

(** The leader's place [k] with code [q], which sender [src] lacks. *)
Lemma lacking_few : forall zero pad R inputs src k x,
  leader < n -> length inputs = n -> Forall (fun i => i <> []) inputs ->
  (forall b s d l, Permutation (kr_walk (R b s d) l) l) ->
  src < n -> src <> leader -> H x <> 0%N ->
  let count := list_max (map (@length _) inputs) in
  ~ In (H x) (km_encode H pad src count (nth src inputs [])) ->
  nth_error (nth leader inputs []) k = Some x -> NoDup (nth leader inputs []) ->
  exists (ot : nat) (bad : list N),
    length bad <= 64 /\
    forall v outs, km_run ro tries H bins_of n leader zero pad (set_round2 R src leader ot (H x) v) inputs = Ok outs ->
      In x (nth leader outs []) -> In v bad.
Proof using.
  intros zero pad R inputs src k x HL HN HE HW Hs Hsl Zx count NI Ek ND.
  set (items := fun me => km_encode H pad me count (nth me inputs [])) in *.
  set (q := H x) in *. set (r := R true src leader).
  assert (LI : forall j, length (items j) = count) by (intros j; apply encode_len; apply max_le).
  set (m0 := fst (bins_of count)). set (m1 := snd (bins_of count)).
  set (ca := match bin_at r m0 m1 (items leader) q with Some p => p | None => (false, 0) end).
  set (ot := km_ot m0 (fst ca) (snd ca)).
  set (shares := match km_mapM (km_swap ro tries bins_of n zero R count items) (seq 0 n) with Ok s => s | _ => [] end).
  set (get := fun s => if s =? leader then Ok (nth leader shares []) else km_opprf ro tries bins_of (R true s leader) (items s) (nth s shares []) (items leader)).
  set (w := km_xor (map (fun s => if s =? src then 0%N else match get s with Ok row => nth k row 0%N | _ => 0%N end) (seq 0 n))).
  set (msgs := match km_send ro tries bins_of r (items src) (nth src shares []) with Ok m => m | _ => [] end).
  set (msg := match nth_error msgs ot with Some m => if length (snd m) <=? 64 then m else (0%N, []) | None => (0%N, []) end).
  exists ot, (map (N.lxor w) (snd msg)). split.
  { rewrite map_length. unfold msg. destruct (nth_error msgs ot) as [m|]; [|cbn; lia]. destruct (length (snd m) <=? 64) eqn:Q; [apply Nat.leb_le in Q; exact Q|cbn; lia]. }
  intros v outs E I. set (R' := set_round2 R src leader ot q v) in *.
  destruct (run_inv ro tries H bins_of n leader zero pad R' inputs outs E HE) as (shares' & recon & E1 & E2 & E3).
  fold count in E1, E2. fold items in E1, E2.
  assert (ES : shares' = shares).
  { unfold shares. change (km_swap ro tries bins_of n zero R' count items) with (km_swap ro tries bins_of n zero R count items) in E1. rewrite E1. reflexivity. }
  subst shares'. fold count in E3.
  destruct (E3 leader HL) as (out & EO & EK). rewrite Nat.eqb_refl in EK. rewrite (nth_error_nth _ _ _ EO) in I.
  apply (output_in _ _ _ x EK) in I. destruct I as (k' & A & B).
  assert (k' = k).
  { rewrite NoDup_nth_error in ND. apply ND; [apply nth_error_Some; congruence|congruence]. }
  subst k'. clear A. assert (Hk : k < count).
  { assert (k < length (nth leader inputs [])) by (apply nth_error_Some; congruence). assert (M := max_le inputs leader). unfold count. lia. }
  unfold km_recon in E2. destruct (km_gather n count _) as [rows| | |] eqn:EG; try discriminate. inversion E2; subst recon. clear E2.
  rewrite sum_nth in B by exact Hk. inversion B as [B']. clear B. apply gather_spec in EG. destruct EG as (LR & EG).
  (* the row of src *)
  destruct (EG src Hs) as (_ & row & R1 & R2). replace (src =? leader) with false in R2 by (symmetry; apply Nat.eqb_neq; exact Hsl).
  unfold R', set_round2 in R2. rewrite !Nat.eqb_refl in R2. cbn [andb] in R2. fold r in R2.
  unfold km_opprf in R2. rewrite (send_set r ot q v) in R2; [|apply HW|exact NI].
  destruct (km_send ro tries bins_of r (items src) (nth src shares [])) as [ms| | |] eqn:EM; try discriminate. cbn [bind] in R2.
  destruct (send_length ro tries bins_of _ _ _ _ EM) as (_ & LM).
  assert (RS := recv_spec ro bins_of (set_oprf r ot q v) (items leader) ms row). rewrite LI in LM, RS. fold m0 m1 in LM, RS.
  destruct (RS LM R2) as (_ & RS'). clear RS.
  destruct (RS' k q) as (c & a & C1 & C2 & _ & m & C4 & C5); [|exact Zx|].
  { unfold items, km_encode. rewrite nth_error_app1 by (rewrite map_length; apply nth_error_Some; congruence). rewrite nth_error_map, Ek. reflexivity. }
  rewrite bin_at_set in C1. assert (CA : ca = (c, a)) by (unfold ca; rewrite C1; reflexivity).
  assert (OT : km_ot m0 c a = ot) by (unfold ot; rewrite CA; reflexivity). rewrite OT in C4, C5.
  cbn [set_oprf kr_oprf] in C5. rewrite Nat.eqb_refl, N.eqb_refl in C5. cbn [andb] in C5.
  (* the message *)
  assert (SS := send_spec ro tries bins_of r (items src) (nth src shares []) ms c a EM (HW true src leader)). rewrite LI in SS. fold m0 m1 in SS.
  destruct (SS C2) as (nonce & t & D1 & D2 & _). rewrite OT, C4 in D1. inversion D1; subst m. clear D1.
  assert (LT : length t <= 64) by (rewrite D2; destruct c; cbn [km_size]; lia).
  assert (EMsg : msg = (nonce, t)).
  { unfold msg, msgs. rewrite ?EM. cbn beta iota. rewrite C4. cbn [snd]. apply Nat.leb_le in LT. rewrite LT. reflexivity. }
  rewrite EMsg. apply (unmask_few (km_size c)); [destruct c; apply Nat.lt_0_succ|exact D2|].
  (* the sum *)
  rewrite (map_rows n k rows (fun s => if s =? src then km_unmask ro (km_size c) v (nonce, t) else match get s with Ok row => nth k row 0%N | _ => 0%N end) LR) in B'.
  - rewrite (xor_one _ src n Hs), Nat.eqb_refl in B'.
    apply N.lxor_eq. etransitivity; [|exact B']. f_equal. unfold w. f_equal. apply map_ext. intros s. destruct (s =? src); reflexivity.
  - intros s Hs'. destruct (EG s Hs') as (_ & row' & Q1 & Q2). exists row'. split; [exact Q1|].
    destruct (s =? src) eqn:Q.
    + apply Nat.eqb_eq in Q. subst s. rewrite R1 in Q1. inversion Q1; subst row'. apply nth_error_nth. exact C5.
    + unfold get. destruct (s =? leader) eqn:Q'; [inversion Q2; reflexivity|].
      unfold R', set_round2 in Q2. rewrite Q in Q2. cbn [andb] in Q2. rewrite Q2. reflexivity.
Qed.

(** ** Parties that are not the leader *)
Definition set_zero (zero : nat -> nat -> nat -> N) (me d k : nat) (v : N) : nat -> nat -> nat -> N :=
  fun i j l => if (i =? me) && (j =? d) && (l =? k) then v else zero i j l.
(** The random word of its own sharing that is varied: its own, or for rank 0 the word for rank 1. *)
Definition own_word (me : nat) : nat := if me =? 0 then 1 else me.

Lemma own_share : forall zero me k v, me < n -> 1 < n -> (v < max64)%N ->
  km_zero n (set_zero zero me (own_word me) k v) me me k =
  N.lxor v (if me =? 0 then km_xor (map (fun d => if d =? 1 then 0%N else u64 (zero me d k)) (seq 1 (n - 1))) else 0%N).
Proof using.
  clear. intros zero me k v Hm Hn Hv. assert (UV : u64 v = v) by (apply u64_small; exact Hv).
  unfold km_zero, own_word. destruct (me =? 0) eqn:Q.
  - apply Nat.eqb_eq in Q. subst me. destruct n as [|[|m]]; try lia. cbn [Nat.sub seq map]. change (km_xor (?x :: ?l)) with (N.lxor x (km_xor l)).
    unfold set_zero at 1. cbn [Nat.eqb andb]. rewrite Nat.eqb_refl, UV, N.lxor_0_l. f_equal. f_equal.
    apply map_ext_in. intros d I. apply in_seq in I. unfold set_zero. cbn [Nat.eqb andb].
    destruct d as [|[|d]]; try lia. cbn [Nat.eqb andb]. reflexivity.
  - unfold set_zero. rewrite !Nat.eqb_refl. cbn [andb]. rewrite UV, N.lxor_0_r. reflexivity.
Qed.
Lemma other_share : forall zero me d k v src dst count, src <> me -> km_shares n (set_zero zero me d k v) src dst count = km_shares n zero src dst count.
Proof using.
  clear. intros zero me d k v src dst count D. unfold km_shares. apply map_ext. intros l. unfold km_zero, set_zero.
  replace (src =? me) with false by (symmetry; apply Nat.eqb_neq; exact D). cbn [andb]. reflexivity.
Qed.

Lemma others_few : forall zero pad R inputs me k x,
  length inputs = n -> Forall (fun i => i <> []) inputs -> 1 < n ->
  me < n -> me <> leader -> nth_error (nth me inputs []) k = Some x -> NoDup (nth me inputs []) ->
  exists w, forall v outs, (v < max64)%N ->
    km_run ro tries H bins_of n leader (set_zero zero me (own_word me) k v) pad R inputs = Ok outs ->
    In x (nth me outs []) -> v = w.
Proof using.
  intros zero pad R inputs me k x HN HE Hn Hm Hml Ek ND.
  set (count := list_max (map (@length _) inputs)) in *.
  set (items := fun me => km_encode H pad me count (nth me inputs [])) in *.
  set (rest := if me =? 0 then km_xor (map (fun d => if d =? 1 then 0%N else u64 (zero me d k)) (seq 1 (n - 1))) else 0%N).
  set (get := fun src => km_opprf ro tries bins_of (R false src me) (items src) (km_shares n zero src me count) (items me)).
  set (sum := km_xor (map (fun s => if s =? me then 0%N else match get s with Ok row => nth k row 0%N | _ => 0%N end) (seq 0 n))).
  exists (N.lxor rest sum). intros v outs Hv E I. set (z := set_zero zero me (own_word me) k v) in *.
  destruct (run_inv ro tries H bins_of n leader z pad R inputs outs E HE) as (shares & recon & E1 & _ & E3).
  fold count in E1. fold items in E1. destruct (E3 me Hm) as (out & EO & EK).
  replace (me =? leader) with false in EK by (symmetry; apply Nat.eqb_neq; exact Hml). rewrite (nth_error_nth _ _ _ EO) in I.
  apply (output_in _ _ _ x EK) in I. destruct I as (k' & A & B).
  assert (k' = k).
  { rewrite NoDup_nth_error in ND. apply ND; [apply nth_error_Some; congruence|congruence]. }
  subst k'. clear A. assert (Hk : k < count).
  { assert (k < length (nth me inputs [])) by (apply nth_error_Some; congruence). assert (M := max_le inputs me). unfold count. lia. }
  apply mapM_seq in E1. destruct E1 as (_ & E1). destruct (E1 me Hm) as (S & S1 & S2). rewrite (nth_error_nth _ _ _ S1) in B.
  unfold km_swap in S2. destruct (km_gather n count _) as [rows| | |] eqn:EG; try discriminate. inversion S2; subst S. clear S2.
  rewrite sum_nth in B by exact Hk. inversion B as [B']. clear B. apply gather_spec in EG. destruct EG as (LR & EG).
  rewrite (map_rows n k rows (fun s => if s =? me then N.lxor v rest else match get s with Ok row => nth k row 0%N | _ => 0%N end) LR) in B'.
  - rewrite (xor_one _ me n Hm), Nat.eqb_refl in B'.
    assert (Q : N.lxor (N.lxor v rest) sum = 0%N).
    { etransitivity; [|exact B']. f_equal. unfold sum. f_equal. apply map_ext. intros s. destruct (s =? me); reflexivity. }
    rewrite N.lxor_assoc in Q. apply N.lxor_eq in Q. exact Q.
  - intros s Hs'. destruct (EG s Hs') as (_ & row' & Q1 & Q2). exists row'. split; [exact Q1|].
    destruct (s =? me) eqn:Q.
    + inversion Q2; subst row'. apply nth_error_nth. unfold km_shares. rewrite nth_error_map, nth_error_seq by exact Hk. cbn [option_map Nat.add]. f_equal.
      apply own_share; assumption.
    + unfold get. unfold z in Q2. rewrite other_share in Q2 by (apply Nat.eqb_neq; exact Q). rewrite Q2. reflexivity.
Qed.
End Count.
