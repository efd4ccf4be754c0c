(** Supporting lemmas for C69: a row from the stores to the client. *)
From Coq Require Import List Arith NArith ZArith Lia Bool Znumtheory Zpow_facts.
From Verif Require Import Base StoreModel StoreProofs Text PirPackModel PirPackProofs PirPackProofs2 SpLoopModel SpLoopProofs NttModel
  SpArithModel SpDecodeSpec SpRingSpec SpDecodeProofs2 SpRingModel SpSrvProofs1
  SealPirModel SealPirSpec SealPirProofs1 SealPirProofs2 SealPirProofs3 SealPirProofs4 SealPirProofs5 SealPirProofs6 SealPirProofs7.
Import ListNotations.
Local Open Scope nat_scope.

Lemma inverts_pow : forall t invert, N.odd t = true -> inverts t invert ->
  forall k, exists v, invert (2 ^ N.of_nat k)%N t = Some v /\ (v < t)%N /\ eqm (Z.of_N t) (2 ^ Z.of_nat k * Z.of_N v) 1.
Proof.
  intros t invert Ho H k. destruct (H (2 ^ N.of_nat k)%N) as (v & E & B & Q).
  - apply Zgcd_1_rel_prime. rewrite N2Z.inj_pow. apply rel_prime_sym. apply rel_prime_Zpower_r; [lia|].
    apply rel_prime_sym. apply prime_rel_prime; [exact prime_2|]. intros [x Hx].
    apply N.odd_spec in Ho as [y Hy]. lia.
  - exists v. split; [exact E|]. split; [exact B|]. rewrite N2Z.inj_pow, nat_N_Z in Q. exact Q.
Qed.

Section Row.
Variables (encode decode : list N -> list N) (fpow : nat -> nat -> nat) (logt num size d : nat) (P : seal_params) (L : nat).
Variables (moduli last : list N) (throws : bool) (galois : cipher -> nat -> cipher) (cadd : cipher -> cipher -> cipher)
  (cmul : cipher -> list N -> outcome cipher) (mod_switch : cipher -> cipher) (encrypt : nat -> list N -> cipher) (decrypt : cipher -> list N)
  (t : N) (Enc : Z -> cipher -> (nat -> Z) -> Prop) (e0 A E : Z) (ratio : N -> nat) (invert : N -> N -> option N).
Hypothesis Hset : set_pir_params fpow (2 ^ L) logt num size d = Ok P.
Hypothesis Hroot : is_root (sl_npt P) d (fpow (sl_npt P) d).
Hypothesis Hprod : (N.of_nat (prodn (sl_dims P)) < 2 ^ 31)%N.
Hypothesis Hbig : (N.of_nat size < 2 ^ 29)%N.
Hypothesis Hlogt : 1 <= logt <= 64.
Hypothesis Htt : (2 ^ N.of_nat logt <= t)%N.
Hypothesis Hodd : N.odd t = true.
Hypothesis Hinv : inverts t invert.
Hypothesis Hbatch : batching (2 ^ L) t encode decode.
Hypothesis Sch : seal_scheme (2 ^ L) t moduli last throws galois cadd cmul mod_switch encrypt decrypt Enc e0 A E.
Hypothesis Hq : Forall (fun q => (0 < q < 2 ^ 64)%N) moduli.
Hypothesis Hlast : last <> [].
Hypothesis Hdig : Forall (fun q => (q < 2 ^ 64)%N /\ digits_for logt q (ratio q)) last.
Hypothesis HA : (0 <= A)%Z.
Hypothesis He0 : (0 <= e0)%Z.
Hypothesis Hno : Forall (fun ni => (level_noise (2 ^ L) t e0 A L ni <= E)%Z) (sl_dims P).

Lemma t_big : (2 < t)%N.
Proof using Htt Hodd Hlogt.
  clear - Htt Hodd Hlogt.
  assert (2 ^ N.of_nat 1 <= 2 ^ N.of_nat logt)%N by (apply N.pow_le_mono_r; lia). change (2 ^ N.of_nat 1)%N with 2%N in H.
  apply N.odd_spec in Hodd as [y Hy]. lia.
Qed.

Lemma place_lt : forall is dims, Forall2 lt is dims -> place dims is < prodn dims.
Proof using. clear. intros is dims H. induction H as [|x y l l' Hxy _ IH]; [cbn; lia|]. cbn [place prodn fold_right]. fold (prodn l'). nia. Qed.

Lemma query_ok : forall rnd idx, idx < num -> exists is q, Forall2 lt is (sl_dims P) /\ place (sl_dims P) is = idx / sl_epp P
  /\ gen_index_query P encrypt t invert rnd idx = Ok q
  /\ forall k, k < length (sl_dims P) -> exists qk, nth_error q k = Some qk /\ dim_query P t Enc e0 (nth k (sl_dims P) 0) (nth k is 0) qk.
Proof using Hset Hroot Hprod Hlogt Htt Hodd Hinv Sch Hq HA He0.
  intros rnd idx Hidx.
  destruct (set_params_ok _ _ _ _ _ _ _ Hset (proj1 Hlogt)) as (En & El & Enum & Esz & Hsz & Hn & Hepp & Enpt & Eps & Hps & Epn & Edim & Hone & Hmany).
  destruct (get_dimensions_ok _ _ _ _ Edim Hroot ltac:(clear - Hprod; lia)) as (G1 & G2 & G3 & G4 & G5).
  assert (Hpi : idx / sl_epp P < prodn (sl_dims P)).
  { eapply Nat.le_lt_trans; [|exact G5]. rewrite Enpt. unfold ceil_div. apply Nat.div_le_mono; clear - Hidx Hepp; lia. }
  destruct (compute_indices_ok _ _ G4 Hprod Hpi) as (is & Ei & Fi & Pi).
  unfold gen_index_query. destruct (Nat.eqb_spec (sl_epp P) 0) as [X|_]; [exfalso; clear - X Hepp; lia|].
  unfold gen_query. rewrite Ei. cbn [bind]. rewrite map_length.
  pose proof (Forall2_nth' _ _ _ _ _ Fi) as [Li Ni].
  pose proof (unless_map_seq false (list cipher) (fun i => do ni <- get i (sl_dims P); do idx <- get i (map N.of_nat is);
     let num := ceil_div ni (sl_n P) in map_out (fun j => do pt <- query_poly P t invert ni num j (N.to_nat idx); Ok (encrypt (rnd i j) pt)) (seq 0 num))
    (fun k qk => dim_query P t Enc e0 (nth k (sl_dims P) 0) (nth k is 0) qk) (length is)) as M.
  destruct M as [(q & Eq & Lq & Nq)|[X _]]; [| |discriminate].
  - intros k Hk. rewrite (get_lt nat 0) by (rewrite <- Li; exact Hk). cbn [bind]. rewrite (get_lt N 0%N) by (rewrite map_length; exact Hk). cbn [bind]. cbv zeta.
    rewrite (map_nth' _ _ _ _ 0) by exact Hk. rewrite Nat2N.id.
    rewrite <- En in Sch. destruct (query_dim_ok P moduli last throws galois cadd cmul mod_switch encrypt decrypt t Enc e0 A E L Sch En Hq HA He0 t_big invert
      ltac:(intros k' _; apply inverts_pow; assumption) (nth k (sl_dims P) 0) (nth k is 0) (rnd k) (Ni k 0 0 Hk)) as (qk & Ek & Dk).
    rewrite Ek. apply unless_ok. exact Dk.
  - exists is, q. split; [exact Fi|]. split; [exact Pi|]. split; [exact Eq|]. intros k Hk. rewrite <- Li in Hk. exists (nth k q []). split; [|apply Nq; exact Hk].
    apply nth_error_nth'. rewrite Lq. exact Hk.
Qed.

Variable db : list bytes.
Hypothesis Hlen : length db = num.
Hypothesis Hrow : forall r, In r db -> length r = size /\ Forall is_byte r.

Theorem row_ok : forall rnd idx, idx < num -> exists stores q,
  gen_from_raw encode P (new_stores P) (RawDb num size db) = Ok stores
  /\ length stores = sl_pnum P /\ (forall p, p < sl_pnum P -> length (nth p stores []) = prodn (sl_dims P))
  /\ gen_index_query P encrypt t invert rnd idx = Ok q
  /\ unless throws (fun r => r = nth idx db [])
       (do r <- gen_response P galois cadd cmul mod_switch moduli last ratio stores q; decode_index_response decode P last ratio decrypt r idx).
Proof using All.
  intros rnd idx Hidx.
  destruct (set_params_ok _ _ _ _ _ _ _ Hset (proj1 Hlogt)) as (En & El & Enum & Esz & Hsz & Hn & Hepp & Enpt & Eps & Hps & Epn & Edim & Hone & Hmany).
  destruct (get_dimensions_ok _ _ _ _ Edim Hroot ltac:(clear - Hprod; lia)) as (G1 & G2 & G3 & G4 & G5).
  destruct (stores_ok encode decode t fpow (2 ^ L) logt num size d P Hlogt Hset Hroot Hprod Hbig Htt Hbatch db Hlen ltac:(clear - Hidx; lia) Hrow) as (stores & Est & Lst & Nst).
  destruct (query_ok rnd idx Hidx) as (is & q & Fi & Pi & Eq & Dq).
  exists stores, q. split; [exact Est|]. split; [exact Lst|]. split; [intros p Hp; apply (Nst p Hp)|]. split; [exact Eq|].
  assert (Hne : sl_dims P <> []) by (intros X; rewrite X in G2; cbn in G2; clear - G2 G3; lia).
  assert (Sch' := Sch). rewrite <- En in Sch'. assert (Hno' := Hno). rewrite <- En in Hno'. assert (Hdig' := Hdig). rewrite <- El in Hdig'.
  assert (Htt' := Htt). rewrite <- El in Htt'. assert (Hl1 : 1 <= sl_logt P) by (rewrite El; apply Hlogt).
  unfold gen_response.
  eapply unless_bind; [apply (unless_map_seq throws (list cipher) _ (fun p rs => 1 <= length rs /\ Forall (fun c : cipher => length c = 2) rs
     /\ exists c : cipher, cl P last decrypt ratio (length (sl_dims P) - 1) rs = Ok [c]
        /\ same P t (decrypt c) (nth (idx / sl_epp P) (nth p stores []) [])))|].
  - intros p Hp. rewrite (get_lt' (list (list N)) [] p stores _ Lst) by exact Hp. cbn [bind].
    destruct (Nst p Hp) as (Lp & Pp & _).
    replace (N.to_nat (prod64 (sl_dims P))) with (length (nth p stores [])) by (rewrite Lp, prod64_ok by (try exact G4; clear - Hprod; lia); rewrite Nat2N.id; reflexivity).
    eapply unless_weaken; [apply (levels_ok P moduli last throws galois cadd cmul mod_switch encrypt decrypt t Enc e0 A E L ratio Sch' En Hq HA He0 t_big Hl1 Htt' Hlast Hdig'
      (sl_dims P) is 0 q 1 (nth p stores []) Hne Fi (le_n 1) Dq Hno' ltac:(rewrite Lp; clear; lia) ltac:(rewrite En; exact Pp))|].
    intros rs (R1 & R2 & cts & Ec & Lc & Nc). split; [exact R1|]. split; [exact R2|]. destruct cts as [|c [|]]; try discriminate. exists c. split; [exact Ec|].
    specialize (Nc 0 (le_n 1)). cbn [nth] in Nc. rewrite Nat.mul_1_r, Nat.add_0_r, Pi in Nc. exact Nc.
  - intros resp [Lr Nr]. unfold decode_index_response. destruct (Nat.eqb_spec (sl_epp P) 0) as [X|_]; [exfalso; clear - X Hepp; lia|].
    destruct (map_out_seq_nth (list N) (fun i => do r <- get i resp; decode_partition P last ratio decrypt r)
      (fun p pt => same P t pt (nth (idx / sl_epp P) (nth p stores []) [])) (sl_pnum P) []) as (pts & Ept & Lpt & Npt).
    { intros p Hp. destruct (Nr p [] Hp) as (R1 & R2 & c & Ec & Sc). exists (decrypt c). split; [|exact Sc].
      rewrite (get_lt' (list cipher) [] p resp _ Lr) by exact Hp. cbn [bind]. unfold decode_partition. rewrite (get_lt' cipher [] 0 (nth p resp []) _ eq_refl) by exact R1. cbn [bind].
      assert (E2 : length (nth 0 (nth p resp []) []) = 2) by (rewrite Forall_forall in R2; apply R2, nth_In; exact R1).
      match goal with |- decode_levels _ _ _ _ _ ?k _ = _ => replace k with 2 by (symmetry; exact E2) end.
      replace (length (sl_dims P)) with (S (length (sl_dims P) - 1)) by (rewrite G2; clear - G3; lia). apply cl_levels. exact Ec. }
    rewrite Ept. cbn [bind].
    rewrite (map_out_ok _ _ _ (fun p => row_part P p (nth idx db []))).
    + cbn [bind]. apply unless_ok. apply (parts_row fpow (2 ^ L) logt num size d P Hlogt Hset). apply Hrow. apply nth_In. rewrite Hlen. exact Hidx.
    + intros p Hp. apply in_seq in Hp. assert (Hp' : p < sl_pnum P) by (clear - Hp; lia). rewrite (get_lt' (list N) [] p pts _ Lpt) by exact Hp'. cbn [bind]. cbv zeta.
      destruct (Nst p Hp') as (_ & _ & Rp). destruct (Rp idx Hidx) as (v & Lv & Fv & Ev & Xv). apply Xv.
      destruct (Hbatch v Lv Fv) as [_ Dv]. destruct (Npt p Hp') as [Pl Sm]. rewrite En in Pl. apply Dv; [exact Pl|]. intros z. unfold lpoly. rewrite Sm, Ev. reflexivity.
Qed.
End Row.
