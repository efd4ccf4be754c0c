(** The packed response as the ciphertext C58 decodes. *)
From Coq Require Import List Arith NArith ZArith Lia Setoid Morphisms Ring Bool.
From Verif Require Import Base SpArithModel SpArithSpec SpArithProofs2 SpGadgetModel SpGadgetSpec SpDecodeModel SpDecodeSpec
  SpDecodeProofs2 SpDecodeProps SpRingModel SpRingSpec SpRingProofs SpRingProofs2
  SpSelModel SpSelSpec SpSelProofs SpSelProofs2 SpSelProofs3 SpSelProofs4 SpSelProofs5 SpSelProofs6.
Import ListNotations.
Local Open Scope Z_scope.

Lemma coeff_map : forall pl rows cols (f : nat -> nat -> nat -> N) r c z,
  (r < rows)%nat -> (c < cols)%nat -> (z < pl)%nat ->
  coeff pl cols (map (fun p => f (p / pl / cols)%nat ((p / pl) mod cols)%nat (p mod pl)%nat) (seq 0 (rows * cols * pl))) r c z = f r c z.
Proof.
  intros pl rows cols f r c z Hr Hc Hz. unfold coeff.
  assert (Hlt : ((r * cols + c) * pl + z < rows * cols * pl)%nat).
  { assert (r * cols + c < rows * cols)%nat by nia. nia. }
  rewrite (nth_seq_map (fun p => f (p / pl / cols)%nat ((p / pl) mod cols)%nat (p mod pl)%nat)) by exact Hlt.
  assert (E1 : (((r * cols + c) * pl + z) / pl = r * cols + c)%nat) by (rewrite Nat.div_add_l by lia; rewrite (Nat.div_small z) by lia; lia).
  assert (E2 : (((r * cols + c) * pl + z) mod pl = z)%nat) by (rewrite Nat.add_comm, Nat.mod_add by lia; apply Nat.mod_small; exact Hz).
  assert (E3 : ((r * cols + c) / cols = r)%nat) by (rewrite Nat.div_add_l by lia; rewrite (Nat.div_small c) by lia; lia).
  assert (E4 : ((r * cols + c) mod cols = c)%nat) by (rewrite Nat.add_comm, Nat.mod_add by lia; apply Nat.mod_small; exact Hc).
  rewrite E1, E2, E3, E4. reflexivity.
Qed.

(** The representative of least absolute value. *)
Definition cmod (q x : Z) : Z := let m := x mod q in if 2 * m <=? q then m else m - q.
Lemma cmod_spec : forall q x, 0 < q -> eqm q (cmod q x) x /\ forall e, eqm q x e -> Z.abs (cmod q x) <= Z.abs e.
Proof.
  intros q x Hq. pose proof (Z.mod_pos_bound x q Hq) as B. pose proof (Z.div_mod x q ltac:(lia)) as D. unfold cmod.
  set (m := x mod q) in *. set (d := x / q) in *. clearbody m d. split.
  - destruct (2 * m <=? q); [exists (- d)|exists (- d - 1)]; lia.
  - intros e [k E]. assert (F : e = m + (d - k) * q) by lia. destruct (Z.leb_spec (2 * m) q).
    + assert (d - k = 0 \/ d - k <> 0) as [Z0|Z0] by lia; [rewrite Z0 in F; lia|]. assert (d - k <= -1 \/ 1 <= d - k) as [U|U] by lia; nia.
    + assert (d - k = -1 \/ d - k <= -2 \/ 0 <= d - k) as [U|[U|U]] by lia; [rewrite U in F; lia| |]; nia.
Qed.

Section M.
Variable P : sel_params.
Variables qN pN : N.
Hypothesis Hq : sp_q P = Z.of_N qN.
Hypothesis Hp : sp_p P = Z.of_N pN.
Hypothesis Hq0 : (0 < qN)%N.
Hypothesis Hp0 : (0 < pN)%N.
Hypothesis Hpq : (pN <= qN)%N.
Hypothesis Hq62 : (qN <= 2 ^ 62)%N.
Hypothesis Hlen : (0 < sp_len P)%nat.
Hypothesis Hnp : (0 < sp_n P)%nat.

Lemma db_poly_spec : forall pt t i z, (pt t i z < pN)%N ->
  exists b, -1 <= b <= 1 /\ eqm (sp_q P) (db_poly P pt t i z) (Z.of_N (pt t i z) - b * Z.of_N pN)
  /\ 2 * Z.abs (Z.of_N (pt t i z) - b * Z.of_N pN) <= Z.of_N pN + 1.
Proof using All.
  intros pt t i z H. unfold db_poly. rewrite Hq, Hp, !N2Z.id.
  destruct (recenter_mod_exact (pt t i z) pN qN) as (c & r & [A1 A2] & B & _ & D); [exact H|lia|exact Hpq|exact Hq62|].
  rewrite B. apply Z.mod_divide in A1; [|lia]. destruct A1 as [b Eb]. apply Z.mod_divide in D; [|lia]. destruct D as [d Ed].
  exists (- b). replace (Z.of_N (pt t i z) - - b * Z.of_N pN) with c by lia. split; [nia|]. split; [|exact A2].
  exists d. lia.
Qed.

Lemma db_poly_small : forall pt, (forall t i z, (pt t i z < pN)%N) ->
  forall t i, small (sp_len P) (sp_q P) ((Z.of_N pN + 1) / 2) (db_poly P pt t i).
Proof using All.
  intros pt Hpt t i.
  exists (fun z => match recenter_mod (pt t i z) pN qN with
                   | Ok r => if Z.of_N r * 2 <=? Z.of_N pN + 1 then Z.of_N r else Z.of_N r - Z.of_N qN
                   | _ => 0 end).
  split.
  - intros z Hz. unfold db_poly. rewrite Hq, Hp, !N2Z.id.
    destruct (recenter_mod _ _ _) as [r| | |]; try apply eqm_refl. destruct (_ <=? _); [apply eqm_refl|]. exists 1. lia.
  - intros z Hz. destruct (recenter_mod_exact (pt t i z) pN qN) as (c & r & [_ A2] & B & Hr & D); [apply Hpt|lia|exact Hpq|exact Hq62|].
    rewrite B. apply Z.mod_divide in D; [|lia]. destruct D as [d Ed].
    assert (G : 2 * Z.abs (if Z.of_N r * 2 <=? Z.of_N pN + 1 then Z.of_N r else Z.of_N r - Z.of_N qN) <= Z.of_N pN + 1).
    { destruct (Z.leb_spec (Z.of_N r * 2) (Z.of_N pN + 1)); [lia|].
      assert (d = 1 \/ d <> 1) as [->|Nd] by lia; [lia|]. exfalso. assert (d <= 0 \/ 2 <= d) as [Hd|Hd] by lia; nia. }
    apply Z.div_le_lower_bound; lia.
Qed.

Lemma response_encrypts : forall S h sk pt idx out B,
  (forall t i z, (pt t i z < pN)%N) ->
  length (rm_data sk) = (sp_n P * sp_len P)%nat -> Forall (fun v => (v < qN)%N) (rm_data sk) ->
  (forall r i, (r < sp_n P)%nat -> (i < sp_len P)%nat ->
     eqm (Z.of_N qN) (S r i) (Z.of_N (coeff (sp_len P) 1 (rm_data sk) r 0 i)) /\ 4 * Z.abs (S r i) < Z.of_N qN) ->
  (forall r, (r < sp_n P)%nat -> zsum (sp_len P) (fun i => Z.abs (S r i)) <= h) ->
  (forall r c, (r < sp_n P)%nat -> (c < sp_n P)%nat ->
     near (sp_len P) (sp_q P) B (padd (pmul (sp_len P) (S r) (out 0%nat c)) (out (r + 1)%nat c))
       (pmul (sp_len P) (pconst (sp_q P / sp_p P)) (db_poly P pt (r * sp_n P + c) idx))) ->
  encrypts (sp_len P) (sp_n P) qN pN S h sk (response_mat P out)
    (fun r c z => pt (r * sp_n P + c)%nat idx z) (B + Z.of_N qN mod Z.of_N pN).
Proof using All.
  intros S h sk pt idx out B Hpt E1 E2 E3 E4 H.
  assert (Hdata : forall r c z, (r < sp_n P + 1)%nat -> (c < sp_n P)%nat -> (z < sp_len P)%nat ->
            Z.of_N (coeff (sp_len P) (sp_n P) (rm_data (response_mat P out)) r c z) = out r c z mod Z.of_N qN).
  { intros r c z Hr Hc Hz. unfold response_mat. cbn [rm_data].
    rewrite (coeff_map (sp_len P) (sp_n P + 1) (sp_n P) (fun r c z => Z.to_N (out r c z mod sp_q P))) by assumption.
    rewrite Hq, Z2N.id; [reflexivity|]. apply Z.mod_pos_bound. lia. }
  split; [exact E1|]. split; [exact E2|]. split; [exact E3|]. split; [exact E4|].
  split; [reflexivity|]. split; [reflexivity|]. split; [unfold response_mat; cbn [rm_data]; rewrite map_length, seq_length; reflexivity|].
  split.
  { unfold response_mat. cbn [rm_data]. apply Forall_forall. intros v Hv. apply in_map_iff in Hv as (p & <- & _). rewrite Hq.
    match goal with |- (Z.to_N (?x mod _) < _)%N => pose proof (Z.mod_pos_bound x (Z.of_N qN) ltac:(lia)) end. lia. }
  assert (G : forall r c z, exists e, (r < sp_n P)%nat -> (c < sp_n P)%nat -> (z < sp_len P)%nat ->
     (pt (r * sp_n P + c)%nat idx z < pN)%N /\ Z.abs e <= B + Z.of_N qN mod Z.of_N pN /\
     eqm (Z.of_N qN)
       (negacyclic (sp_len P) (S r) (fun i => Z.of_N (coeff (sp_len P) (sp_n P) (rm_data (response_mat P out)) 0 c i)) z
        + Z.of_N (coeff (sp_len P) (sp_n P) (rm_data (response_mat P out)) (r + 1) c z))
       (Z.of_N qN / Z.of_N pN * Z.of_N (pt (r * sp_n P + c)%nat idx z) + e)).
  { intros r c z. destruct (Nat.lt_ge_cases r (sp_n P)) as [Hr|]; [|exists 0; lia].
    destruct (Nat.lt_ge_cases c (sp_n P)) as [Hc|]; [|exists 0; lia].
    destruct (Nat.lt_ge_cases z (sp_len P)) as [Hz|]; [|exists 0; lia].
    destruct (H r c Hr Hc) as (e & He & Hb). specialize (Hb z Hz). specialize (He z Hz).
    cbv beta in He. rewrite (const_mul (sp_len P) Hlen) in He by exact Hz.
    destruct (db_poly_spec pt (r * sp_n P + c)%nat idx z (Hpt _ _ _)) as (b & Hb1 & [u Eu] & _).
    exists (e z + b * (Z.of_N qN mod Z.of_N pN)). intros _ _ _. split; [apply Hpt|].
    pose proof (Z.mod_pos_bound (Z.of_N qN) (Z.of_N pN) ltac:(lia)) as Hm. split; [nia|].
    assert (A : eqm (Z.of_N qN) (negacyclic (sp_len P) (S r) (fun i => Z.of_N (coeff (sp_len P) (sp_n P) (rm_data (response_mat P out)) 0 c i)) z)
                  (pmul (sp_len P) (S r) (out 0%nat c) z)).
    { assert (PE : peq (sp_len P) (Z.of_N qN)
                     (pmul (sp_len P) (S r) (fun i => Z.of_N (coeff (sp_len P) (sp_n P) (rm_data (response_mat P out)) 0 c i)))
                     (pmul (sp_len P) (S r) (out 0%nat c))).
      { apply pmul_proper; [reflexivity|]. intros i Hi. rewrite Hdata by lia. exists (- (out 0%nat c i / Z.of_N qN)).
        pose proof (Z.div_mod (out 0%nat c i) (Z.of_N qN) ltac:(lia)). lia. }
      apply PE. exact Hz. }
    rewrite Hdata by lia. destruct A as [k1 A]. rewrite A. rewrite Hq, Hp in *. destruct He as [k2 He]. unfold padd in He.
    pose proof (Z.div_mod (out (r + 1)%nat c z) (Z.of_N qN) ltac:(lia)) as D1.
    pose proof (Z.div_mod (Z.of_N qN) (Z.of_N pN) ltac:(lia)) as D2.
    set (X := pmul (sp_len P) (S r) (out 0%nat c) z) in *. set (Y := out (r + 1)%nat c z) in *.
    set (Yd := Y / Z.of_N qN) in *. set (Ym := Y mod Z.of_N qN) in *. set (sc := Z.of_N qN / Z.of_N pN) in *.
    set (qm := Z.of_N qN mod Z.of_N pN) in *. set (mm := Z.of_N (pt (r * sp_n P + c)%nat idx z)) in *.
    set (Q := Z.of_N qN) in *. set (PP := Z.of_N pN) in *. clearbody X Y Yd Ym sc qm mm Q PP.
    exists (k1 + k2 - Yd + sc * u - b). rewrite Eu in He. nia. }
  exists (fun r c z => cmod (Z.of_N qN)
     (negacyclic (sp_len P) (S r) (fun i => Z.of_N (coeff (sp_len P) (sp_n P) (rm_data (response_mat P out)) 0 c i)) z
      + Z.of_N (coeff (sp_len P) (sp_n P) (rm_data (response_mat P out)) (r + 1) c z)
      - Z.of_N qN / Z.of_N pN * Z.of_N (pt (r * sp_n P + c)%nat idx z))).
  intros r c z Hr Hc Hz. destruct (G r c z) as [e Ge]. destruct (Ge Hr Hc Hz) as (G1 & G2 & G3). clear G Ge.
  split; [exact G1|].
  match goal with |- Z.abs (cmod _ (?X - ?Y)) <= _ /\ _ => set (x := X) in *; set (y := Y) in * end. clearbody x y.
  destruct (cmod_spec (Z.of_N qN) (x - y) ltac:(lia)) as [C1 C2]. split.
  - eapply Z.le_trans; [apply (C2 e)|exact G2]. destruct G3 as [k E]. exists k. lia.
  - destruct C1 as [k E]. exists (- k). lia.
Qed.
End M.
