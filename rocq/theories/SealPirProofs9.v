(** Supporting lemmas for C69: loading twice, and a scheme without secrets that meets the hypotheses. *)
From Coq Require Import List Arith NArith ZArith Lia Bool.
From Verif Require Import Base StoreModel StoreProofs Text PirPackModel PirPackProofs PirPackProofs2 PirPackProofs3 SpLoopModel SpLoopProofs NttModel
  SpArithModel SpDecodeSpec SpRingSpec SpDecodeProofs2 SpRingModel SpRingProofs2 SpSrvProofs1
  SealPirModel SealPirSpec SealPirProofs1 SealPirProofs2 SealPirProofs3 SealPirProofs4 SealPirProofs5 SealPirProofs6 SealPirProofs7 SealPirProofs8.
Import ListNotations.

(** * Loading twice *)

Lemma map_out_rel : forall (A B C : Type) (f : A -> outcome B) (g : A -> outcome C) (h : A -> B -> C) l r,
  (forall x y, In x l -> f x = Ok y -> g x = Ok (h x y)) -> map_out f l = Ok r ->
  map_out g l = Ok (map (fun xy => h (fst xy) (snd xy)) (List.combine l r)).
Proof.
  intros A B C f g h. induction l as [|x l IH]; intros r H E; cbn [map_out] in *; [injection E as <-; reflexivity|].
  destruct (f x) as [y| | |] eqn:Ex; try discriminate. cbn [bind] in E. destruct (map_out f l) as [r'| | |] eqn:Er; try discriminate. cbn [bind] in E. injection E as <-.
  rewrite (H x y (or_introl eq_refl) Ex). cbn [bind]. rewrite (IH r'); [reflexivity| |reflexivity]. intros x' y' Hx. apply H. right. exact Hx.
Qed.

Lemma load_appends : forall encode P db old s2, gen_from_raw encode P (new_stores P) db = Ok s2 -> length old = sl_pnum P ->
  exists s, gen_from_raw encode P old db = Ok s /\ length s = sl_pnum P /\ forall p, p < sl_pnum P -> nth p s [] = nth p old [] ++ nth p s2 [].
Proof.
  intros encode P db old s2 H Lo. unfold gen_from_raw in *. destruct (partition db (sl_psize P)) as [parts| | |]; try discriminate. cbn [bind] in *.
  unfold enforce in *. destruct (sl_pnum P =? length parts) eqn:E1; [|discriminate]. destruct (N.of_nat (sl_npt P) <? prod64 (sl_dims P))%N eqn:E2; [|discriminate].
  assert (L2 : length s2 = sl_pnum P).
  { apply map_out_ok_inv in H. destruct (Forall2_nth' _ _ _ _ _ H) as [Hl _]. rewrite seq_length in Hl. lia. }
  eexists. split; [|split].
  - refine (map_out_rel _ _ _ _ _ (fun i y => nth i old [] ++ y) _ s2 _ H). intros i y Hi Hy. apply in_seq in Hi.
    destruct (get i parts) as [part| | |]; try discriminate. cbn [bind] in *. rewrite (get_lt _ []) in Hy by (unfold new_stores; rewrite repeat_length; lia). cbn [bind] in Hy.
    unfold new_stores in Hy. rewrite nth_repeat in Hy. rewrite (get_lt _ []) by lia. cbn [bind].
    destruct (gen_partition encode P part) as [pts| | |]; try discriminate. cbn [bind] in *. injection Hy as <-. reflexivity.
  - rewrite map_length, combine_length, seq_length. lia.
  - intros p Hp. rewrite (map_nth' _ _ _ _ (0, [])) by (rewrite combine_length, seq_length; lia). rewrite <- L2. rewrite (nth_combine_seq (list (list N))) by lia. reflexivity.
Qed.

Lemma get_app : forall (A : Type) k (l x : list A), k < length l -> get k (l ++ x) = get k l.
Proof. intros A k l x H. unfold get. rewrite nth_error_app1 by exact H. reflexivity. Qed.
Lemma loop_ext : forall (S : Type) n s (f g : nat -> S -> outcome S) st, (forall i st, s <= i < s + n -> f i st = g i st) -> loop n s f st = loop n s g st.
Proof.
  intros S n. induction n as [|n IH]; intros s f g st H; cbn [loop]; [reflexivity|]. rewrite H by lia. destruct (g s st); cbn [bind]; try reflexivity.
  apply IH. intros i st' Hi. apply H. lia.
Qed.
Lemma map_out_ext : forall (A B : Type) (f g : A -> outcome B) l, (forall x, In x l -> f x = g x) -> map_out f l = map_out g l.
Proof. intros A B f g. induction l as [|x l IH]; intros H; [reflexivity|]. cbn [map_out]. rewrite H by (left; reflexivity). rewrite IH; [reflexivity|]. intros y Hy. apply H. right. exact Hy. Qed.

Lemma answer_app : forall P galois cadd cmul mod_switch moduli last ratio dims i query cur x, dims <> [] -> Forall (fun d => 1 <= d) dims -> length cur = prodn dims ->
  answer_levels P galois cadd cmul mod_switch moduli last ratio dims i query (length cur) (cur ++ x)
  = answer_levels P galois cadd cmul mod_switch moduli last ratio dims i query (length cur) cur.
Proof.
  intros P galois cadd cmul mod_switch moduli last ratio dims i query cur x Hne H1 Lc. destruct dims as [|ni r]; [congruence|].
  cbn [answer_levels]. inversion H1 as [|? ? Hni Hr]; subst.
  assert (Ep : length cur / ni = prodn r).
  { rewrite Lc. cbn [prodn fold_right]. fold (prodn r). rewrite Nat.mul_comm. apply Nat.div_mul. lia. }
  rewrite Ep. cbn [prodn fold_right] in Lc. fold (prodn r) in Lc.
  destruct (get i query) as [qi| | |]; cbn [bind]; try reflexivity. destruct (expand_dim P galois cadd cmul moduli ni qi) as [e| | |]; cbn [bind]; try reflexivity.
  destruct (ni =? 0); [reflexivity|]. f_equal. apply map_out_ext. intros k Hk. apply in_seq in Hk. unfold select_column.
  destruct (get 0 e) as [c0| | |]; cbn [bind]; try reflexivity. rewrite get_app by nia. destruct (get k cur) as [p0| | |]; cbn [bind]; try reflexivity.
  destruct (cmul c0 p0) as [acc| | |]; cbn [bind]; try reflexivity. apply loop_ext. intros j st Hj. rewrite get_app by nia. reflexivity.
Qed.

Lemma response_app : forall P galois cadd cmul mod_switch moduli last ratio s s' query, sl_dims P <> [] -> Forall (fun d => 1 <= d) (sl_dims P) ->
  (N.of_nat (prodn (sl_dims P)) < 2 ^ 64)%N -> length s = sl_pnum P -> length s' = sl_pnum P -> (forall p, p < sl_pnum P -> length (nth p s []) = prodn (sl_dims P)) ->
  (forall p, p < sl_pnum P -> exists x, nth p s' [] = nth p s [] ++ x) ->
  gen_response P galois cadd cmul mod_switch moduli last ratio s' query = gen_response P galois cadd cmul mod_switch moduli last ratio s query.
Proof.
  intros P galois cadd cmul mod_switch moduli last ratio s s' query Hne H1 Hb Ls Ls' Hl Hx. unfold gen_response. apply map_out_ext. intros p Hp. apply in_seq in Hp.
  rewrite (get_lt _ []) by lia. rewrite (get_lt _ []) by lia. cbn [bind]. destruct (Hx p ltac:(lia)) as [x ->].
  rewrite prod64_ok by assumption. rewrite Nat2N.id. rewrite <- (Hl p) by lia. apply answer_app; [exact Hne|exact H1|apply Hl; lia].
Qed.

(** * A scheme without secrets: degree 8, both moduli 17 *)

Definition tab (f : nat -> Z) : list N := map (fun z => Z.to_N (f z mod 17)) (seq 0 8).
Definition phase (c : cipher) : nat -> Z := fun z => (lpoly (nth 0 c []) z + lpoly (nth 1 c []) z)%Z.
Definition clear_ct (m : nat -> Z) : cipher := [tab m; repeat 0%N 8].
Definition toy_enc (e : Z) (c : cipher) (m : nat -> Z) : Prop := in_form 8 [17%N] c /\ peq 8 17 (phase c) m.
Definition toy_galois (c : cipher) (g : nat) : cipher := clear_ct (paut 8 g (phase c)).
Definition toy_add (a b : cipher) : cipher := clear_ct (fun z => phase a z + phase b z)%Z.
Definition toy_mul (c : cipher) (p : list N) : outcome cipher := Ok (clear_ct (negacyclic 8 (phase c) (lpoly p))).
Definition toy_switch (c : cipher) : cipher := clear_ct (phase c).
Definition toy_encrypt (_ : nat) (p : list N) : cipher := clear_ct (lpoly p).
Definition toy_decrypt (c : cipher) : list N := tab (phase c).
Definition toy_decode (p : list N) : list N := firstn 8 (p ++ repeat 0%N 8).
Definition toy_invert (a t : N) : option N := find (fun v => (a * v mod t =? 1)%N) (map N.of_nat (seq 0 (N.to_nat t))).

Lemma tab_len : forall f, length (tab f) = 8.
Proof. intros f. unfold tab. rewrite map_length, seq_length. reflexivity. Qed.
Lemma tab_lt : forall f, Forall (fun x => (x < 17)%N) (tab f).
Proof. intros f. apply Forall_forall. intros x Hx. unfold tab in Hx. apply in_map_iff in Hx as (z & <- & _). pose proof (Z.mod_pos_bound (f z) 17). lia. Qed.
Lemma tab_eqm : forall f, peq 8 17 (lpoly (tab f)) f.
Proof.
  intros f z Hz. unfold lpoly, tab. rewrite (map_nth' _ _ _ _ 0) by (rewrite seq_length; exact Hz). rewrite seq_nth by exact Hz. rewrite Nat.add_0_l.
  pose proof (Z.mod_pos_bound (f z) 17 ltac:(lia)). rewrite Z2N.id by lia. apply eqm_mod. lia.
Qed.
Lemma clear_in_form : forall m, in_form 8 [17%N] (clear_ct m).
Proof.
  intros m. split; [reflexivity|]. split; [constructor; [apply tab_len|constructor; [reflexivity|constructor]]|].
  intros d j [<-|[<-|[]]] Hj; cbn in Hj; assert (j = 0) as -> by lia; unfold residue; cbn [Nat.mul nth skipn].
  - rewrite firstn_all2 by (rewrite tab_len; lia). eapply Forall_impl; [|apply tab_lt]. cbn. intros; lia.
  - cbn. repeat constructor; lia.
Qed.
Lemma phase_clear : forall m, peq 8 17 (phase (clear_ct m)) m.
Proof.
  intros m z Hz. unfold phase, clear_ct. cbn [nth]. destruct (tab_eqm m z Hz) as [k Hk]. exists k. rewrite Hk. unfold lpoly. rewrite nth_repeat. lia.
Qed.
Lemma clear_enc : forall e m m', peq 8 17 m m' -> toy_enc e (clear_ct m) m'.
Proof. intros e m m' H. split; [apply clear_in_form|]. intros z Hz. eapply eqm_trans; [apply phase_clear; exact Hz|apply H; exact Hz]. Qed.
Lemma tab_plain_of : forall f m, peq 8 17 f m -> plain_of 8 17 (tab f) m.
Proof. intros f m H. split; [split; [rewrite tab_len; lia|apply tab_lt]|]. intros z Hz. eapply eqm_trans; [apply (tab_eqm f z Hz)|apply H; exact Hz]. Qed.

Lemma toy_sub : forall g a m m', peq 8 17 a m -> Nat.odd g = true -> g < 16 -> substituted 8 17 g m m' -> peq 8 17 (paut 8 g a) m'.
Proof.
  intros g a m m' Ha Ho Hg Hs z Hz.
  assert (X : exists t', (g * t') mod (2 * 8) = 1 /\ exists i, i < 8 /\ (i * g) mod 8 = z).
  { assert (C : forallb (fun g => existsb (fun t' => (g * t') mod 16 =? 1) (seq 0 16) && forallb (fun z => existsb (fun i => (i * g) mod 8 =? z) (seq 0 8)) (seq 0 8)) [1; 3; 5; 7; 9; 11; 13; 15] = true) by reflexivity.
    rewrite forallb_forall in C. assert (I : In g [1; 3; 5; 7; 9; 11; 13; 15]).
    { do 16 (destruct g as [|g]; [cbn in Ho |- *; try discriminate; tauto|]). lia. }
    specialize (C g I). apply andb_true_iff in C as [C1 C2]. apply existsb_exists in C1 as (t' & _ & C1). apply Nat.eqb_eq in C1.
    rewrite forallb_forall in C2. specialize (C2 z ltac:(apply in_seq; lia)). apply existsb_exists in C2 as (i & Hi & C2). apply in_seq in Hi. apply Nat.eqb_eq in C2.
    exists t'. split; [exact C1|]. exists i. split; [lia|exact C2]. }
  destruct X as (t' & E1 & i & Hi & <-). rewrite (aut_at 8 ltac:(lia) g t' E1 a i Hi). eapply eqm_trans; [|apply eqm_sym; apply Hs; exact Hi].
  destruct (Nat.even (i * g / 8)); [apply Ha; exact Hi|apply eqm_opp, Ha; exact Hi].
Qed.

Lemma residue_one : forall d, length d = 8 -> residue 8 0 d = d.
Proof. intros d H. unfold residue. cbn [Nat.mul skipn]. apply firstn_all2. lia. Qed.

Theorem toy_scheme : seal_scheme 8 17 [17%N] [17%N] false toy_galois toy_add toy_mul toy_switch toy_encrypt toy_decrypt toy_enc 0 0 0.
Proof.
  split.
  - intros e c m [H _]. exact H.
  - intros e e' c m m' [H1 H2] _ H3. split; [exact H1|]. intros z Hz. eapply eqm_trans; [apply H2; exact Hz|apply H3; exact Hz].
  - intros r p Hp. apply clear_enc. intros z Hz. apply eqm_refl.
  - intros e1 e2 c1 c2 m1 m2 [_ H1] [_ H2]. apply clear_enc. intros z Hz. apply eqm_add; [apply H1; exact Hz|apply H2; exact Hz].
  - intros e c m g m' [_ H] Ho Hg Hs. apply clear_enc. eapply toy_sub; [exact H|exact Ho|lia|exact Hs].
  - intros e c c' m s [F H] Hs F' R. split; [exact F'|]. intros z Hz.
    assert (Lr : forall (x : cipher) i, in_form 8 [17%N] x -> i < 2 -> residue 8 0 (nth i x []) = nth i x []).
    { intros x i (Lx & Fx & _) Hi. apply residue_one. rewrite Forall_forall in Fx. apply (Fx (nth i x [])). apply nth_In. lia. }
    pose proof (R 0 0 ltac:(lia) ltac:(cbn; lia) z Hz) as R0. pose proof (R 1 0 ltac:(lia) ltac:(cbn; lia) z Hz) as R1.
    rewrite !Lr in R0, R1 by (assumption || lia). cbn [nth] in R0, R1.
    eapply eqm_trans; [apply eqm_add; [exact R0|exact R1]|]. rewrite !(xpow_at 8) by lia.
    destruct (Nat.ltb_spec z (s mod 8)).
    + destruct (H (8 + z - s mod 8) ltac:(lia)) as [k Hk]. unfold phase in Hk. exists ((if (s <? 8)%nat then -1 else 1) * k)%Z. destruct (s <? 8)%nat; lia.
    + destruct (H (z - s mod 8) ltac:(lia)) as [k Hk]. unfold phase in Hk. exists ((if (s <? 8)%nat then 1 else -1) * k)%Z. destruct (s <? 8)%nat; lia.
  - intros e c m p [_ H] Hp. apply unless_ok. apply clear_enc. intros z Hz. apply negacyclic_eqm; [exact Hz|exact H|intros i Hi; apply eqm_refl].
  - intros e c m [_ H] _. apply tab_plain_of. exact H.
  - intros e c m [_ H] _. split; [apply clear_in_form|]. split.
    + intros d j [<-|[<-|[]]] Hj; cbn in Hj; assert (j = 0) as -> by lia; cbn [nth].
      * rewrite residue_one by apply tab_len. apply tab_lt.
      * cbn. repeat constructor; lia.
    + apply tab_plain_of. intros z Hz. eapply eqm_trans; [apply phase_clear; exact Hz|apply H; exact Hz].
Qed.

Lemma toy_batching : batching 8 17 (fun v => v) toy_decode.
Proof.
  intros v Lv Fv. split; [split; [lia|exact Fv]|]. intros p [Lp Fp] H. unfold toy_decode. apply (nth_ext _ _ 0%N 0%N).
  - rewrite firstn_length_le; [lia|]. rewrite app_length, repeat_length. lia.
  - intros z Hz. rewrite firstn_length, app_length, repeat_length in Hz. rewrite nth_firstn_lt' by lia. specialize (H z). unfold lpoly in H. apply N2Z.inj in H. rewrite <- H.
    destruct (Nat.lt_ge_cases z (length p)); [rewrite app_nth1 by assumption; reflexivity|]. rewrite app_nth2 by assumption. rewrite nth_repeat, nth_overflow by assumption. reflexivity.
Qed.

Lemma toy_inverts : inverts 17 toy_invert.
Proof.
  intros a Ha. unfold toy_invert.
  destruct (find (fun v => (a * v mod 17 =? 1)%N) (map N.of_nat (seq 0 (N.to_nat 17)))) as [v|] eqn:E.
  - apply find_some in E as [I Ev]. exists v. split; [reflexivity|]. apply in_map_iff in I as (x & <- & Hx). apply in_seq in Hx. apply N.eqb_eq in Ev. split; [lia|].
    exists (Z.of_N (a * N.of_nat x / 17)). pose proof (N.div_mod' (a * N.of_nat x) 17). lia.
  - exfalso. set (r := (a mod 17)%N). pose proof (N.mod_lt a 17 ltac:(discriminate)) as Hr. fold r in Hr.
    assert (G : forall v, (v < 17)%N -> (a * v mod 17 = r * v mod 17)%N) by (intros v _; unfold r; rewrite N.mul_mod_idemp_l by discriminate; reflexivity).
    assert (C : forall v, (v < 17)%N -> (r * v mod 17 <> 1)%N).
    { intros v Hv X. pose proof (find_none _ _ E v) as Nn. cbn beta in Nn. rewrite (G v Hv), X in Nn. discriminate Nn.
      apply in_map_iff. exists (N.to_nat v). split; [apply N2Nat.id|apply in_seq; change (N.to_nat 17) with 17; lia]. }
    assert (K : forallb (fun r => (r =? 0)%N || existsb (fun v => (r * v mod 17 =? 1)%N) (map N.of_nat (seq 0 17))) (map N.of_nat (seq 0 17)) = true) by reflexivity.
    rewrite forallb_forall in K. specialize (K r ltac:(apply in_map_iff; exists (N.to_nat r); split; [apply N2Nat.id|apply in_seq; lia])).
    apply orb_true_iff in K as [K|K].
    + apply N.eqb_eq in K. assert (D : (a = 17 * (a / 17))%N) by (pose proof (N.div_mod' a 17); unfold r in K; lia).
      assert (Z.divide 17 (Z.gcd (Z.of_N a) 17)) as [y Hy] by (apply Z.gcd_greatest; [exists (Z.of_N (a / 17)); lia|exists 1%Z; lia]).
      change (Z.of_N 17) with 17%Z in Ha. rewrite Ha in Hy. lia.
    + apply existsb_exists in K as (v & Iv & Ev). apply in_map_iff in Iv as (x & <- & Hx). apply in_seq in Hx. apply N.eqb_eq in Ev. apply (C (N.of_nat x)); [lia|exact Ev].
Qed.
