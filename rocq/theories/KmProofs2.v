(** Lemmas for C81 and C82: one OPPRF execution. *)
From Coq Require Import List NArith Bool Arith Lia Permutation.
From Verif Require Import Base BaseProofs StoreModel KmModel KmSpec KmProofs.
Import ListNotations.

Section Opprf.
Variable ro : N -> N -> N.
Variable tries : nat.
Variable bins_of : nat -> nat * nat.

Definition unmasks (size : nat) (es : list N) (msgs : list (N * list N)) : list N :=
  map (fun p => km_unmask ro size (fst p) (snd p)) (combine es msgs).

Lemma combine_app_firstn : forall (A B : Type) (a b : list A) (m : list B), length a <= length m ->
  combine (a ++ b) m = combine a (firstn (length a) m) ++ combine b (skipn (length a) m).
Proof.
  intros A B a. induction a as [|x a IH]; intros b m H; [reflexivity|]. destruct m as [|y m]; [cbn in H; lia|].
  cbn. f_equal. apply IH. cbn in H. lia.
Qed.

Lemma side_spec : forall size n evals i pending msgs,
  n = i + length evals -> (evals <> [] -> length pending = i mod km_batch) -> (evals = [] -> pending = []) ->
  length pending + length evals <= length msgs ->
  km_side ro size n i evals pending msgs = Ok (unmasks size (pending ++ evals) msgs, skipn (length pending + length evals) msgs).
Proof using.
  intros size n evals. induction evals as [|e r IH]; intros i pending msgs Hn HP HE HL.
  - rewrite (HE eq_refl). reflexivity.
  - cbn [km_side]. clear HE. assert (LP := HP ltac:(discriminate)). clear HP. cbn [length] in *.
    assert (MB : i mod km_batch < km_batch) by (apply Nat.mod_upper_bound; discriminate).
    assert (LB : length (pending ++ [e]) = i mod km_batch + 1) by (rewrite app_length; cbn [length]; lia).
    destruct (_ || _) eqn:C.
    + rewrite LB. replace (length msgs <? i mod km_batch + 1) with false by (symmetry; apply Nat.ltb_ge; lia).
      rewrite Nat.ltb_irrefl. cbn [orb]. rewrite <- LB.
      rewrite (IH (S i) [] (skipn (length (pending ++ [e])) msgs)).
      * cbn [bind]. rewrite firstn_all. cbn [app length].
        f_equal. f_equal.
        -- unfold unmasks. rewrite <- map_app. f_equal. replace (pending ++ e :: r) with ((pending ++ [e]) ++ r) by (rewrite <- app_assoc; reflexivity).
           symmetry. apply combine_app_firstn. lia.
        -- rewrite LB. clear - LP. revert LP. generalize (i mod km_batch) as b. intros b <-. 
           replace (length pending + S (length r)) with (length r + (length pending + 1)) by lia. cbn [Nat.add].
           generalize (length pending + 1) as a. generalize (length r) as c. clear. intros c a. revert msgs.
           induction a as [|a IH]; intros msgs; [rewrite Nat.add_0_r; reflexivity|]. replace (c + S a) with (S (c + a)) by lia. destruct msgs; [destruct c; reflexivity|]. cbn [skipn]. apply IH.
      * lia.
      * intros NE. cbn [length]. apply orb_true_iff in C. destruct C as [C|C]; apply Nat.eqb_eq in C.
        -- assert (Q := Nat.div_mod i km_batch ltac:(discriminate)).
           symmetry. apply Nat.mod_divides; [discriminate|]. exists (S (i / km_batch)). lia.
        -- exfalso. apply NE. destruct r; [reflexivity|cbn in Hn; lia].
      * reflexivity.
      * cbn [length]. rewrite skipn_length. lia.
    + apply orb_false_iff in C. destruct C as (C1 & C2). apply Nat.eqb_neq in C1, C2.
      rewrite (IH (S i) (pending ++ [e]) msgs).
      * f_equal. f_equal; [rewrite <- app_assoc; reflexivity|]. f_equal. rewrite app_length. cbn [length]. lia.
      * lia.
      * intros _. rewrite LB. assert (Q := Nat.div_mod i km_batch ltac:(discriminate)).
        apply (Nat.mod_unique _ _ (i / km_batch)); lia.
      * intros ->. exfalso. cbn in Hn. lia.
      * rewrite app_length. cbn [length]. lia.
Qed.

(** What the receiver gets for a query: bin [ot] and the message of that bin. *)
Definition km_ot (m0 : nat) (c : bool) (a : nat) : nat := (if c then m0 else 0) + a.

Lemma evals_nth : forall r base bins a, a < length bins -> nth a bins 0%N <> 0%N ->
  nth_error (km_evals r base bins) a = Some (kr_oprf r (base + a) (nth a bins 0%N)).
Proof using.
  intros r base bins a HL HZ. unfold km_evals.
  assert (G : forall l b, nth_error (number b l) a = option_map (fun x : N => (b + a, x)) (nth_error l a)).
  { clear. induction a as [|a IH]; intros [|x l] b; cbn; try reflexivity; [f_equal; f_equal; lia|]. rewrite IH. destruct (nth_error l a); cbn; [f_equal; f_equal; lia|reflexivity]. }
  rewrite nth_error_map, G. rewrite (nth_error_nth' bins 0%N HL). cbn [option_map fst snd Nat.add].
  apply N.eqb_neq in HZ. rewrite HZ. reflexivity.
Qed.
Lemma evals_length : forall r base bins, length (km_evals r base bins) = length bins.
Proof using. intros. unfold km_evals. rewrite map_length. apply number_length. Qed.
Lemma unmasks_nth : forall size es msgs a e m, nth_error es a = Some e -> nth_error msgs a = Some m ->
  nth_error (unmasks size es msgs) a = Some (km_unmask ro size e m).
Proof using.
  intros size es msgs a e m E1 E2. unfold unmasks. rewrite nth_error_map.
  assert (G : nth_error (combine es msgs) a = Some (e, m)); [|rewrite G; reflexivity].
  revert es msgs E1 E2. induction a as [|a IH]; intros [|x es] [|y msgs] E1 E2; try discriminate; cbn in *; [congruence|]. apply IH; assumption.
Qed.
Lemma unmasks_length : forall size es msgs, length es <= length msgs -> length (unmasks size es msgs) = length es.
Proof using. intros. unfold unmasks. rewrite map_length, combine_length. lia. Qed.

(** The receiver's bin for a query. *)
Definition bin_at (r : km_rand) (m0 m1 : nat) (queries : list N) (q : N) : option (bool * nat) :=
  match km_inserts (kr_cuckoo r) (repeat 0%N m0, repeat 0%N m1, 0) queries with
  | Ok (b0, b1, _) => km_lookup b0 b1 q
  | _ => None
  end.

Lemma recv_spec : forall r queries msgs vs,
  let m0 := fst (bins_of (length queries)) in let m1 := snd (bins_of (length queries)) in
  length msgs = m0 + m1 -> km_recv ro bins_of r queries msgs = Ok vs ->
  length vs = length queries /\
  forall k q, nth_error queries k = Some q -> q <> 0%N ->
    exists c a, bin_at r m0 m1 queries q = Some (c, a) /\
      a < (if c then m1 else m0) /\ (exists i, i < km_nh c /\ a = km_addr (if c then m1 else m0) q i) /\
      exists msg, nth_error msgs (km_ot m0 c a) = Some msg /\
        nth_error vs k = Some (km_unmask ro (km_size c) (kr_oprf r (km_ot m0 c a) q) msg).
Proof using.
  intros r queries msgs vs m0 m1 LM E. unfold km_recv in E. destruct (bins_of (length queries)) as [n0 n1] eqn:EB. cbn [fst snd] in m0, m1.
  fold m0 m1 in E. destruct (_ || _) eqn:Z; [discriminate|]. apply orb_false_iff in Z. destruct Z as (Z0 & Z1). apply Nat.eqb_neq in Z0, Z1.
  unfold bin_at. destruct (km_inserts _ _ queries) as [[[b0 b1] p]| | |] eqn:EI; try discriminate. cbn [bind] in E.
  destruct (inserts_spec (kr_cuckoo r) m0 m1 queries _ _ ltac:(lia) ltac:(lia) (empty_tabs m0 m1 0) EI) as (G & HH).
  assert (G' := G). destruct G' as (L0 & L1 & _ & _). cbn [fst snd] in L0, L1.
  rewrite (side_spec (km_size false) m0 (km_evals r 0 b0) 0 [] msgs) in E;
    [|rewrite evals_length; lia|intros _; reflexivity|intros _; reflexivity|rewrite evals_length; cbn; lia].
  cbn [bind length Nat.add app] in E. rewrite evals_length, L0 in E.
  rewrite (side_spec (km_size true) m1 (km_evals r m0 b1) 0 [] (skipn m0 msgs)) in E;
    [|rewrite evals_length; lia|intros _; reflexivity|intros _; reflexivity|rewrite evals_length, skipn_length; cbn; lia].
  cbn [bind app] in E. set (e0 := unmasks (km_size false) _ _) in E. set (e1 := unmasks (km_size true) _ _) in E.
  assert (Le0 : length e0 = m0) by (unfold e0; rewrite unmasks_length; rewrite evals_length; lia).
  apply mapM_ok in E. apply forall2_nth in E. destruct E as (LV & E). split; [congruence|].
  intros k q Eq Zq. destruct (E k q Eq) as (v & Ev & Lv).
  destruct (lookup_spec m0 m1 (b0, b1, p) q ltac:(lia) ltac:(lia) G Zq) as (c & a & LK & LA & LN & LI).
  { apply HH; [exact Zq|]. right. eapply nth_error_In; exact Eq. }
  cbn [fst snd] in LK, LN. exists c, a. split; [exact LK|]. split; [exact LA|]. split; [exact LI|].
  rewrite LK in Lv. destruct c; cbn [km_ot].
  - destruct (nth_error msgs (m0 + a)) as [msg|] eqn:EM; [|apply nth_error_None in EM; lia]. exists msg. unfold km_ot. split; [exact EM|].
    rewrite Ev. f_equal. rewrite nth_error_app2 in Lv by lia. rewrite Le0 in Lv. replace (m0 + a - m0) with a in Lv by lia.
    unfold e1 in Lv. rewrite (unmasks_nth _ _ _ a (kr_oprf r (m0 + a) q) msg) in Lv; [congruence| |].
    + rewrite evals_nth by (rewrite ?LN; lia || congruence). rewrite LN. reflexivity.
    + rewrite <- EM. clear. revert a. induction m0 as [|k IH] in msgs |- *; intros a; [reflexivity|]. destruct msgs; [destruct a; reflexivity|]. cbn. apply IH.
  - destruct (nth_error msgs a) as [msg|] eqn:EM; [|apply nth_error_None in EM; lia]. exists msg. unfold km_ot. split; [exact EM|].
    rewrite Ev. f_equal. cbn [Nat.add] in Lv |- *. rewrite nth_error_app1 in Lv by lia.
    unfold e0 in Lv. rewrite (unmasks_nth _ _ _ a (kr_oprf r a q) msg) in Lv; [congruence| |exact EM].
    rewrite evals_nth by (rewrite ?LN; lia || congruence). rewrite LN. reflexivity.
Qed.

Lemma where_ot : forall (m0 m1 : nat) (c : bool) (a : nat), a < (if c then m1 else m0) -> km_ot m0 c a < m0 + m1 /\ km_where m0 (km_ot m0 c a) = (c, a).
Proof using.
  clear. intros m0 m1 c a H. unfold km_ot, km_where. destruct c.
  - split; [lia|]. replace (m0 + a <? m0) with false by (symmetry; apply Nat.ltb_ge; lia). f_equal. lia.
  - split; [lia|]. rewrite Nat.add_0_l. replace (a <? m0) with true by (symmetry; apply Nat.ltb_lt; lia). reflexivity.
Qed.

Lemma send_length : forall r xs ys msgs, km_send ro tries bins_of r xs ys = Ok msgs ->
  length xs = length ys /\ length msgs = fst (bins_of (length xs)) + snd (bins_of (length xs)).
Proof using.
  intros r xs ys msgs E. unfold km_send, enforce in E. destruct (_ =? _) eqn:L; [|discriminate]. apply Nat.eqb_eq in L. split; [exact L|].
  destruct (bins_of (length xs)) as [m0 m1]. apply mapM_seq in E. apply E.
Qed.

Lemma send_spec : forall r xs ys msgs (c : bool) (a : nat), km_send ro tries bins_of r xs ys = Ok msgs -> (forall l, Permutation (kr_walk r l) l) ->
  let m0 := fst (bins_of (length xs)) in let m1 := snd (bins_of (length xs)) in
  a < (if c then m1 else m0) ->
  exists nonce t, nth_error msgs (km_ot m0 c a) = Some (nonce, t) /\ length t = km_size c /\
    forall x y, In (x, y) (km_bin (if c then m1 else m0) (km_nh c) a (combine xs ys)) -> kr_oprf r (km_ot m0 c a) x <> y ->
      nth (km_place_of ro (km_size c) (kr_oprf r (km_ot m0 c a) x) nonce) t 0%N = N.lxor (kr_oprf r (km_ot m0 c a) x) y.
Proof using.
  intros r xs ys msgs c a E W m0 m1 HA. unfold km_send, enforce in E. destruct (_ =? _); [|discriminate].
  destruct (bins_of (length xs)) as [n0 n1]. cbn [fst snd] in m0, m1. fold m0 m1 in E. apply mapM_seq in E. destruct E as (_ & E).
  destruct (where_ot m0 m1 c a HA) as (HO & HW). destruct (E _ HO) as (y & Ey & Fy). rewrite HW in Fy.
  set (f := kr_oprf r (km_ot m0 c a)) in *. set (pts := kr_walk r _) in Fy.
  destruct (km_separate _ _ _ _ _ _ pts) as [[nonce t]| | |] eqn:ES; try discriminate. cbn [bind] in Fy. inversion Fy; subst y.
  exists nonce, (km_filled (kr_fill r (km_ot m0 c a)) t). split; [exact Ey|].
  assert (HS : 0 < km_size c) by (destruct c; apply Nat.lt_0_succ).
  destruct (separate_spec ro _ _ _ _ _ _ _ _ HS ES) as (LT & SP).
  split; [rewrite filled_length; exact LT|]. intros x z I D.
  assert (Q := SP x z ltac:(apply (Permutation_in _ (Permutation_sym (W _))); exact I) D).
  rewrite filled_nth; [exact Q|]. rewrite Q. intros Z. apply D. apply N.lxor_eq. exact Z.
Qed.

(** First position of a value. *)
Definition first_pos (l : list N) (q : N) (j : nat) : Prop := nth_error l j = Some q /\ ~ In q (firstn j l).

Lemma combine_first : forall (xs ys : list N) (q : N) (j : nat) (y : N), first_pos xs q j -> nth_error ys j = Some y ->
  exists l1 l2, combine xs ys = l1 ++ (q, y) :: l2 /\ ~ In q (map fst l1).
Proof using.
  clear. induction xs as [|x xs IH]; intros ys q j y (E & NI) Ey; [destruct j; discriminate|].
  destruct ys as [|y' ys]; [destruct j; discriminate|]. destruct j as [|j]; cbn in E, Ey.
  - inversion E; inversion Ey; subst. exists [], (combine xs ys). split; [reflexivity|intros []].
  - destruct (IH ys q j y) as (l1 & l2 & A & B); [split; [exact E|intros I; apply NI; right; exact I]|exact Ey|].
    exists ((x, y') :: l1), l2. split; [cbn; rewrite A; reflexivity|]. cbn. intros [I|I]; [apply NI; left; exact I|exact (B I)].
Qed.

(** A query that is one of the sender's points returns the value programmed for it. *)
Lemma opprf_hit : forall r xs ys queries vs k q j y,
  km_opprf ro tries bins_of r xs ys queries = Ok vs -> (forall l, Permutation (kr_walk r l) l) -> length xs = length queries ->
  nth_error queries k = Some q -> q <> 0%N -> first_pos xs q j -> nth_error ys j = Some y ->
  (forall ot, ot < fst (bins_of (length queries)) + snd (bins_of (length queries)) -> kr_oprf r ot q <> y) ->
  nth_error vs k = Some y.
Proof using.
  intros r xs ys queries vs k q j y E W L Ek Zq FP Ey D. unfold km_opprf in E.
  destruct (km_send ro tries bins_of r xs ys) as [msgs| | |] eqn:ES; try discriminate. cbn [bind] in E.
  destruct (send_length _ _ _ _ ES) as (_ & LM). rewrite L in LM.
  destruct (recv_spec r queries msgs vs LM E) as (_ & RS). destruct (RS k q Ek Zq) as (c & a & _ & HA & (i & Hi & Ei) & msg & EM & EV).
  assert (SS := send_spec r xs ys msgs c a ES W). rewrite L in SS. destruct (SS HA) as (nonce & t & EM' & _ & SP). clear SS.
  rewrite EM in EM'. inversion EM'; subst msg. rewrite EV. f_equal. unfold km_unmask. cbn [fst snd].
  destruct (combine_first xs ys q j y FP Ey) as (l1 & l2 & CE & CN).
  rewrite (SP q y); [|rewrite CE; apply bin_first; [exists i; split; [exact Hi|symmetry; exact Ei]|exact CN|intros []]|apply D; apply (where_ot _ _ c a HA)].
  rewrite <- N.lxor_assoc, N.lxor_nilpotent. apply N.lxor_0_l.
Qed.

Lemma opprf_length : forall r xs ys queries vs, km_opprf ro tries bins_of r xs ys queries = Ok vs -> length xs = length queries -> length vs = length queries.
Proof using.
  intros r xs ys queries vs E L. unfold km_opprf in E. destruct (km_send ro tries bins_of r xs ys) as [msgs| | |] eqn:ES; try discriminate. cbn [bind] in E.
  destruct (send_length _ _ _ _ ES) as (_ & LM). rewrite L in LM. apply (recv_spec r queries msgs vs LM E).
Qed.
End Opprf.
