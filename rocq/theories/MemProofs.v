From Coq Require Import List NArith Bool Arith Lia Sorting.Permutation.
From Verif Require Import Base Text TextProofs PirPackModel SyncModel SyncProofs SyncProps KkrtModel OpModel OpSpec OpProofs
  NPartyModel NPartySpec NPartyProps Ecdh3pcModel Ecdh3pcProps EcdhModel EcdhProofs DpPsiModel DpPsiSpec DpPsiProps MemModel MemSpec.
Import ListNotations.

Lemma check_ok : forall c n, check_options c n = Ok tt <->
  (mc_type c <> 0%N /\ mc_receiver c < n /\ (mc_type c = 4%N -> n = 3)).
Proof.
  intros c n. unfold check_options, t_invalid, t_ecdh_3pc.
  destruct (N.eqb_spec (mc_type c) 0) as [Z | Z]; cbn [negb enforce]; [split; [discriminate | intros [H _]; contradiction] | ].
  destruct (Nat.ltb_spec (mc_receiver c) n) as [L | L]; cbn [enforce]; [ | split; [discriminate | intros [_ [H _]]; lia]].
  destruct (N.eqb_spec (mc_type c) 4) as [F | F].
  - destruct (Nat.eqb_spec n 3) as [E | E]; cbn [enforce]; split; auto; [discriminate | ].
    intros (_ & _ & H). contradiction (E (H F)).
  - split; auto. intros _. split; [exact Z | split; [exact L | ]]. intros H. contradiction.
Qed.

Lemma map_out_Ok : forall {A B} (f : A -> outcome B) (g : A -> B) l, (forall x, In x l -> f x = Ok (g x)) -> map_out f l = Ok (map g l).
Proof.
  induction l as [ | x l IH]; intros H; [reflexivity | ]. cbn [map_out map]. rewrite (H x (or_introl eq_refl)). cbn [bind].
  rewrite IH; [reflexivity | ]. intros y Hy. apply H. now right.
Qed.

Lemma seq_split : forall n k, k < n -> seq 0 n = seq 0 k ++ k :: seq (S k) (n - S k).
Proof. intros n k H. replace n with (k + S (n - S k)) at 1 by lia. rewrite seq_app. reflexivity. Qed.

Lemma map_repeat : forall {A B} (f : A -> B) y l, (forall x, In x l -> f x = y) -> map f l = repeat y (length l).
Proof. induction l as [ | x l IH]; intros H; [reflexivity | ]. cbn. rewrite (H x (or_introl eq_refl)), IH; [reflexivity | ]. intros z Hz. apply H. now right. Qed.

(** The end of a run in which only the receiver got something. *)
Lemma base_hands : forall P c inputs r, mc_receiver c < length inputs ->
  (forall rank, rank < length inputs ->
     on_run P c (length inputs) (fun k => nth k inputs []) rank = Ok (if Nat.eqb rank (mc_receiver c) then r else [])) ->
  exists out, base_run P c inputs = Ok out /\ handed (mc_broadcast c) (mc_receiver c) r out (length inputs).
Proof.
  intros P c inputs r HR H. unfold base_run. set (n := length inputs) in *. set (k := mc_receiver c) in *.
  set (g := fun rank => if Nat.eqb rank k then r else []).
  rewrite (map_out_Ok _ g) by (intros x Hx; apply in_seq in Hx; apply H; lia). cbn [bind].
  destruct (mc_broadcast c) eqn:B.
  - rewrite map_map.
    assert (E : map (fun x => (g x, @nil (N * N))) (seq 0 n) = repeat ([], []) k ++ (r, []) :: repeat ([], []) (n - S k)).
    { rewrite (seq_split n k HR), map_app. cbn [map]. f_equal; [ | f_equal].
      - rewrite (map_repeat _ ([], [])), seq_length; [reflexivity | ]. intros x Hx. apply in_seq in Hx. unfold g.
        destruct (Nat.eqb_spec x k); [lia | reflexivity].
      - unfold g. now rewrite Nat.eqb_refl.
      - rewrite (map_repeat _ ([], [])), seq_length; [reflexivity | ]. intros x Hx. apply in_seq in Hx. unfold g.
        destruct (Nat.eqb_spec x k); [lia | reflexivity]. }
    rewrite E. destruct C34_broadcast_partial as (B1 & B2 & _).
    assert (R : broadcast_result (repeat ([], []) k ++ (r, []) :: repeat ([], []) (n - S k)) = Ok (repeat (r, []) n)).
    { destruct r as [ | x r].
      - replace (repeat ([], []) k ++ ([], []) :: repeat ([], []) (n - S k)) with (repeat (@nil bytes, @nil (N * N)) n).
        + apply B2.
        + replace n with (k + S (n - S k)) at 1 by lia. rewrite repeat_app. reflexivity.
      - rewrite B1 by discriminate. do 2 f_equal. lia. }
    rewrite R. cbn [bind]. eexists. split; [reflexivity | ]. split; [rewrite map_length, repeat_length; reflexivity | ].
    intros rank l Hl. cbn [orb]. apply nth_error_In, in_map_iff in Hl. destruct Hl as (o & <- & Ho). apply repeat_spec in Ho. now subst o.
  - eexists. split; [reflexivity | ]. split; [rewrite map_length, seq_length; reflexivity | ].
    intros rank l Hl. cbn [orb]. assert (L : rank < n).
    { assert (X : nth_error (map g (seq 0 n)) rank <> None) by congruence. apply nth_error_Some in X. rewrite map_length, seq_length in X. exact X. }
    rewrite (map_nth_error g rank (seq 0 n) (d := rank)) in Hl; [now injection Hl as <- | ].
    rewrite (nth_error_nth' _ 0) by (rewrite seq_length; exact L). now rewrite seq_nth.
Qed.

Lemma no_empty : forall inputs : list (list bytes), existsb (fun l => Nat.eqb (length l) 0) inputs = false <-> ~ In [] inputs.
Proof.
  induction inputs as [ | l inputs IH]; cbn [existsb In]; [intuition | ].
  destruct l as [ | x l]; cbn [length Nat.eqb orb]; [intuition | ]. rewrite IH. intuition discriminate.
Qed.

Lemma mem_hands : forall P c inputs r, check_options c (length inputs) = Ok tt -> ~ In [] inputs ->
  In (mc_type c) registered ->
  (forall rank, rank < length inputs ->
     on_run P c (length inputs) (fun k => nth k inputs []) rank = Ok (if Nat.eqb rank (mc_receiver c) then r else [])) ->
  exists out, mem_psi P c inputs = Ok out /\ handed (mc_broadcast c) (mc_receiver c) r out (length inputs).
Proof.
  intros P c inputs r C NE RG H. unfold mem_psi. rewrite C. cbn [bind]. apply no_empty in NE. rewrite NE.
  assert (R : existsb (N.eqb (mc_type c)) registered = true).
  { apply existsb_exists. exists (mc_type c). split; [exact RG | apply N.eqb_refl]. }
  rewrite R. cbn [enforce]. apply base_hands; [ | exact H]. now apply check_ok in C.
Qed.

Lemma common_all : forall inputs x, common (length inputs) (fun k => nth k inputs []) x <-> in_all inputs x.
Proof.
  intros inputs x. unfold common, in_all. split.
  - intros H l Hl. destruct (In_nth inputs l [] Hl) as (i & Li & <-). now apply H.
  - intros H r Hr. apply H, nth_In, Hr.
Qed.

(** KKRT between two parties. *)
Lemma pick_spec : forall items idx, (forall i, In i idx -> i < length items) ->
  pick_items items idx = Ok (map (fun i => nth i items []) idx).
Proof.
  intros items idx H. unfold pick_items. apply map_out_Ok. intros i Hi. rewrite (nth_error_nth' items []) by (now apply H). reflexivity.
Qed.

Lemma NoDup_pick : forall (items : list bytes) idx, NoDup items -> NoDup idx -> (forall i, In i idx -> i < length items) ->
  NoDup (map (fun i => nth i items []) idx).
Proof.
  intros items idx NI. induction idx as [ | i idx IH]; intros ND H; cbn [map]; constructor.
  - intros I. apply in_map_iff in I. destruct I as (j & E & J). inversion ND as [ | ? ? NJ _]; subst. apply NJ.
    rewrite <- (proj1 (NoDup_nth items []) NI j i (H j (or_intror J)) (H i (or_introl eq_refl)) E). exact J.
  - inversion ND; subst. apply IH; auto. intros j Hj. apply H. now right.
Qed.

Lemma kkrt_picks : forall blake e rin sin,
  kkrt_good blake e (map (fun x => (x, 1%N)) rin) (map (fun x => (x, 1%N)) sin) ->
  NoDup rin -> NoDup sin -> rin <> [] -> sin <> [] ->
  exists fuel0, (forall fuel, fuel0 <= fuel -> mem_kkrt blake e fuel rin sin = Throw) \/
    exists idx r, (forall fuel, fuel0 <= fuel -> mem_kkrt blake e fuel rin sin = Ok idx) /\
      pick_items rin idx = Ok r /\ NoDup r /\ forall x, In x r <-> In x rin /\ In x sin.
Proof.
  intros blake e rin sin G NR NS ER ES.
  assert (D : forall l, NoDup l -> distinct (map (fun x : bytes => (x, 1%N)) l)).
  { intros l H. unfold distinct. rewrite map_map. cbn [fst]. now rewrite map_id. }
  assert (ER' : map (fun x : bytes => (x, 1%N)) rin <> []) by (destruct rin; [congruence | discriminate]).
  assert (ES' : map (fun x : bytes => (x, 1%N)) sin <> []) by (destruct sin; [congruence | discriminate]).
  destruct (kkrt_two_exact blake (fun _ => e) 0 _ _ G (D _ NR) (D _ NS) ER' ES') as (f0 & [T | (r & O & ND & IFF)]).
  - exists f0. left. intros fuel HF. unfold mem_kkrt. now rewrite (T fuel HF).
  - exists f0. right. exists (map fst r), (map (fun i => nth i rin []) (map fst r)).
    assert (IX : forall i, In i (map fst r) <-> exists x, nth_error rin i = Some x /\ In x sin).
    { intros i. rewrite in_map_iff. split.
      - intros ([i' c] & E & I). cbn in E. subst i'. apply IFF in I. destruct I as (x & d & n & N1 & I & _).
        exists x. rewrite nth_error_map in N1. destruct (nth_error rin i) as [y | ]; [ | discriminate N1]. cbn in N1.
        injection N1 as <- <-. split; [reflexivity | ]. apply in_map_iff in I. destruct I as (z & E & I). now injection E as <- <-.
      - intros (x & N1 & I). exists (i, kkrt_cnt 1%N). split; [reflexivity | ]. apply IFF. exists x, 1%N, 1%N.
        split; [rewrite nth_error_map, N1; reflexivity | ]. split; [ | reflexivity].
        apply in_map_iff. exists x. auto. }
    assert (LT : forall i, In i (map fst r) -> i < length rin).
    { intros i Hi. apply IX in Hi. destruct Hi as (x & N1 & _). apply nth_error_Some. congruence. }
    split; [intros fuel HF; unfold mem_kkrt; now rewrite (O fuel HF) | ].
    split; [now apply pick_spec | ]. split; [now apply NoDup_pick | ].
    intros x. rewrite in_map_iff. split.
    + intros (i & E & I). apply IX in I. destruct I as (y & N1 & I). cbv beta in E. rewrite (nth_error_nth rin i [] N1) in E. subst y.
      split; [eapply nth_error_In; exact N1 | exact I].
    + intros [I J]. apply In_nth_error in I. destruct I as (i & N1). exists i. split; [now apply nth_error_nth | ].
      apply IX. exists x. auto.
Qed.

Lemma nth_error_ext' : forall {A : Type} (l k : list A), length l = length k ->
  (forall i x y, nth_error l i = Some x -> nth_error k i = Some y -> x = y) -> l = k.
Proof.
  induction l as [ | x l IH]; intros [ | y k] L H; try discriminate L; [reflexivity | ].
  f_equal; [exact (H 0 x y eq_refl eq_refl) | ]. apply IH; [now injection L | ]. intros i. exact (H (S i)).
Qed.
