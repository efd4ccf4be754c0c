From Coq Require Import List NArith Arith Bool Permutation Lia.
From Verif Require Import Base Text StoreModel GroupDbModel RcvModel RcvSpec.
Import ListNotations.
Local Open Scope N_scope.

(** * The translation table *)
Lemma itt_find loc : forall hs i m t, apart loc hs ->
  assoc t (make_itt loc i hs m) =
  match find (fun k => match nth_error hs k with Some h => (loc h =? t) | None => false end) (rev (seq 0 (length hs))) with
  | Some k => Some (i + k)%nat
  | None => assoc t m
  end.
Proof.
  induction hs as [|h hs IH]; intros i m t A; [reflexivity|]. cbn [make_itt]. rewrite IH by (intros a b X Y; apply A; now right).
  cbn [length]. change (S (length hs)) with (1 + length hs)%nat. rewrite seq_app. cbn [seq]. rewrite Nat.add_0_l.
  rewrite rev_app_distr. cbn [rev app]. rewrite <- seq_shift, <- map_rev.
  assert (F : forall l, find (fun k => match nth_error (h :: hs) k with Some h0 => loc h0 =? t | None => false end) (map S l ++ [0%nat]) =
    match find (fun k => match nth_error hs k with Some h0 => loc h0 =? t | None => false end) l with
    | Some k => Some (S k) | None => if loc h =? t then Some 0%nat else None end).
  { induction l as [|k l IHl]; cbn [map app find nth_error]; [reflexivity|]. destruct (nth_error hs k) as [x|]; [|exact IHl]. now destruct (loc x =? t). }
  rewrite F. destruct (find _ _) as [k|]; [f_equal; lia|]. cbn [assoc]. destruct (loc h =? t); [f_equal; lia|reflexivity].
Qed.

(** Item [i] is the one reported for its place. *)
Definition last_at (hs : list N) (i : nat) : Prop :=
  exists h, nth_error hs i = Some h /\ ~ In h (skipn (S i) hs).
Lemma find_max f n k : find f (rev (seq 0 n)) = Some k -> (k < n)%nat /\ f k = true /\ forall j, (k < j < n)%nat -> f j = false.
Proof.
  induction n as [|n IH]; [discriminate|]. rewrite seq_S, rev_app_distr. cbn [rev app find Nat.add]. destruct (f n) eqn:E.
  - intros H. injection H as <-. split; [lia|]. split; [exact E|]. intros j Hj. lia.
  - intros H. destruct (IH H) as (A & B & C). split; [lia|]. split; [exact B|]. intros j Hj. destruct (Nat.eq_dec j n) as [->|]; [exact E|apply C; lia].
Qed.
Lemma find_none f n : find f (rev (seq 0 n)) = None -> forall j, (j < n)%nat -> f j = false.
Proof. intros H j Hj. apply (find_none f _ H). rewrite <- in_rev. apply in_seq. lia. Qed.
Lemma skipn_In {A} (l : list A) : forall n x, In x (skipn n l) <-> exists j, (n <= j)%nat /\ nth_error l j = Some x.
Proof.
  intros n x. split.
  - intros H. apply In_nth_error in H. destruct H as [j H]. exists (n + j)%nat. split; [lia|].
    revert l H. induction n as [|n IH]; intros l H; [exact H|]. destruct l as [|a l]; [destruct j; discriminate|]. exact (IH l H).
  - intros (j & L & H). revert n j L H. induction l as [|a l IH]; intros n j L H; [destruct j; discriminate|].
    destruct n as [|n]; [apply (nth_error_In _ j H)|]. destruct j as [|j]; [lia|]. exact (IH n j ltac:(lia) H).
Qed.
Lemma itt_spec loc hs t i : apart loc hs ->
  assoc t (make_itt loc 0 hs []) = Some i <-> last_at hs i /\ exists h, nth_error hs i = Some h /\ loc h = t.
Proof.
  intros A. rewrite itt_find by exact A. set (f := fun k => _). split.
  - destruct (find f _) as [k|] eqn:E; [|discriminate]. intros H. injection H as <-. apply find_max in E. destruct E as (K & F & M).
    unfold f in F. destruct (nth_error hs k) as [h|] eqn:E; [|discriminate]. apply N.eqb_eq in F. cbn [Nat.add]. split; [|exists h; auto].
    exists h. split; [exact E|]. intros I. apply skipn_In in I. destruct I as (j & J & I). assert (j < length hs)%nat by (apply nth_error_Some; congruence).
    specialize (M j ltac:(lia)). unfold f in M. rewrite I in M. apply N.eqb_neq in M. contradiction.
  - intros [(h & E & L) (h' & E' & T)]. rewrite E in E'. injection E' as <-. assert (Ki : (i < length hs)%nat) by (apply nth_error_Some; congruence).
    destruct (find f _) as [k|] eqn:F.
    + apply find_max in F. destruct F as (K & F & M). f_equal. cbn [Nat.add]. unfold f in F. destruct (nth_error hs k) as [x|] eqn:X; [|discriminate].
      apply N.eqb_eq in F. assert (x = h) by (apply A; [apply (nth_error_In _ _ X)|apply (nth_error_In _ _ E)|congruence]). subst x.
      destruct (Nat.lt_trichotomy k i) as [C|[C|C]]; [|exact C|].
      * specialize (M i ltac:(lia)). unfold f in M. rewrite E, T, N.eqb_refl in M. discriminate.
      * exfalso. apply L. apply skipn_In. exists k. split; [lia|exact X].
    + pose proof (find_none _ _ F i Ki) as X. unfold f in X. rewrite E, T, N.eqb_refl in X. discriminate.
Qed.

(** * Packages *)
Section Itt.
Variable itt : list (N * nat).
Variable n : nat.
Hypothesis itt_lt : forall t i, assoc t itt = Some i -> (i < n)%nat.
Hypothesis itt_dec : forall i, (exists t, assoc t itt = Some i) \/ (forall t, assoc t itt <> Some i).
Hypothesis itt_inj : forall t t' i, assoc t itt = Some i -> assoc t' itt = Some i -> t = t'.

Lemma upd_nth {A} (x d : A) : forall l i j, (i < length l)%nat -> nth j (upd i (fun _ => x) l) d = if Nat.eqb j i then x else nth j l d.
Proof. induction l as [|a l IH]; intros i j L; [cbn in L; lia|]. destruct i as [|i], j as [|j]; cbn; try reflexivity. apply IH. cbn in L. lia. Qed.
Lemma upd_len {A} (f : A -> A) : forall l i, length (upd i f l) = length l.
Proof. induction l as [|a l IH]; intros [|i]; cbn; auto. Qed.

Lemma scan_ok : forall places t mrs, length mrs = n ->
  (forall i t0, assoc t0 itt = Some i -> t <= t0 -> nth i mrs None = None) ->
  exists mrs', scan itt t places mrs = Ok mrs' /\ length mrs' = n /\
    (forall i t0, assoc t0 itt = Some i ->
       nth i mrs' None = if t <=? t0 then match nth (N.to_nat (t0 - t)) places None with Some l => Some l | None => nth i mrs None end else nth i mrs None) /\
    (forall i, (forall t0, assoc t0 itt <> Some i) -> nth i mrs' None = nth i mrs None).
Proof.
  induction places as [|r places IH]; intros t mrs L F.
  { exists mrs. repeat split; [exact L|]. intros i t0 _. destruct (t <=? t0), (N.to_nat (t0 - t)); reflexivity. }
  assert (Skip : forall mrs1, length mrs1 = n -> (forall i t0, assoc t0 itt = Some i -> t + 1 <= t0 -> nth i mrs1 None = None) ->
     (forall i t0, assoc t0 itt = Some i -> nth i mrs1 None = if t0 =? t then match r with Some l => Some l | None => nth i mrs None end else nth i mrs None) ->
     (forall i, (forall t0, assoc t0 itt <> Some i) -> nth i mrs1 None = nth i mrs None) ->
     exists mrs', scan itt (t + 1) places mrs1 = Ok mrs' /\ length mrs' = n /\
    (forall i t0, assoc t0 itt = Some i ->
       nth i mrs' None = if t <=? t0 then match nth (N.to_nat (t0 - t)) (r :: places) None with Some l => Some l | None => nth i mrs None end else nth i mrs None) /\
    (forall i, (forall t0, assoc t0 itt <> Some i) -> nth i mrs' None = nth i mrs None)).
  { intros mrs1 L1 F1 V1 U1. destruct (IH (t + 1) mrs1 L1 F1) as (mrs' & E & L' & V & U). exists mrs'. split; [exact E|]. split; [exact L'|]. split.
    - intros i t0 A. rewrite (V i t0 A), (V1 i t0 A). destruct (N.leb_spec (t + 1) t0) as [C|C].
      + replace (t0 =? t) with false by (symmetry; apply N.eqb_neq; lia). replace (t <=? t0) with true by (symmetry; apply N.leb_le; lia).
        replace (N.to_nat (t0 - t)) with (S (N.to_nat (t0 - (t + 1)))) by lia. reflexivity.
      + destruct (N.eqb_spec t0 t) as [->|D].
        * replace (t <=? t) with true by (symmetry; apply N.leb_le; lia). rewrite N.sub_diag. reflexivity.
        * replace (t <=? t0) with false by (symmetry; apply N.leb_gt; lia). reflexivity.
    - intros i A. rewrite (U i A). now apply U1. }
  cbn [scan]. destruct r as [l|].
  - destruct (assoc t itt) as [i|] eqn:E.
    + pose proof (itt_lt _ _ E) as I. pose proof (F i t E ltac:(lia)) as Fi.
      rewrite (nth_error_nth' mrs None) by lia. rewrite Fi. apply Skip.
      * now rewrite upd_len.
      * intros j t0 A B. rewrite upd_nth by lia. destruct (Nat.eqb_spec j i) as [->|D]; [|apply (F j t0 A); lia].
        exfalso. pose proof (itt_inj _ _ _ A E). lia.
      * intros j t0 A. rewrite upd_nth by lia. destruct (Nat.eqb_spec j i) as [->|D].
        -- rewrite (itt_inj _ _ _ A E), N.eqb_refl. reflexivity.
        -- destruct (N.eqb_spec t0 t) as [->|]; [congruence|reflexivity].
      * intros j A. rewrite upd_nth by lia. destruct (Nat.eqb_spec j i) as [->|D]; [now specialize (A t)|reflexivity].
    + apply Skip; [exact L| | |reflexivity].
      * intros j t0 A B. apply (F j t0 A). lia.
      * intros j t0 A. destruct (N.eqb_spec t0 t) as [->|]; [congruence|reflexivity].
  - apply Skip; [exact L| | |reflexivity].
    + intros j t0 A B. apply (F j t0 A). lia.
    + intros j t0 A. now destruct (t0 =? t).
Qed.

Lemma merge_ok : forall mrs this, length this = length mrs ->
  (forall i, nth i mrs None = None \/ nth i this None = None) ->
  exists r, merge mrs this = Ok r /\ length r = length mrs /\
    forall i, nth i r None = match nth i this None with Some l => Some l | None => nth i mrs None end.
Proof.
  induction mrs as [|m mrs IH]; intros [|t this] L D; try discriminate.
  - exists []. repeat split. intros [|i]; reflexivity.
  - destruct (IH this ltac:(cbn in L; lia) (fun i => D (S i))) as (r & E & Lr & V). specialize (D 0%nat). cbn in D. cbn [merge]. rewrite E. cbn [bind].
    destruct t as [l|].
    + destruct m as [x|]; [destruct D; discriminate|]. exists (Some l :: r). split; [reflexivity|]. split; [cbn; lia|]. intros [|i]; [reflexivity|apply V].
    + exists (m :: r). destruct m; (split; [reflexivity|]; split; [cbn; lia|]; intros [|i]; [reflexivity|apply V]).
Qed.

Lemma process_ok per : forall ps mrs, length mrs = n -> (0 < n)%nat ->
  (forall i t, assoc t itt = Some i -> (length (to_list (nth i mrs None) ++ shown per t ps) <= 1)%nat) ->
  (forall i, (forall t, assoc t itt <> Some i) -> nth i mrs None = None) ->
  exists mrs', process per itt n ps mrs = Ok mrs' /\ length mrs' = n /\
    (forall i t, assoc t itt = Some i -> to_list (nth i mrs' None) = to_list (nth i mrs None) ++ shown per t ps) /\
    (forall i, (forall t, assoc t itt <> Some i) -> nth i mrs' None = None).
Proof.
  induction ps as [|p ps IH]; intros mrs L N0 H Z.
  { exists mrs. split; [reflexivity|]. split; [exact L|]. split; [|exact Z]. intros i t _. cbn. now rewrite app_nil_r. }
  cbn [process]. destruct p as [p|].
  - cbn [process_part].
    assert (R0 : forall i, nth i (repeat (@None (option bytes)) n) None = None).
    { intros i. destruct (Nat.lt_ge_cases i n) as [C|C]; [now apply nth_repeat|apply nth_overflow; rewrite repeat_length; lia]. }
    destruct (scan_ok (pk_places p) (pk_bundle p * per) (repeat None n) (repeat_length _ _) (fun i _ _ _ => R0 i)) as (this & E & Lt & V & U).
    rewrite E. cbn [bind]. replace (Nat.eqb (length this) (length mrs)) with true by (symmetry; apply Nat.eqb_eq; lia).
    assert (P : forall i t, assoc t itt = Some i -> to_list (nth i this None) = place_in per t p).
    { intros i t A. rewrite (V i t A). unfold place_in. rewrite R0. destruct (pk_bundle p * per <=? t); [|reflexivity]. now destruct (nth _ _ _). }
    assert (D : forall i, nth i mrs None = None \/ nth i this None = None).
    { intros i. destruct (nth i this None) as [l|] eqn:T; [|now right]. left.
      destruct (itt_dec i) as [[t A]|A]; [|now apply Z].
      pose proof (H i _ A) as Hh. cbn [shown flat_map] in Hh. rewrite <- (P i _ A), T in Hh. destruct (nth i mrs None); [cbn in Hh; lia|reflexivity]. }
    destruct (merge_ok mrs this (eq_trans Lt (eq_sym L)) D) as (r & Em & Lr & Vr). rewrite Em. cbn [bind].
    assert (R : forall i t, assoc t itt = Some i -> to_list (nth i r None) = to_list (nth i mrs None) ++ place_in per t p).
    { intros i t A. rewrite <- (P i t A), Vr. destruct (D i) as [D1|D1]; rewrite D1; [destruct (nth i this None); reflexivity|cbn [to_list]; now rewrite app_nil_r]. }
    destruct (IH r (eq_trans Lr L) N0) as (mrs' & E' & L' & V' & U').
    + intros i t A. rewrite (R i t A), <- app_assoc. exact (H i t A).
    + intros i A. rewrite Vr, (Z i A), (U i A), R0. reflexivity.
    + exists mrs'. split; [exact E'|]. split; [exact L'|]. split; [|exact U'].
      intros i t A. rewrite (V' i t A), (R i t A), <- app_assoc. reflexivity.
  - cbn [process_part bind length]. destruct (Nat.eqb_spec 0 (length mrs)) as [C|C]; [lia|].
    exact (IH mrs L N0 H Z).
Qed.

Lemma merge_cases : forall mrs this, length this = length mrs ->
  merge mrs this = Throw \/ (forall i, nth i mrs None = None \/ nth i this None = None).
Proof.
  induction mrs as [|m mrs IH]; intros [|t this] L; try discriminate.
  - right. intros [|i]; now left.
  - destruct (IH this ltac:(cbn in L; lia)) as [E|D].
    + left. cbn [merge]. rewrite E. now destruct t, m.
    + destruct t as [l|]; [destruct m as [x|]|]; [now left| |]; right; intros [|i]; cbn; auto.
Qed.
(** A run that ends has shown no more than one match for any item. *)
Lemma process_cases per : forall ps mrs, length mrs = n ->
  process per itt n ps mrs = Throw \/
  exists mrs', process per itt n ps mrs = Ok mrs' /\
    forall i t, assoc t itt = Some i -> to_list (nth i mrs' None) = to_list (nth i mrs None) ++ shown per t ps.
Proof.
  induction ps as [|p ps IH]; intros mrs L.
  { right. exists mrs. split; [reflexivity|]. intros i t _. cbn. now rewrite app_nil_r. }
  cbn [process]. destruct p as [p|].
  - cbn [process_part].
    assert (R0 : forall i, nth i (repeat (@None (option bytes)) n) None = None).
    { intros i. destruct (Nat.lt_ge_cases i n) as [C|C]; [now apply nth_repeat|apply nth_overflow; rewrite repeat_length; lia]. }
    destruct (scan_ok (pk_places p) (pk_bundle p * per) (repeat None n) (repeat_length _ _) (fun i _ _ _ => R0 i)) as (this & E & Lt & V & U).
    rewrite E. cbn [bind]. replace (Nat.eqb (length this) (length mrs)) with true by (symmetry; apply Nat.eqb_eq; lia).
    assert (P : forall i t, assoc t itt = Some i -> to_list (nth i this None) = place_in per t p).
    { intros i t A. rewrite (V i t A). unfold place_in. rewrite R0. destruct (pk_bundle p * per <=? t); [|reflexivity]. now destruct (nth _ _ _). }
    destruct (merge_cases mrs this (eq_trans Lt (eq_sym L))) as [M|D]; [left; now rewrite M|].
    destruct (merge_ok mrs this (eq_trans Lt (eq_sym L)) D) as (r & Em & Lr & Vr). rewrite Em. cbn [bind].
    destruct (IH r (eq_trans Lr L)) as [T|(mrs' & E' & V')]; [now left|]. right. exists mrs'. split; [exact E'|].
    intros i t A. rewrite (V' i t A). cbn [shown flat_map]. rewrite <- (P i t A), Vr, app_assoc. f_equal.
    destruct (D i) as [D1|D1]; rewrite D1; [destruct (nth i this None); reflexivity|cbn [to_list]; now rewrite app_nil_r].
  - cbn [process_part bind length]. destruct (Nat.eqb_spec 0 (length mrs)) as [C|C].
    + destruct mrs; [|discriminate]. cbn [merge bind]. exact (IH [] L).
    + exact (IH mrs L).
Qed.
End Itt.

Lemma last_dec hs i : last_at hs i \/ ~ last_at hs i.
Proof.
  unfold last_at. destruct (nth_error hs i) as [h|] eqn:E; [|right; intros (h & X & _); discriminate].
  destruct (in_dec N.eq_dec h (skipn (S i) hs)) as [I|I]; [right|left; now exists h].
  intros (h' & X & Y). injection X as <-. contradiction.
Qed.
Lemma expected_nth db : forall hs i h, nth_error hs i = Some h ->
  (last_at hs i -> nth i (expected db hs) None = db h) /\ (~ last_at hs i -> nth i (expected db hs) None = None).
Proof.
  induction hs as [|a hs IH]; intros [|i] h E; try discriminate; cbn [nth_error] in E.
  - injection E as ->. unfold last_at. cbn [nth_error skipn expected nth]. destruct (in_dec N.eq_dec h hs) as [I|I]; split; intros X; try reflexivity.
    + destruct X as (y & Y & Z). injection Y as <-. contradiction.
    + exfalso. apply X. now exists h.
  - exact (IH i h E).
Qed.
Lemma expected_length db hs : length (expected db hs) = length hs.
Proof. induction hs; cbn; auto. Qed.

Theorem process_honest per db loc hs ps : apart loc hs -> honest per db loc hs ps -> hs <> [] ->
  process per (make_itt loc 0 hs []) (length hs) ps (repeat None (length hs)) = Ok (expected db hs).
Proof.
  intros A Hn N0. set (itt := make_itt loc 0 hs []).
  assert (S : forall t i, assoc t itt = Some i <-> last_at hs i /\ exists h, nth_error hs i = Some h /\ loc h = t) by (intros; now apply itt_spec).
  assert (D : forall i, (exists t, assoc t itt = Some i) \/ (forall t, assoc t itt <> Some i)).
  { intros i. destruct (last_dec hs i) as [L|L].
    - left. destruct L as (h & E & L). exists (loc h). apply S. split; [now exists h|now exists h].
    - right. intros t X. apply S in X. tauto. }
  assert (R0 : forall i, nth i (repeat (@None (option bytes)) (length hs)) None = None).
  { intros i. destruct (Nat.lt_ge_cases i (length hs)) as [C|C]; [now apply nth_repeat|apply nth_overflow; rewrite repeat_length; lia]. }
  assert (T : forall i t, assoc t itt = Some i -> exists h, nth_error hs i = Some h /\ shown per t ps = to_list (db h)).
  { intros i t X. apply S in X. destruct X as (_ & h & E & <-). exists h. split; [exact E|]. apply Hn. apply (nth_error_In _ _ E). }
  destruct (process_ok itt (length hs)) with (per := per) (ps := ps) (mrs := repeat (@None (option bytes)) (length hs)) as (mrs & E & L & V & U).
  - intros t i X. apply S in X. destruct X as (_ & h & X & _). apply nth_error_Some. congruence.
  - exact D.
  - intros t t' i X Y. apply S in X. apply S in Y. destruct X as (_ & h & X & <-). destruct Y as (_ & h' & Y & <-). congruence.
  - apply repeat_length.
  - destruct hs; [congruence|cbn; lia].
  - intros i t X. rewrite R0. destruct (T i t X) as (h & _ & ->). destruct (db h); cbn; lia.
  - intros i _. apply R0.
  - rewrite E. f_equal. apply nth_ext with (d := None) (d' := None); [now rewrite expected_length|]. intros i Li.
    destruct (nth_error hs i) as [h|] eqn:Eh; [|apply nth_error_None in Eh; lia]. destruct (expected_nth db hs i h Eh) as [X Y].
    destruct (last_dec hs i) as [La|La].
    + rewrite (X La). assert (At : assoc (loc h) itt = Some i) by (apply S; split; [exact La|now exists h]).
      specialize (V i _ At). rewrite R0 in V. destruct (T i _ At) as (h' & Eh' & Sh). rewrite Sh in V. rewrite Eh in Eh'. injection Eh' as <-.
      destruct (nth i mrs None), (db h); cbn in V; congruence.
    + rewrite (Y La). apply U. intros t Z. apply S in Z. tauto.
Qed.

Theorem process_twice per loc hs h ps : apart loc hs -> In h hs -> (2 <= length (shown per (loc h) ps))%nat ->
  process per (make_itt loc 0 hs []) (length hs) ps (repeat None (length hs)) = Throw.
Proof.
  intros A I T. set (itt := make_itt loc 0 hs []).
  assert (S : forall t i, assoc t itt = Some i <-> last_at hs i /\ exists h, nth_error hs i = Some h /\ loc h = t) by (intros; now apply itt_spec).
  destruct (process_cases itt (length hs)) with (per := per) (ps := ps) (mrs := repeat (@None (option bytes)) (length hs)) as [E|(mrs & E & V)].
  - intros t i X. apply S in X. destruct X as (_ & x & X & _). apply nth_error_Some. congruence.
  - intros t t' i X Y. apply S in X. apply S in Y. destruct X as (_ & x & X & <-). destruct Y as (_ & y & Y & <-). congruence.
  - apply repeat_length.
  - exact E.
  - exfalso. assert (X : exists i, last_at hs i /\ nth_error hs i = Some h).
    { clear - I. induction hs as [|a hs IH]; [destruct I|]. destruct (in_dec N.eq_dec h hs) as [J|J].
      - destruct (IH J) as (i & (x & X & Y) & Z). exists (Datatypes.S i). split; [exists x; now split|exact Z].
      - destruct I as [->|I]; [|contradiction]. exists 0%nat. split; [exists h; now split|reflexivity]. }
    destruct X as (i & La & Eh). assert (At : assoc (loc h) itt = Some i) by (apply S; split; [exact La|now exists h]).
    specialize (V i _ At). apply (f_equal (@length _)) in V. rewrite app_length in V. destruct (nth i mrs None); cbn [to_list length] in V; lia.
Qed.

(** * The output *)
Lemma print_rows_ok show : forall keys inter header rows cnt, length inter = length keys ->
  print_rows show keys inter header rows cnt =
  Ok (header ++ concat (repeat head_value (labels (combine keys inter))), rows ++ lines show (combine keys inter), (cnt + matches (combine keys inter))%nat).
Proof.
  unfold labels, matches, lines. induction keys as [|k keys IH]; intros [|r inter] header rows cnt L; try discriminate.
  - cbn. now rewrite !app_nil_r, Nat.add_0_r.
  - cbn [print_rows combine filter map snd fst found labelled line concat]. destruct r as [[l|]|]; rewrite IH by (cbn in L; lia).
    + cbn [found labelled length repeat concat line]. rewrite <- !app_assoc. apply f_equal, f_equal2; [reflexivity|lia].
    + cbn [found labelled length line]. rewrite <- !app_assoc. apply f_equal, f_equal2; [reflexivity|lia].
    + reflexivity.
Qed.
Lemma stream_ok show : forall keys inter ks vs, length inter = length keys ->
  stream_results show keys inter ks vs =
  Ok (ks ++ map fst (filter (fun kr => found (snd kr)) (combine keys inter)),
      vs ++ flat_map (fun kr => match snd kr with Some (Some l) => [show l] | _ => [] end) (combine keys inter)).
Proof.
  induction keys as [|k keys IH]; intros [|r inter] ks vs L; try discriminate.
  - cbn. now rewrite !app_nil_r.
  - cbn [stream_results combine filter snd flat_map found]. destruct r as [[l|]|]; rewrite IH by (cbn in L; lia).
    + cbn [found map fst app]. rewrite <- !app_assoc. reflexivity.
    + cbn [found map fst app]. rewrite <- !app_assoc. reflexivity.
    + reflexivity.
Qed.

Lemma ask_ok cuckoo per hd keys oprf reply : faithful cuckoo per hd (keys, oprf, reply) ->
  ask cuckoo per keys oprf reply = Ok (expected (snd hd) (map (fst hd) keys)).
Proof.
  intros (K & -> & loc & C & A & Hn). unfold ask, extract_hashes. rewrite map_length, Nat.eqb_refl, C. apply process_honest; [exact A|exact Hn|].
  destruct keys; [congruence|discriminate].
Qed.
Lemma expected_map_length (hd : (bytes -> N) * (N -> record)) keys : length (expected (snd hd) (map (fst hd) keys)) = length keys.
Proof. now rewrite expected_length, map_length. Qed.
Lemma print_ok show keys inter append file : length inter = length keys ->
  print_results show keys inter append file =
  Ok (if append then file ++ lines show (combine keys inter) else head_of (combine keys inter) ++ [10] ++ lines show (combine keys inter), matches (combine keys inter)).
Proof. intros L. unfold print_results. rewrite print_rows_ok by exact L. cbn [bind app]. reflexivity. Qed.

Lemma lines_none show r : matches r = 0%nat -> lines show r = [].
Proof.
  unfold matches, lines. induction r as [|[k v] r IH]; [reflexivity|]. cbn [filter snd map concat fst]. destruct v as [x|]; [discriminate|]. cbn [found line]. exact IH.
Qed.

Lemma cli_append show cuckoo per : forall hds bs file total, Forall2 (faithful cuckoo per) hds bs ->
  run_cli cuckoo show per bs true file total =
  Ok (file ++ concat (map (lines show) (reports hds bs)), (total + list_sum (map matches (reports hds bs)))%nat).
Proof.
  intros hds bs file total F. revert file total. induction F as [|hd b hds bs H F IH]; intros file total.
  - cbn. now rewrite app_nil_r, Nat.add_0_r.
  - destruct b as [[keys oprf] reply]. cbn [run_cli]. rewrite (ask_ok _ _ _ _ _ _ H). cbn [bind]. rewrite print_ok by apply expected_map_length.
    cbn [bind orb fst snd]. rewrite IH. cbn [reports map concat]. unfold report. cbn [fst]. rewrite <- app_assoc.
    unfold list_sum. cbn [fold_right]. apply f_equal, f_equal2; [reflexivity|]. lia.
Qed.
Lemma cli_ok show cuckoo per hds bs file total : Forall2 (faithful cuckoo per) hds bs -> bs <> [] ->
  run_cli cuckoo show per bs false file total =
  Ok (head_of (head_bucket (reports hds bs)) ++ [10] ++ concat (map (lines show) (reports hds bs)), (total + list_sum (map matches (reports hds bs)))%nat).
Proof.
  intros F. revert file total. induction F as [|hd b hds bs H F IH]; intros file total N0; [congruence|].
  destruct b as [[keys oprf] reply]. cbn [run_cli]. rewrite (ask_ok _ _ _ _ _ _ H). cbn [bind]. rewrite print_ok by apply expected_map_length.
  cbn [bind orb fst snd]. cbn [reports]. set (r := combine keys _). change (report hd (keys, oprf, reply)) with r.
  destruct (Nat.ltb_spec 0 (matches r)) as [M|M].
  - rewrite (cli_append show cuckoo per hds bs _ _ F).
    replace (head_bucket (r :: reports hds bs)) with r by (cbn [head_bucket]; destruct (Nat.eqb_spec (matches r) 0); [lia|now destruct (reports hds bs)]).
    cbn [map concat]. unfold list_sum. cbn [fold_right]. rewrite <- !app_assoc. apply f_equal, f_equal2; [reflexivity|]. lia.
  - destruct bs as [|b bs].
    + inversion F; subst. cbn [run_cli reports head_bucket map concat]. rewrite app_nil_r. unfold list_sum. cbn [fold_right]. apply f_equal, f_equal2; [reflexivity|lia].
    + rewrite IH by discriminate. assert (M0 : matches r = 0%nat) by lia.
      destruct hds as [|hd' hds]; [inversion F|]. cbn [reports map concat head_bucket]. rewrite M0, (lines_none show r M0). cbn [Nat.eqb app].
      unfold list_sum. cbn [fold_right]. apply f_equal, f_equal2; [reflexivity|]. lia.
Qed.
Lemma api_append show cuckoo per : forall hds bs file counts, Forall2 (faithful cuckoo per) hds bs ->
  run_api cuckoo show per bs true file counts =
  Ok (file ++ concat (map (lines show) (reports hds bs)), counts ++ map matches (reports hds bs)).
Proof.
  intros hds bs file counts F. revert file counts. induction F as [|hd b hds bs H F IH]; intros file counts.
  - cbn. now rewrite !app_nil_r.
  - destruct b as [[keys oprf] reply]. cbn [run_api]. rewrite (ask_ok _ _ _ _ _ _ H). cbn [bind]. rewrite print_ok by apply expected_map_length.
    cbn [bind fst snd]. rewrite IH. cbn [reports map concat]. unfold report. cbn [fst]. rewrite <- !app_assoc. reflexivity.
Qed.
Lemma api_ok show cuckoo per hd hds b bs file : Forall2 (faithful cuckoo per) (hd :: hds) (b :: bs) ->
  run_api cuckoo show per (b :: bs) false file [] =
  Ok (head_of (report hd b) ++ [10] ++ concat (map (lines show) (reports (hd :: hds) (b :: bs))), map matches (reports (hd :: hds) (b :: bs))).
Proof.
  intros F. inversion F as [|? ? ? ? H F']; subst. destruct b as [[keys oprf] reply]. cbn [run_api]. rewrite (ask_ok _ _ _ _ _ _ H). cbn [bind].
  rewrite print_ok by apply expected_map_length. cbn [bind fst snd]. rewrite (api_append show cuckoo per hds bs _ _ F').
  cbn [reports map concat]. unfold report. cbn [fst]. rewrite <- !app_assoc. reflexivity.
Qed.
Lemma run_stream_ok show cuckoo per : forall hds bs ks vs, Forall2 (faithful cuckoo per) hds bs ->
  run_stream cuckoo show per bs ks vs =
  Ok (ks ++ map fst (filter (fun kr => found (snd kr)) (concat (reports hds bs))),
      vs ++ flat_map (fun kr => match snd kr with Some (Some l) => [show l] | _ => [] end) (concat (reports hds bs))).
Proof.
  intros hds bs ks vs F. revert ks vs. induction F as [|hd b hds bs H F IH]; intros ks vs.
  - cbn. now rewrite !app_nil_r.
  - destruct b as [[keys oprf] reply]. cbn [run_stream]. rewrite (ask_ok _ _ _ _ _ _ H). cbn [bind]. rewrite stream_ok by apply expected_map_length.
    cbn [bind fst snd]. rewrite IH. cbn [reports concat]. unfold report. cbn [fst]. rewrite filter_app, map_app, flat_map_app, <- !app_assoc. reflexivity.
Qed.

Lemma scan_nil : forall places t mrs, scan [] t places mrs = Ok mrs.
Proof. induction places as [|[l|] places IH]; intros t mrs; cbn [scan assoc]; auto. Qed.
Lemma process_nil per ps : process per [] 0 ps [] = Ok [].
Proof.
  induction ps as [|[p|] ps IH]; [reflexivity| |]; cbn [process process_part].
  - cbn [repeat]. rewrite scan_nil. cbn [bind length Nat.eqb merge]. exact IH.
  - cbn [bind length Nat.eqb merge]. exact IH.
Qed.
Lemma short_reply cuckoo show per keys oprf reply bs append file total loc :
  keys <> [] -> cuckoo [] = Some loc -> match oprf with Some hs => length hs <> length keys | None => True end ->
  run_cli cuckoo show per ((keys, oprf, reply) :: bs) append file total = UB.
Proof.
  intros K C O. cbn [run_cli]. unfold ask. replace (extract_hashes (length keys) oprf) with (@nil N).
  - rewrite C. cbn [make_itt length repeat]. rewrite process_nil. cbn [bind]. unfold print_results. destruct keys as [|k keys]; [congruence|]. reflexivity.
  - destruct oprf as [hs|]; [|reflexivity]. cbn [extract_hashes]. destruct (Nat.eqb_spec (length hs) (length keys)); [contradiction|reflexivity].
Qed.

Lemma expected_nodup db : forall hs, NoDup hs -> expected db hs = map db hs.
Proof. induction hs as [|h hs IH]; intros N0; [reflexivity|]. inversion N0; subst. cbn. destruct (in_dec N.eq_dec h hs); [contradiction|]. now rewrite IH. Qed.
Lemma expected_sound db hs i r : nth_error (expected db hs) i = Some (Some r) -> exists h, nth_error hs i = Some h /\ db h = Some r.
Proof.
  revert i. induction hs as [|h hs IH]; intros [|i] E; try discriminate; cbn in E.
  - destruct (in_dec N.eq_dec h hs); [discriminate|]. exists h. split; [reflexivity|congruence].
  - exact (IH i E).
Qed.
Lemma expected_once db h r : forall hs, In h hs -> db h = Some r ->
  exists i, nth_error hs i = Some h /\ nth_error (expected db hs) i = Some (Some r) /\
    forall j x, nth_error hs j = Some h -> nth_error (expected db hs) j = Some (Some x) -> j = i.
Proof.
  induction hs as [|a hs IH]; intros I D; [destruct I|]. destruct (in_dec N.eq_dec h hs) as [J|J].
  - destruct (IH J D) as (i & A & B & U). exists (S i). split; [exact A|]. split; [exact B|]. intros [|j] x X Y; cbn in X, Y.
    + injection X as ->. destruct (in_dec N.eq_dec h hs); [discriminate|contradiction].
    + f_equal. exact (U j x X Y).
  - destruct I as [->|I]; [|contradiction]. exists 0%nat. split; [reflexivity|]. split; [cbn; destruct (in_dec N.eq_dec h hs); [contradiction|congruence]|].
    intros [|j] x X Y; [reflexivity|]. exfalso. apply J. cbn [nth_error] in X. apply (nth_error_In _ _ X).
Qed.
Lemma shown_perm per t ps ps' : Permutation ps ps' -> Permutation (shown per t ps) (shown per t ps').
Proof. intros P. unfold shown. now apply Permutation_flat_map. Qed.
Lemma honest_perm per db loc hs ps ps' : Permutation ps ps' -> honest per db loc hs ps -> honest per db loc hs ps'.
Proof.
  intros P Hn h I. specialize (Hn h I). apply (shown_perm per (loc h)) in P. rewrite Hn in P. destruct (db h) as [x|]; cbn [to_list] in *.
  - now apply Permutation_length_1_inv in P.
  - now apply Permutation_nil in P.
Qed.
