(** Lemmas about FilterFileByIndices and the legacy bucket run. *)
From Coq Require Import List NArith ZArith Arith Bool Lia Sorting.Sorted Sorting.Permutation.
From Verif Require Import Base BaseProofs Text StoreModel LegacyModel LegacySpec.
Import ListNotations.

Section F.
Context {A : Type}.

Definition hit_at (it : list N) (k : nat) : bool := match it with i :: _ => N.eqb i (N.of_nat k) | [] => false end.
(** indices left over after the data lines *)
Fixpoint consume (it : list N) (k : nat) (data : list A) : list N :=
  match data with [] => it | _ :: r => consume (if hit_at it k then tl it else it) (S k) r end.
Definition good (k n : nat) (it : list N) : Prop :=
  StronglySorted N.lt it /\ Forall (fun i => (N.of_nat k <= i < N.of_nat (k + n))%N) it.
Definition pickk (want : bool) (it : list N) (k : nat) (data : list A) : list A :=
  map snd (filter (fun p => Bool.eqb (existsb (N.eqb (N.of_nat (fst p))) it) want) (number k data)).

Lemma consume_len : forall data it k, length (consume it k data) <= length it.
Proof.
  induction data as [|x r IH]; intros it k; cbn [consume]; [lia|].
  eapply Nat.le_trans; [apply IH|]. destruct (hit_at it k); [|lia]. destruct it; cbn; lia.
Qed.
Lemma consume_nil : forall data k, consume [] k data = [].
Proof. induction data as [|x r IH]; intros k; [reflexivity|]. cbn [consume hit_at]. apply IH. Qed.

Lemma good_nil : forall data it k, consume it k data = [] <-> good k (length data) it.
Proof.
  induction data as [|x r IH]; intros it k.
  - cbn [consume length]. split.
    + intros ->. split; constructor.
    + intros [_ F]. destruct it as [|i t]; [reflexivity|]. apply Forall_cons_iff in F. lia.
  - cbn [consume length]. rewrite IH. destruct it as [|i t].
    + cbn [hit_at]. split; intros _; split; constructor.
    + cbn [hit_at tl]. destruct (N.eqb_spec i (N.of_nat k)) as [->|Hne]; split; intros [S F].
      * split.
        -- constructor; [exact S|]. revert F. apply Forall_impl. intros; lia.
        -- constructor; [lia|]. revert F. apply Forall_impl. intros; lia.
      * apply StronglySorted_inv in S. destruct S as [S1 S2]. apply Forall_cons_iff in F. destruct F as [_ F].
        split; [exact S1|]. rewrite Forall_forall in *. intros j Ij. specialize (S2 j Ij). specialize (F j Ij). lia.
      * split; [exact S|]. revert F. apply Forall_impl. intros; lia.
      * split; [exact S|]. apply StronglySorted_inv in S. destruct S as [_ S2].
        rewrite Forall_forall in *. intros j [<-|Ij].
        -- specialize (F i (or_introl eq_refl)). lia.
        -- pose proof (F j (or_intror Ij)). specialize (F i (or_introl eq_refl)). specialize (S2 j Ij). lia.
Qed.

Lemma number_ge : forall (l : list A) k p, In p (number k l) -> k <= fst p.
Proof.
  induction l as [|x r IH]; intros k p I; [destruct I|]. destruct I as [<-|I]; [reflexivity|]. specialize (IH _ _ I). lia.
Qed.
Lemma filter_ext_in' : forall (B : Type) (f g : B -> bool) l, (forall x, In x l -> f x = g x) -> filter f l = filter g l.
Proof.
  intros B f g. induction l as [|x r IH]; intros H; [reflexivity|]. cbn [filter].
  rewrite (H x (or_introl eq_refl)), IH by (intros; apply H; right; assumption). reflexivity.
Qed.
Lemma pickk_step : forall want it k x r, good k (S (length r)) it ->
  pickk want it k (x :: r) =
  (if Bool.eqb (hit_at it k) want then [x] else []) ++ pickk want (if hit_at it k then tl it else it) (S k) r.
Proof.
  intros want it k x r [S F]. unfold pickk. cbn [number filter fst].
  assert (E : existsb (N.eqb (N.of_nat k)) it = hit_at it k).
  { destruct it as [|i t]; [reflexivity|]. cbn [existsb hit_at]. rewrite N.eqb_sym.
    destruct (N.eqb_spec i (N.of_nat k)); [reflexivity|]. cbn [orb].
    apply StronglySorted_inv in S. destruct S as [_ S2]. apply Forall_cons_iff in F. destruct F as [F1 _].
    apply not_true_is_false. intros H. apply existsb_exists in H. destruct H as (j & Ij & Ej).
    apply N.eqb_eq in Ej. rewrite Forall_forall in S2. specialize (S2 j Ij). lia. }
  rewrite E.
  assert (R : filter (fun p => Bool.eqb (existsb (N.eqb (N.of_nat (fst p))) it) want) (number (Datatypes.S k) r) =
              filter (fun p => Bool.eqb (existsb (N.eqb (N.of_nat (fst p))) (if hit_at it k then tl it else it)) want) (number (Datatypes.S k) r)).
  { apply filter_ext_in'. intros p Ip. apply number_ge in Ip. destruct (hit_at it k) eqn:H; [|reflexivity].
    destruct it as [|i t]; [discriminate|]. cbn [hit_at] in H. apply N.eqb_eq in H. subst i. cbn [tl existsb].
    destruct (N.eqb_spec (N.of_nat (fst p)) (N.of_nat k)); [lia|]. reflexivity. }
  rewrite R. destruct (Bool.eqb (hit_at it k) want); reflexivity.
Qed.

(** The loop on data lines. *)
Lemma loop_spec : forall diff hdr data k it out cnt,
  exists out' idx', filter_loop diff hdr data (hdr + k) it out cnt =
    (out', idx', (cnt + (if diff then N.of_nat (length data) - N.of_nat (length it - length (consume it k data))
                         else N.of_nat (length it - length (consume it k data))))%N) /\
    (diff = true -> idx' = hdr + k + length data) /\
    length it - length (consume it k data) <= length data /\
    (consume it k data = [] -> out' = out ++ pickk (negb diff) it k data).
Proof.
  intros diff hdr data. induction data as [|x r IH]; intros k it out cnt.
  - cbn [filter_loop consume length]. exists out, (hdr + k). rewrite Nat.sub_diag.
    repeat split; try lia.
    + f_equal. destruct diff; cbn; lia.
    + intros ->. unfold pickk. cbn. rewrite app_nil_r. reflexivity.
  - cbn [filter_loop]. destruct (Nat.ltb_spec (hdr + k) hdr) as [X|_]; [lia|].
    replace (hdr + k - hdr) with k by lia.
    change (match it with i :: _ => N.eqb i (N.of_nat k) | [] => false end) with (hit_at it k).
    destruct (negb diff && match it with [] => true | _ :: _ => false end) eqn:B.
    + apply andb_true_iff in B. destruct B as [B1 B2]. destruct diff; [discriminate|]. destruct it; [|discriminate].
      exists out, (hdr + k). rewrite consume_nil. cbn [length Nat.sub]. repeat split; try lia; try discriminate.
      * f_equal. lia.
      * intros _. unfold pickk. cbn [negb].
        assert (E : filter (fun p : nat * A => Bool.eqb (existsb (N.eqb (N.of_nat (fst p))) []) true) (number k (x :: r)) = [])
          by (induction (number k (x :: r)) as [|? ? IHn]; [reflexivity|exact IHn]).
        rewrite E. cbn. rewrite app_nil_r. reflexivity.
    + cbn [consume]. set (it' := if hit_at it k then tl it else it).
      assert (L : length it' = if hit_at it k then length it - 1 else length it)
        by (unfold it'; destruct (hit_at it k); [destruct it; cbn; lia|reflexivity]).
      assert (LH : hit_at it k = true -> 1 <= length it) by (destruct it; [discriminate|cbn; lia]).
      pose proof (consume_len r it' (S k)) as CL.
      set (o2 := if xorb (hit_at it k) diff then out ++ [x] else out).
      set (c2 := if xorb (hit_at it k) diff then (cnt + 1)%N else cnt).
      destruct (IH (S k) it' o2 c2) as (out' & idx' & E & H1 & H2 & H3).
      replace (hdr + S k) with (S (hdr + k)) in E by lia.
      exists out', idx'. split; [|split; [|split]].
      * unfold o2, c2 in E. destruct (hit_at it k), diff; cbn [xorb] in E |- *; rewrite E; f_equal; cbn [length] in *; lia.
      * intros D. rewrite (H1 D). cbn [length]. lia.
      * cbn [length]. destruct (hit_at it k); [specialize (LH eq_refl)|]; lia.
      * intros C. rewrite (H3 C). apply good_nil in C.
        assert (G : good k (S (length r)) it).
        { apply (good_nil (x :: r)). cbn [consume]. apply good_nil. exact C. }
        rewrite (pickk_step (negb diff) it k x r G). fold it'. unfold o2.
        destruct (hit_at it k), diff; cbn [xorb negb Bool.eqb]; rewrite <- ?app_assoc; reflexivity.
Qed.

Lemma loop_header : forall diff hdr (ls data : list A) idx it out cnt, idx + length ls = hdr ->
  filter_loop diff hdr (ls ++ data) idx it out cnt = filter_loop diff hdr data hdr it (out ++ ls) cnt.
Proof.
  intros diff hdr ls. induction ls as [|l r IH]; intros data idx it out cnt H; cbn [length] in H.
  - cbn [app]. rewrite app_nil_r. f_equal. lia.
  - cbn [app filter_loop]. destruct (Nat.ltb_spec idx hdr); [|lia]. rewrite IH by lia. rewrite <- app_assoc. reflexivity.
Qed.

Lemma sub64_eq : forall n c m, (n < max64)%N -> (m < max64)%N -> (c <= n)%N -> (c <= m)%N ->
  (n - c = sub64 n m)%N <-> c = m.
Proof.
  intros n c m Hn Hm Hc Hc'. unfold sub64, max64 in *. split.
  - intros H. apply (f_equal Z.of_N) in H. rewrite Z2N.id in H by (apply Z.mod_pos_bound; lia).
    rewrite N2Z.inj_sub in H by lia.
    assert (D : ((Z.of_N m - Z.of_N c) mod 18446744073709551616 = 0)%Z).
    { replace (Z.of_N m - Z.of_N c)%Z with ((Z.of_N n - Z.of_N c) - (Z.of_N n - Z.of_N m))%Z by lia.
      rewrite Zminus_mod. change (Z.of_N 18446744073709551616) with 18446744073709551616%Z in H. rewrite <- H.
      rewrite Z.mod_small with (a := (Z.of_N n - Z.of_N c)%Z) by lia. rewrite Z.sub_diag. reflexivity. }
    rewrite Z.mod_small in D by lia. lia.
  - intros ->. rewrite Z.mod_small by lia. lia.
Qed.
Lemma sub64_small : forall a b, (b <= a)%N -> (a < max64)%N -> sub64 a b = (a - b)%N.
Proof. intros a b H1 H2. unfold sub64, max64 in *. rewrite Z.mod_small by lia. lia. Qed.

Lemma filter_file_spec : forall diff (hs data : list A) ind,
  (N.of_nat (length hs + length data) < max64)%N -> (N.of_nat (length ind) < max64)%N ->
  (good 0 (length data) ind ->
     filter_file diff (length hs) (hs ++ data) ind = Ok (hs ++ pickk (negb diff) ind 0 data, N.of_nat (length ind))) /\
  (~ good 0 (length data) ind -> filter_file diff (length hs) (hs ++ data) ind = Throw).
Proof.
  intros diff hs data ind HB HI. unfold filter_file. rewrite loop_header by reflexivity. cbn [app].
  destruct (loop_spec diff (length hs) data 0 ind hs 0%N) as (out' & idx' & E & H1 & H2 & H3).
  rewrite Nat.add_0_r in E. rewrite E. pose proof (consume_len data ind 0) as CL.
  set (c := length ind - length (consume ind 0 data)) in *.
  assert (EQ : N.eqb (0 + (if diff then N.of_nat (length data) - N.of_nat c else N.of_nat c))
                 (if diff then sub64 (sub64 (N.of_nat idx') (N.of_nat (length hs))) (N.of_nat (length ind)) else N.of_nat (length ind))
               = Nat.eqb c (length ind)).
  { apply eq_true_iff_eq. rewrite N.eqb_eq, Nat.eqb_eq, N.add_0_l. destruct diff.
    - rewrite (H1 eq_refl). rewrite (sub64_small (N.of_nat _) (N.of_nat (length hs))) by lia.
      replace (N.of_nat (length hs + 0 + length data) - N.of_nat (length hs))%N with (N.of_nat (length data)) by lia.
      rewrite sub64_eq by lia. lia.
    - lia. }
  rewrite EQ. split; intros G.
  - apply good_nil in G. rewrite (H3 G). unfold c. rewrite G. cbn [length]. rewrite Nat.sub_0_r, Nat.eqb_refl. reflexivity.
  - destruct (Nat.eqb_spec c (length ind)) as [X|X]; [|reflexivity]. exfalso. apply G. apply good_nil.
    apply length_zero_iff_nil. destruct ind as [|i t]; [rewrite consume_nil; reflexivity|]. unfold c in X. cbn [length] in *. lia.
Qed.

(** The overload with an index file. *)
Definition cur_of (it : list N) : option N := match it with i :: _ => Some i | [] => None end.
Definition read_of (n : N) (it : list N) : N := (n - N.of_nat (length it) + match it with [] => 0 | _ => 1 end)%N.
Fixpoint left_over (diff : bool) (hdr : nat) (ls : list A) (idx : nat) (it : list N) : list N :=
  match ls with
  | [] => it
  | _ :: r =>
      if Nat.ltb idx hdr then left_over diff hdr r (S idx) it
      else if negb diff && match it with [] => true | _ => false end then it
      else left_over diff hdr r (S idx) (if hit_at it (idx - hdr) then tl it else it)
  end.
Lemma reader_same : forall diff hdr ls idx it n out cnt, (N.of_nat (length it) <= n)%N ->
  filter_loop_reader diff hdr ls idx (cur_of it) (tl it) (read_of n it) out cnt =
  (let '(o, i, c) := filter_loop diff hdr ls idx it out cnt in (o, i, c, read_of n (left_over diff hdr ls idx it))).
Proof.
  intros diff hdr ls. induction ls as [|l r IH]; intros idx it n out cnt H; [reflexivity|].
  cbn [filter_loop_reader filter_loop left_over]. destruct (Nat.ltb idx hdr); [apply IH; exact H|].
  assert (C : match cur_of it with None => true | _ => false end = match it with [] => true | _ => false end) by (destruct it; reflexivity).
  rewrite C. destruct (negb diff && _); [reflexivity|].
  assert (HT : match cur_of it with Some i => N.eqb i (N.of_nat (idx - hdr)) | None => false end = hit_at it (idx - hdr)) by (destruct it; reflexivity).
  rewrite HT. change (match it with i :: _ => N.eqb i (N.of_nat (idx - hdr)) | [] => false end) with (hit_at it (idx - hdr)).
  destruct (hit_at it (idx - hdr)) eqn:E.
  - destruct it as [|i t]; [discriminate|]. cbn [tl cur_of length] in *.
    assert (R : (match t with i0 :: t0 => (Some i0, t0, (read_of n (i :: t) + 1)%N) | [] => (None, [], read_of n (i :: t)) end)
                = (cur_of t, tl t, read_of n t)).
    { destruct t as [|j t]; cbn [cur_of tl]; f_equal; unfold read_of; cbn [length] in *; lia. }
    rewrite R. destruct (xorb true diff); apply IH; lia.
  - destruct (xorb false diff); apply IH; exact H.
Qed.
Lemma left_over_consume : forall diff hdr data k it, left_over diff hdr data (hdr + k) it = consume it k data.
Proof.
  intros diff hdr data. induction data as [|x r IH]; intros k it; [reflexivity|]. cbn [left_over consume].
  destruct (Nat.ltb_spec (hdr + k) hdr); [lia|]. replace (hdr + k - hdr) with k by lia.
  destruct (negb diff && _) eqn:B.
  - apply andb_true_iff in B. destruct B as [_ B]. destruct it; [|discriminate]. cbn [hit_at]. rewrite consume_nil. reflexivity.
  - replace (S (hdr + k)) with (hdr + S k) by lia. apply IH.
Qed.
Lemma left_over_header : forall diff hdr (ls data : list A) idx it, idx + length ls = hdr ->
  left_over diff hdr (ls ++ data) idx it = left_over diff hdr data hdr it.
Proof.
  intros diff hdr ls. induction ls as [|l r IH]; intros data idx it H; cbn [length] in H; cbn [app left_over].
  - f_equal. lia.
  - destruct (Nat.ltb_spec idx hdr); [|lia]. apply IH. lia.
Qed.

Lemma filter_reader_spec : forall diff (hs data : list A) ind,
  (N.of_nat (length hs + length data) < max64)%N -> (N.of_nat (length ind) < max64)%N ->
  filter_file_reader diff (length hs) (hs ++ data) ind = filter_file diff (length hs) (hs ++ data) ind.
Proof.
  intros diff hs data ind HB HI. unfold filter_file_reader, filter_file.
  assert (S0 : match ind with i :: t => (Some i, t, 1%N) | [] => (None, [], 0%N) end = (cur_of ind, tl ind, read_of (N.of_nat (length ind)) ind)).
  { destruct ind as [|i t]; unfold read_of; cbn [cur_of tl length]; f_equal; lia. }
  rewrite S0, reader_same by lia.
  rewrite left_over_header by reflexivity.
  assert (LO : left_over diff (length hs) data (length hs) ind = consume ind 0 data)
    by (rewrite <- (left_over_consume diff (length hs) data 0 ind); f_equal; lia).
  rewrite LO. rewrite loop_header by reflexivity. cbn [app].
  destruct (loop_spec diff (length hs) data 0 ind hs 0%N) as (out' & idx' & E & H1 & H2 & H3).
  rewrite Nat.add_0_r in E. rewrite E. pose proof (consume_len data ind 0) as CL.
  destruct (consume ind 0 data) as [|i t] eqn:C.
  - unfold read_of. cbn [length]. rewrite N.sub_0_r, N.add_0_r. reflexivity.
  - set (c := length ind - length (i :: t)) in *.
    assert (R : read_of (N.of_nat (length ind)) (i :: t) = (N.of_nat c + 1)%N) by (unfold read_of, c; lia).
    rewrite R.
    assert (W : forall x y : N, x <> y -> N.eqb x y = false) by (intros; apply N.eqb_neq; assumption).
    destruct diff.
    + rewrite (H1 eq_refl). rewrite (sub64_small (N.of_nat _) (N.of_nat (length hs))) by lia.
      replace (N.of_nat (length hs + 0 + length data) - N.of_nat (length hs))%N with (N.of_nat (length data)) by lia.
      cbn [length] in *. rewrite !W; [reflexivity| |]; rewrite N.add_0_l; intros X; apply sub64_eq in X; unfold c in *; lia.
    + cbn [length] in *. rewrite !W; [reflexivity| |]; lia.
Qed.
End F.
