(** Theorems about sorting through the shell, the check of a CSV file and the number of processors. *)
From Coq Require Import List NArith ZArith Bool Lia Permutation Sorted.
From Verif Require Import Base BaseProofs Text TextProofs DigestModel DigestProofs ShellModel ShellSpec.
Import ListNotations.
Local Open Scope N_scope.

Lemma plain_words : forall p, plain_path p -> words p = [p] /\ existsb special p = false /\ option_word p = false.
Proof.
  intros p (NE & D & F). split; [|split].
  - unfold words. rewrite split_on_nosep; [|intros H; rewrite Forall_forall in F; destruct (F _ H) as (X & _); apply X; reflexivity].
    cbn [filter]. destruct (beqb p []) eqn:E; [apply beqb_spec in E; contradiction|reflexivity].
  - clear -F. induction F as [|c p' (_ & H) _ IH]; [reflexivity|]. cbn [existsb]. rewrite H. exact IH.
  - destruct p as [|c p]; [reflexivity|]. apply N.eqb_neq. exact D.
Qed.

Lemma drop_cons : forall x y l, drop_last_empty (x :: y :: l) = x :: drop_last_empty (y :: l).
Proof.
  intros x y l. unfold drop_last_empty. change (rev (x :: y :: l)) with (rev (y :: l) ++ [x]).
  destruct (rev (y :: l)) as [|z r] eqn:E.
  - exfalso. apply (f_equal (@length _)) in E. rewrite rev_length in E. discriminate E.
  - cbn [app]. destruct z as [|c z]; [apply rev_unit|].
    apply (f_equal (@rev _)) in E. rewrite rev_involutive in E. rewrite E. reflexivity.
Qed.
Lemma skip_lines : forall c, lines (skip_line c) = tl (lines c).
Proof.
  intros c. unfold lines.
  assert (G : (exists x, split_on newline c = [x] /\ skip_line c = []) \/ exists x, split_on newline c = x :: split_on newline (skip_line c)).
  { induction c as [|a c IH]; [left; exists []; split; reflexivity|]. cbn [split_on skip_line]. destruct (a =? newline) eqn:A.
    - right. exists []. reflexivity.
    - destruct IH as [(x & E & K) | (x & E)]; rewrite E; [left; exists (a :: x); auto|right; exists (a :: x); reflexivity]. }
  destruct G as [(x & E & ->) | (x & E)]; rewrite E.
  - destruct x; reflexivity.
  - destruct (split_on newline (skip_line c)) as [|y l] eqn:F; [exfalso; revert F; apply split_on_ne|]. rewrite drop_cons. reflexivity.
Qed.

(** With plain paths the sorted file has the header and exactly the rows of the input, sorted. *)
Theorem C103_sorted : forall (before : bytes -> bytes -> Prop) sorted files inp out c, plain_path inp -> plain_path out -> files inp = Some c ->
  (forall l, Permutation l (sorted l) /\ Sorted before (sorted l)) ->
  exists rows, multi_key_sort sorted files inp out = Ok (unlines (hd [] (lines c) :: rows)) /\ Permutation (tl (lines c)) rows /\ Sorted before rows.
Proof.
  intros before sorted files inp out c Pi Po Hc Hs. exists (sorted (lines (skip_line c))). split; [|rewrite <- skip_lines; apply Hs].
  unfold multi_key_sort. rewrite Hc. destruct (plain_words inp Pi) as (-> & -> & Oi). destruct (plain_words out Po) as (-> & -> & _).
  cbn [orb app existsb]. rewrite Oi. cbn [orb sort_input tail_output bind]. unfold tail_one. rewrite Hc, (proj2 (beqb_spec out out) eq_refl).
  unfold unlines. cbn [flat_map]. reflexivity.
Qed.
Theorem C103_no_input : forall sorted files inp out, files inp = None -> multi_key_sort sorted files inp out = Throw.
Proof. intros sorted files inp out H. unfold multi_key_sort. rewrite H. reflexivity. Qed.
(** A blank in the path of the input: the run goes on with an empty table, whatever the file holds. *)
Theorem C103_blank_refuted : exists inp, forall sorted files out c, sorted [] = [] -> plain_path out -> files inp = Some c ->
  (forall w, In w (words inp) -> files w = None) -> multi_key_sort sorted files inp out = Ok (hd [] (lines c) ++ [newline]).
Proof.
  exists [97; 32; 98]. intros sorted files out c Hs Po Hc Hw. unfold multi_key_sort. rewrite Hc.
  destruct (plain_words out Po) as (-> & -> & _). change (existsb special [97; 32; 98]) with false.
  change (words [97; 32; 98]) with [[97]; [98]] in *. cbn [orb app existsb option_word]. change (97 =? 45) with false. change (98 =? 45) with false. cbn [orb sort_input tail_output bind flat_map].
  unfold tail_named. rewrite (Hw [97]), (Hw [98]) by (cbn; auto). cbn [app].
  rewrite (proj2 (beqb_spec out out) eq_refl). change (lines []) with (@nil bytes). rewrite Hs. cbn [unlines flat_map]. rewrite app_nil_r. reflexivity.
Qed.
(** A blank in the path of the output: the run fails, unless files of the other words' names are there. *)
Theorem C103_blank_output : forall sorted files inp out c target w rest, plain_path inp -> files inp = Some c ->
  existsb special out = false -> words out = target :: w :: rest -> existsb option_word (w :: rest) = false ->
  (exists v, In v (w :: rest) /\ files v = None) ->
  multi_key_sort sorted files inp out = Throw.
Proof.
  intros sorted files inp out c target w rest Pi Hc So Wo Ow (v & Hv & Fv). unfold multi_key_sort. rewrite Hc.
  destruct (plain_words inp Pi) as (-> & -> & Oi). rewrite So, Wo. cbn [orb].
  rewrite existsb_app, Ow. cbn [existsb]. rewrite Oi. cbn [orb]. unfold sort_input.
  destruct (forallb _ (w :: rest)) eqn:E; [|reflexivity].
  rewrite forallb_forall in E. specialize (E v Hv). rewrite Fv in E. discriminate E.
Qed.

(** Sorting a result in place: its path must not have a blank. *)
Theorem C103_inplace : forall (before : bytes -> bytes -> Prop) sorted files p c, plain_path p -> files p = Some c ->
  (forall l, Permutation l (sorted l) /\ Sorted before (sorted l)) ->
  exists rows, multi_key_sort sorted files p (p ++ sorted_suffix) = Ok (unlines (hd [] (lines c) :: rows)) /\ Permutation (tl (lines c)) rows /\ Sorted before rows.
Proof.
  intros before sorted files p c P Hc Hs. apply C103_sorted; try assumption. destruct P as (NE & D & F). split; [|split].
  - intros X. apply app_eq_nil in X. destruct X as (X & _). contradiction.
  - destruct p as [|x p]; [contradiction|exact D].
  - apply Forall_app. split; [exact F|]. repeat constructor; discriminate.
Qed.
Theorem C103_inplace_refuted : exists p, forall sorted files c, files p = Some c ->
  (forall w, In w (words (p ++ sorted_suffix)) -> files w = None) -> multi_key_sort sorted files p (p ++ sorted_suffix) = Throw.
Proof.
  exists [97; 32; 98]. intros sorted files c Hc Hw. unfold multi_key_sort. rewrite Hc.
  change (existsb special [97; 32; 98] || existsb special ([97; 32; 98] ++ sorted_suffix)) with false.
  change (words [97; 32; 98]) with [[97]; [98]].
  change (words ([97; 32; 98] ++ sorted_suffix)) with [[97]; 98 :: sorted_suffix] in *.
  change (existsb option_word ([[97]; [98]] ++ [98 :: sorted_suffix])) with false.
  cbn [sort_input forallb]. rewrite (Hw (98 :: sorted_suffix)) by (cbn; auto). reflexivity.
Qed.

Lemma uniq_d_nil : forall l, uniq_d l = [] <-> forall i x y, nth_error l i = Some x -> nth_error l (S i) = Some y -> x <> y.
Proof.
  induction l as [|x l IH]; [split; [intros _ [|i] ? ? H; discriminate H|reflexivity]|].
  destruct l as [|y r].
  - split; [intros _ [|[|i]] a b _ H; discriminate H|reflexivity].
  - change (uniq_d (x :: y :: r)) with
      (if beqb x y then match uniq_d (y :: r) with z :: _ => if beqb z x then uniq_d (y :: r) else x :: uniq_d (y :: r) | [] => [x] end
       else uniq_d (y :: r)).
    destruct (beqb x y) eqn:E.
    + split.
      * destruct (uniq_d (y :: r)) as [|z t]; [discriminate|]. destruct (beqb z x); discriminate.
      * intros H. apply beqb_spec in E. exfalso. exact (H 0%nat x y eq_refl eq_refl E).
    + rewrite IH. split.
      * intros H [|i] a b Ha Hb; [|exact (H i a b Ha Hb)]. cbn in Ha, Hb. injection Ha as <-. injection Hb as <-.
        intros ->. rewrite (proj2 (beqb_spec y y) eq_refl) in E. discriminate E.
      * intros H i a b Ha Hb. exact (H (S i) a b Ha Hb).
Qed.
Lemma line_le_anti : forall a b, line_le a b -> line_le b a -> a = b.
Proof.
  induction a as [|x a IH]; intros [|y b] H1 H2; cbn in *; try contradiction; [reflexivity|].
  destruct H1 as [H1|(-> & H1)]; destruct H2 as [H2|(E & H2)]; try lia. f_equal. apply IH; assumption.
Qed.
Lemma sorted_nodup : forall l, StronglySorted line_le l -> (uniq_d l = [] <-> NoDup l).
Proof.
  intros l St. rewrite uniq_d_nil. induction St as [|x l St IH F].
  - split; [constructor|intros _ [|i] a b H; discriminate H].
  - split.
    + intros H. constructor.
      * intros HI. destruct l as [|y r]; [contradiction|].
        assert (x <> y) by exact (H 0%nat x y eq_refl eq_refl).
        destruct HI as [<- | HI]; [congruence|]. inversion St as [|? ? S' Fy]; subst.
        rewrite Forall_forall in F, Fy. apply H0. apply line_le_anti; [apply F; left; reflexivity|apply Fy; exact HI].
      * apply IH. intros i a b Ha Hb. exact (H (S i) a b Ha Hb).
    + intros N. inversion N as [|? ? NI N']; subst. intros [|i] a b Ha Hb.
      * cbn in Ha. injection Ha as <-. intros ->. apply NI. exact (nth_error_In l 0%nat Hb).
      * exact (proj2 IH N' i a b Ha Hb).
Qed.
Lemma uniq_sorted : forall f l, sorts f -> (uniq_d (f l) = [] <-> NoDup l).
Proof.
  intros f l H. destruct (H l) as (P & S). rewrite (sorted_nodup _ S). split; apply Permutation_NoDup; [symmetry; exact P|exact P].
Qed.

Lemma split_cat : forall k rest, split_on newline (k ++ newline :: rest) = split_on newline k ++ split_on newline rest.
Proof.
  induction k as [|c k IH]; intros rest; [reflexivity|]. cbn [app split_on]. destruct (c =? newline).
  - rewrite IH. reflexivity.
  - rewrite IH. pose proof (split_on_ne newline k) as NE. destruct (split_on newline k) as [|t ts]; [contradiction|reflexivity].
Qed.
Lemma lines_unlines : forall keys, lines (unlines keys) = flat_map (split_on newline) keys.
Proof.
  intros keys. unfold lines. assert (E : split_on newline (unlines keys) = flat_map (split_on newline) keys ++ [[]]).
  { induction keys as [|k keys IH]; [reflexivity|]. unfold unlines in *. cbn [flat_map]. rewrite <- app_assoc. cbn [app].
    rewrite split_cat, IH, app_assoc. reflexivity. }
  rewrite E. unfold drop_last_empty. rewrite rev_app_distr. cbn [rev app]. apply rev_involutive.
Qed.

Lemma bom_spec : forall t, has_bom t = true <-> starts_with_mark t.
Proof.
  unfold has_bom, starts_with_mark. intros t. split.
  - destruct t as [|a [|b [|c r]]]; try discriminate. intros H. apply andb_true_iff in H. destruct H as (H & C). apply andb_true_iff in H.
    destruct H as (A & B). apply N.eqb_eq in A, B, C. subst. eauto.
  - intros (r & ->). reflexivity.
Qed.
(** The check accepts a file exactly if it has no byte order mark, no empty selected cell and, unless
    it is skipped, no line twice among the joined keys; however the rows come in batches. *)
Theorem C103_check : forall sha f first batches skip r, sorts f ->
  (csv_check sha f first batches skip = Ok r <->
   ~ starts_with_mark first /\ (forall row cell, In row (concat batches) -> In cell row -> cell <> []) /\
   (skip = true \/ NoDup (flat_map (split_on newline) (map row_key (concat batches)))) /\
   r = (N.of_nat (length (concat batches)), sha (concat (map row_key (concat batches))))).
Proof.
  intros sha f first batches skip r Hs. unfold csv_check, enforce. rewrite lines_unlines.
  set (rows := concat batches). set (ls := flat_map (split_on newline) (map row_key rows)).
  assert (C : forallb (forallb (fun cell => negb (beqb cell []))) rows = true <-> forall row cell, In row rows -> In cell row -> cell <> []).
  { rewrite forallb_forall. split.
    - intros H row cell Hr Hc ->. specialize (H row Hr). rewrite forallb_forall in H. specialize (H [] Hc). discriminate H.
    - intros H row Hr. apply forallb_forall. intros cell Hc. destruct (beqb cell []) eqn:E; [|reflexivity].
      apply beqb_spec in E. exfalso. exact (H row cell Hr Hc E). }
  assert (U : match uniq_d (f ls) with [] => true | _ => false end = true <-> NoDup ls).
  { rewrite <- (uniq_sorted f ls Hs). destruct (uniq_d (f ls)); split; congruence. }
  pose proof (bom_spec first) as BS.
  destruct (has_bom first); cbn [negb]; [split; [discriminate|intros (X & _); exfalso; apply X; apply BS; reflexivity]|].
  assert (NB : ~ starts_with_mark first) by (intros X; apply BS in X; discriminate X).
  destruct (forallb _ rows).
  - destruct (skip || _) eqn:E.
    + split.
      * intros H. injection H as <-. split; [exact NB|]. split; [apply C; reflexivity|]. split; [|reflexivity].
        apply orb_true_iff in E. destruct E as [E | E]; [auto|right; apply U; exact E].
      * intros (_ & _ & _ & ->). reflexivity.
    + split; [discriminate|]. intros (_ & _ & X & _). exfalso. apply orb_false_iff in E. destruct E as (E1 & E2).
      destruct X as [X | X]; [congruence|]. apply U in X. congruence.
  - split; [discriminate|]. intros (_ & X & _). apply C in X. discriminate X.
Qed.
(** For cells without commas and line ends: exactly if no row occurs twice. *)
Theorem C103_check_rows : forall sha f first batches n, sorts f -> ~ starts_with_mark first ->
  (forall row, In row (concat batches) -> length row = S n) ->
  (forall row cell, In row (concat batches) -> In cell row -> cell <> [] /\ ~ In comma cell /\ ~ In newline cell) ->
  ((exists r, csv_check sha f first batches false = Ok r) <-> NoDup (concat batches)).
Proof.
  intros sha f first batches n Hs Hb Hl Hc. set (rows := concat batches) in *.
  assert (NL : forall row, In row rows -> ~ In newline (row_key row)).
  { intros row Hr HI. unfold row_key, keys_join in HI.
    assert (G : forall l, In newline (join_with comma l) -> exists c, In c l /\ In newline c).
    { induction l as [|x [|y l] IH]; cbn [join_with]; intros H; [contradiction|eexists; split; [left; reflexivity|exact H]|].
      apply in_app_or in H. destruct H as [H | [H | H]]; [exists x; split; [left; reflexivity|exact H]|discriminate H|].
      destruct (IH H) as (c & C1 & C2). exists c. split; [right; exact C1|exact C2]. }
    destruct (G row HI) as (c & C1 & C2). destruct (Hc row c Hr C1) as (_ & _ & X). contradiction. }
  assert (E : flat_map (split_on newline) (map row_key rows) = map row_key rows).
  { clear -NL. induction rows as [|x rows IH]; [reflexivity|]. cbn [map flat_map]. rewrite split_on_nosep by (apply NL; left; reflexivity).
    cbn [app]. f_equal. apply IH. intros row Hr. apply NL. right. exact Hr. }
  assert (J : forall a b, In a rows -> In b rows -> row_key a = row_key b -> a = b).
  { intros a b Ha Hb' K. unfold row_key, keys_join in K.
    assert (X : forall l, In l rows -> split_on comma (join_with comma l) = l).
    { intros l Hlr. apply split_join.
      - intros ->. specialize (Hl [] Hlr). discriminate Hl.
      - apply Forall_forall. intros c Hcc. apply (Hc l c Hlr Hcc). }
    rewrite <- (X a Ha), <- (X b Hb'), K. reflexivity. }
  assert (ND : NoDup (map row_key rows) <-> NoDup rows).
  { split; [apply NoDup_map_inv|]. intros N. clear -N J. induction N as [|x rows HI N IH]; cbn [map]; constructor.
    - intros X. apply in_map_iff in X. destruct X as (y & Ey & Hy). apply HI. replace x with y; [exact Hy|].
      apply J; [right; exact Hy|left; reflexivity|exact Ey].
    - apply IH. intros a b Ha Hb. apply J; right; assumption. }
  rewrite <- ND, <- E. split.
  - intros (r & H). apply (C103_check sha f first batches false r Hs) in H. destruct H as (_ & _ & [X | X] & _); [discriminate X|exact X].
  - intros H. eexists. apply (C103_check sha f first batches false _ Hs). split; [exact Hb|]. split; [|split; [right; exact H|reflexivity]].
    intros row cell Hr Hcc. apply (Hc row cell Hr Hcc).
Qed.

Lemma digits_of_all : forall s, forallb is_digit s = true -> digits_of s = s.
Proof. induction s as [|c s IH]; cbn; [reflexivity|]. intros H. apply andb_true_iff in H. destruct H as (-> & H). f_equal. auto. Qed.
Lemma stoi_dec : forall n, n < 2147483648 -> stoi (dec n) = Ok (Z.of_N n).
Proof.
  intros n H. destruct (dec_spec n) as (NE & D & V). unfold stoi. rewrite digits_of_all by exact D. rewrite V.
  destruct (dec n); [contradiction|]. destruct (N.ltb_spec n 2147483648); [reflexivity|lia].
Qed.
Lemma until_dash_digits : forall a s, forallb is_digit a = true -> until_dash (a ++ 45 :: s) = Some (a, s) /\ until_dash a = None.
Proof.
  induction a as [|c a IH]; intros s H; [split; reflexivity|]. cbn [forallb] in H. apply andb_true_iff in H. destruct H as (Hc & H).
  destruct (IH s H) as (E1 & E2). cbn [app until_dash]. unfold is_digit in Hc.
  destruct (N.eqb_spec c 45) as [->|_]; [discriminate Hc|]. rewrite E1, E2. split; reflexivity.
Qed.
Lemma parse_items_ok : forall l count, Forall good_range l -> parse_items (map range_text l) count = Ok (count + processors l)%Z.
Proof.
  induction l as [|[a b] l IH]; intros count F; [cbn; rewrite Z.add_0_r; reflexivity|].
  inversion F as [|? ? (H1 & H2) F']; subst. cbn [fst snd] in *. cbn [map parse_items].
  destruct (dec_spec a) as (NE & Da & _). assert (T : range_text (a, b) = if a =? b then dec a else dec a ++ 45 :: dec b) by reflexivity. rewrite T. clear T. 
  assert (P : (processors ((a, b) :: l) = Z.of_N (b - a + 1) + processors l)%Z) by reflexivity. rewrite P. clear P.
  destruct (N.eqb_spec a b) as [<-|Nab].
  - rewrite (proj2 (until_dash_digits (dec a) [] Da)). destruct (beqb (dec a) []) eqn:E; [apply beqb_spec in E; contradiction|].
    rewrite IH by exact F'. f_equal. lia.
  - rewrite (proj1 (until_dash_digits (dec a) (dec b) Da)). rewrite !stoi_dec by lia. cbn [bind]. rewrite IH by exact F'. f_equal. lia.
Qed.
(** The processors of a list of ranges are counted. *)
Theorem C103_cpuset : forall l, l <> [] -> Forall good_range l -> parse_cpuset (cpuset_text l) = Ok (processors l).
Proof.
  intros l NE F. unfold parse_cpuset, cpuset_text. rewrite split_join.
  - assert (D : drop_last_empty (map range_text l) = map range_text l).
    { unfold drop_last_empty. destruct (rev (map range_text l)) as [|[|c t] r] eqn:E; try reflexivity.
      exfalso. assert (HI : In [] (map range_text l)).
      { apply in_rev. match type of E with ?x = _ => change (In [] x) end. rewrite E. left. reflexivity. }
      apply in_map_iff in HI. destruct HI as ([a b] & Hx & _). unfold range_text in Hx. cbn [fst snd] in Hx.
      destruct (dec_spec a) as (Na & _). destruct (a =? b); [contradiction|]. destruct (dec a); [contradiction|discriminate Hx]. }
    rewrite D. rewrite parse_items_ok by exact F. f_equal.
  - intros X. apply map_eq_nil in X. contradiction.
  - apply Forall_forall. intros t Ht. apply in_map_iff in Ht. destruct Ht as ([a b] & <- & _). unfold range_text. cbn [fst snd].
    assert (G : forall n, ~ In comma (dec n)).
    { intros n HI. destruct (dec_spec n) as (_ & D & _). rewrite forallb_forall in D. specialize (D _ HI). discriminate D. }
    destruct (a =? b); [apply G|]. intros HI. apply in_app_or in HI. destruct HI as [HI | [HI | HI]]; [exact (G a HI)|discriminate HI|exact (G b HI)].
Qed.
(** With a quota of cgroup v1 and no set of processors: the fewest that cover the quota. *)
Theorem C103_quota : forall q p v2 hardware n, (0 < q)%Z -> (0 < p)%Z -> cpu_count None (Some (q, p)) v2 hardware = Ok n ->
  (n * p >= q /\ (n - 1) * p < q /\ 1 <= n)%Z.
Proof.
  intros q p v2 hardware n Hq Hp. unfold cpu_count. rewrite (proj2 (Z.ltb_lt 0 q) Hq), (proj2 (Z.ltb_lt 0 p) Hp). cbn [andb].
  intros H. injection H as <-. pose proof (Z.div_mod (q + p - 1) p ltac:(lia)) as D. pose proof (Z.mod_pos_bound (q + p - 1) p Hp) as B.
  set (d := ((q + p - 1) / p)%Z) in *.
  set (m := ((q + p - 1) mod p)%Z) in *. clearbody d m. assert (E : (d * p = q + p - 1 - m)%Z) by lia.
  assert (0 < d)%Z by (apply (Z.mul_pos_cancel_r d p); lia). rewrite Z.mul_sub_distr_r, E. lia.
Qed.
(** sort is never asked for less than one processor, given a good list of ranges and sound files. *)
Theorem C103_positive : forall cpuset v1 v2 hardware,
  match cpuset with Some s => s = [] \/ exists l, l <> [] /\ Forall good_range l /\ s = cpuset_text l | None => True end ->
  match v2 with Some (q, _) => (0 < q)%Z | None => True end -> (1 <= hardware)%Z ->
  exists n, cpu_count cpuset v1 v2 hardware = Ok n /\ (1 <= n)%Z.
Proof.
  intros cpuset v1 v2 hardware Hc H2 Hh. unfold cpu_count.
  set (rest := match match v1 with Some (q, p) => if (0 <? q)%Z && (0 <? p)%Z then Some ((q + p - 1) / p)%Z else None | None => None end with
               | Some n => n | None => match match v2 with Some (q, p) => if (0 <? p)%Z then Some (Z.quot (q + p - 1) p) else None | None => None end with
                                       | Some n => n | None => hardware end end).
  assert (R : (1 <= rest)%Z).
  { unfold rest. assert (B : (1 <= match match v2 with Some (q, p) => if (0 <? p)%Z then Some (Z.quot (q + p - 1) p) else None | None => None end with Some n => n | None => hardware end)%Z).
    { destruct v2 as [(q, p)|]; [|exact Hh]. destruct (Z.ltb_spec 0 p); [|exact Hh].
      rewrite Z.quot_div_nonneg by lia. apply Z.div_le_lower_bound; lia. }
    destruct v1 as [(q, p)|]; [|exact B]. destruct (Z.ltb_spec 0 q); [|exact B]. destruct (Z.ltb_spec 0 p); [|exact B].
    cbn [andb]. apply Z.div_le_lower_bound; lia. }
  clearbody rest. destruct cpuset as [s|]; [|eauto]. destruct (negb (beqb s []) && negb (beqb s [48])) eqn:E; [|eauto].
  destruct Hc as [-> | (l & NE & F & ->)]; [discriminate E|]. rewrite C103_cpuset by assumption. eexists. split; [reflexivity|].
  destruct l as [|(a, b) l]; [contradiction|]. unfold processors. cbn [map fold_right fst snd].
  assert (0 <= fold_right Z.add 0 (map (fun r : N * N => Z.of_N (snd r - fst r + 1)) l))%Z.
  { clear. induction l as [|r l IH]; cbn [map fold_right]; lia. }
  lia.
Qed.

(** /d/in.csv sorted into /t/o, the path "a b", a file with quotes around nothing, "0-3,5". *)
Fixpoint ex_le (a b : bytes) : bool :=
  match a, b with [], _ => true | _ :: _, [] => false | u :: a', v :: b' => (u <? v) || ((u =? v) && ex_le a' b') end.
Fixpoint ex_insert (x : bytes) (l : list bytes) : list bytes :=
  match l with [] => [x] | y :: r => if ex_le x y then x :: l else y :: ex_insert x r end.
Definition ex_sort (l : list bytes) : list bytes := fold_right ex_insert [] l.
Definition ex_files (p : bytes) : option bytes := if beqb p [105] || beqb p [97; 32; 98] then Some [104; 10; 51; 10; 49; 10; 50; 10] else None.
Example C103_example :
  plain_path [105] /\ plain_path [116; 47; 111] /\ ~ plain_path [97; 32; 98] /\
  multi_key_sort ex_sort ex_files [105] [116; 47; 111] = Ok [104; 10; 49; 10; 50; 10; 51; 10] /\
  multi_key_sort ex_sort ex_files [97; 32; 98] [116; 47; 111] = Ok [104; 10] /\
  multi_key_sort ex_sort ex_files [105] [116; 32; 111] = Throw /\
  multi_key_sort ex_sort ex_files [105] [116; 32; 105] = Ok [104; 10] /\
  csv_check (fun b => b) ex_sort [105; 100] [[[[49]; [50]]]; [[[49]; [51]]; [[48]; [50]]]] false = Ok (3, [49; 44; 50; 49; 44; 51; 48; 44; 50]) /\
  csv_check (fun b => b) ex_sort [105; 100] [[[[49]; [50]]]; [[[49]; [50]]]] false = Throw /\
  csv_check (fun b => b) ex_sort [105; 100] [[[[49]; [50]]]; [[[49]; [50]]]] true = Ok (2, [49; 44; 50; 49; 44; 50]) /\
  csv_check (fun b => b) ex_sort [105; 100] [[[[49; 10; 50]]; [[49]]]] false = Throw /\
  csv_check (fun b => b) ex_sort [239; 187; 191; 105] [] false = Throw /\
  parse_cpuset [48; 45; 51; 44; 53] = Ok 5%Z /\ cpuset_text [(0, 3); (5, 5)] = [48; 45; 51; 44; 53] /\
  cpu_count (Some [48]) (Some (250000, 100000))%Z None 64 = Ok 3%Z /\ cpu_count (Some [48; 45; 51]) (Some (250000, 100000))%Z None 64 = Ok 4%Z.
Proof.
  split. { split; [discriminate|split; [discriminate|repeat constructor; discriminate]]. }
  split. { split; [discriminate|split; [discriminate|repeat constructor; discriminate]]. }
  split. { intros (_ & _ & F). rewrite Forall_forall in F. destruct (F 32) as (X & _); [cbn; auto|]. apply X. reflexivity. }
  repeat split; vm_compute; reflexivity.
Qed.
(** Sorting by insertion is a sort in the sense of the theorems. *)
Lemma ex_insert_ok : forall x l, StronglySorted line_le l -> Permutation (x :: l) (ex_insert x l) /\ StronglySorted line_le (ex_insert x l).
Proof.
  assert (L : forall a b, ex_le a b = true -> line_le a b).
  { induction a as [|u a IH]; intros [|v b] H; cbn in *; try discriminate; [exact I|exact I|]. apply orb_true_iff in H.
    destruct H as [H | H]; [left; apply N.ltb_lt; exact H|]. apply andb_true_iff in H. destruct H as (E & H). apply N.eqb_eq in E. auto. }
  assert (G : forall a b, ex_le a b = false -> line_le b a).
  { induction a as [|u a IH]; intros [|v b] H; cbn in *; try discriminate; [exact I|]. apply orb_false_iff in H. destruct H as (H1 & H2).
    apply N.ltb_ge in H1. destruct (N.eqb_spec u v) as [->|Nq]; [right; split; [reflexivity|apply IH; exact H2]|left; lia]. }
  assert (T : forall a b c, line_le a b -> line_le b c -> line_le a c).
  { induction a as [|u a IH]; intros [|v b] [|w c] H1 H2; cbn in *; auto; try contradiction.
    destruct H1 as [H1|(-> & H1)]; destruct H2 as [H2|(-> & H2)]; try (left; lia). right. split; [reflexivity|eapply IH; eauto]. }
  intros x l S. induction S as [|y l S IH F]; cbn [ex_insert].
  - split; [reflexivity|repeat constructor].
  - destruct (ex_le x y) eqn:E.
    + split; [reflexivity|]. constructor; [constructor; assumption|]. constructor; [apply L; exact E|].
      eapply Forall_impl; [|exact F]. intros a Ha. eapply T; [apply L; exact E|exact Ha].
    + destruct IH as (P & S'). split; [rewrite <- P; apply perm_swap|]. constructor; [exact S'|].
      apply Forall_forall. intros z Hz. eapply Permutation_in in Hz; [|symmetry; exact P]. destruct Hz as [<- | Hz]; [apply G; exact E|].
      rewrite Forall_forall in F. apply F. exact Hz.
Qed.
Example C103_sort_example : sorts ex_sort.
Proof.
  intros l. induction l as [|x l (P & S)]; [split; [reflexivity|constructor]|]. cbn [ex_sort fold_right].
  destruct (ex_insert_ok x (ex_sort l) S) as (P' & S'). split; [rewrite <- P'; constructor; exact P|exact S'].
Qed.

Print Assumptions C103_sorted.
Print Assumptions C103_no_input.
Print Assumptions C103_blank_refuted.
Print Assumptions C103_blank_output.
Print Assumptions C103_inplace.
Print Assumptions C103_inplace_refuted.
Print Assumptions C103_check.
Print Assumptions C103_check_rows.
Print Assumptions C103_cpuset.
Print Assumptions C103_quota.
Print Assumptions C103_positive.
