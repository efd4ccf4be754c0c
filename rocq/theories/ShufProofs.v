(** Lemmas for C46. *)
From Coq Require Import List NArith Bool Arith Lia Permutation.
From Verif Require Import Base StoreModel StoreProofs ShufModel ShufSpec.
Import ListNotations.

Section P.
Variable Item : Type.
Variable moved : Item.
Notation raw := (raw_batch Item).
Notation ent := (sentry Item).

Definition entry_at (items : list (Item * N)) (base sbase : nat) (j : nat) (f : nat) : ent :=
  match nth_error items f with Some (x, d) => (x, d, base + j, sbase + f) | None => (moved, 0%N, base + j, sbase + f) end.
(** Entries for the index list [fs]. *)
Definition entries (items : list (Item * N)) (base sbase : nat) (fs : list nat) : list ent :=
  map (fun p => entry_at items base sbase (fst p) (snd p)) (number 0 fs).

Lemma number_shift : forall (A B : Type) (g : nat -> A -> B) l i k,
  map (fun p => g (fst p) (snd p)) (number (i + k) l) = map (fun p => g (k + fst p) (snd p)) (number i l).
Proof using.
  clear. intros A B g. induction l as [|x l IH]; intros i k; [reflexivity|]. cbn [number map fst snd].
  f_equal; [f_equal; lia|]. exact (IH (S i) k).
Qed.
Lemma number_app : forall (A : Type) (a b : list A) i, number i (a ++ b) = number i a ++ number (i + length a) b.
Proof using.
  clear. induction a as [|x a IH]; intros b i; cbn [app number length]; [rewrite Nat.add_0_r; reflexivity|].
  rewrite IH. do 3 f_equal. lia.
Qed.
Lemma entries_app : forall items base sbase a b,
  entries items base sbase (a ++ b) = entries items base sbase a ++ entries items (base + length a) sbase b.
Proof using.
  intros items base sbase a b. unfold entries. rewrite number_app, map_app. f_equal.
  rewrite (number_shift nat ent (fun j f => entry_at items base sbase j f) b 0 (length a)).
  apply map_ext. intros [j f]. cbn [fst snd]. unfold entry_at. rewrite Nat.add_assoc. reflexivity.
Qed.
Lemma entries_len : forall items base sbase fs, length (entries items base sbase fs) = length fs.
Proof using.
  intros. unfold entries. rewrite map_length. generalize 0. induction fs; intros n; [reflexivity|]. cbn [number length]. f_equal. auto.
Qed.

(** The raw batch after some of its items were moved out: those still listed are intact. *)
Definition intact (orig : list (Item * N)) (b : raw) : Prop :=
  length (rb_items Item b) = length orig /\ NoDup (rb_left Item b) /\
  forall f, In f (rb_left Item b) -> f < length orig /\ nth_error (rb_items Item b) f = nth_error orig f.

Lemma push_spec : forall n orig b i base sbase acc,
  intact orig b -> n <= length (rb_left Item b) ->
  exists b', push_items Item moved n i base sbase b acc =
    Ok (b', acc ++ entries orig (base + i) sbase (firstn n (rb_left Item b))) /\
    rb_left Item b' = skipn n (rb_left Item b) /\ intact orig b'.
Proof using.
  induction n as [|n IH]; intros orig b i base sbase acc HI HN.
  - exists b. cbn. rewrite app_nil_r. auto.
  - destruct HI as (HL & ND & HF). destruct b as [items lf0]. cbn [rb_items rb_left] in *. destruct lf0 as [|f lf]; [cbn in HN; lia|].
    cbn [push_items rb_left rb_items]. destruct (HF f (or_introl eq_refl)) as [Lf Ef]. rewrite Ef.
    destruct (nth_error orig f) as [[x d]|] eqn:E0. 2: { apply nth_error_None in E0. lia. }
    inversion ND as [|? ? NI ND']; subst.
    assert (HI' : intact orig (mk_raw Item (upd f (fun p => (moved, snd p)) items) lf)).
    { split; [cbn; rewrite upd_length; exact HL|]. split; [exact ND'|]. cbn. intros g Ig. destruct (HF g (or_intror Ig)) as [Lg Eg].
      split; [exact Lg|]. rewrite upd_nth. destruct (Nat.eqb_spec f g) as [->|]; [contradiction|]. destruct (Nat.eqb_spec g f) as [->|]; [contradiction|exact Eg]. }
    destruct (IH orig _ (S i) base sbase (acc ++ [(x, d, base + i, sbase + f)]) HI' ltac:(cbn in *; lia)) as (b' & A & B & C).
    exists b'. split; [|split; [exact B|exact C]]. rewrite A. cbn [rb_left firstn]. rewrite <- app_assoc. do 3 f_equal.
    change (f :: firstn n lf) with ([f] ++ firstn n lf). rewrite entries_app. cbn [length].
    replace (base + S i) with (base + i + 1) by lia. f_equal.
    unfold entries, entry_at. cbn. rewrite E0. f_equal. f_equal. f_equal. lia.
Qed.

(** Everything still to come, given the items of the current buffer. *)
Fixpoint rest_entries (src : list raw) (base sbase : nat) : list ent :=
  match src with
  | [] => []
  | b :: r => entries (rb_items Item b) base sbase (rb_left Item b)
              ++ rest_entries r (base + length (rb_left Item b)) (sbase + length (rb_items Item b))
  end.
Definition good_raw (b : raw) : Prop :=
  rb_items Item b <> [] /\ Permutation (rb_left Item b) (seq 0 (length (rb_items Item b))).
Lemma good_intact : forall b, good_raw b -> intact (rb_items Item b) b.
Proof using.
  intros b [_ P]. split; [reflexivity|]. split.
  - eapply Permutation_NoDup; [apply Permutation_sym; exact P|apply seq_NoDup].
  - intros f I. split; [|reflexivity]. eapply Permutation_in in I; [|exact P]. apply in_seq in I. lia.
Qed.

Definition remaining (orig : list (Item * N)) (st : shuf Item) : list ent :=
  entries orig (sh_base Item st) (sh_sbase Item st) (rb_left Item (sh_buf Item st))
  ++ rest_entries (sh_src Item st) (sh_base Item st + length (rb_left Item (sh_buf Item st))) (sh_sbase Item st + length orig).
Definition sinv (orig : list (Item * N)) (st : shuf Item) : Prop :=
  intact orig (sh_buf Item st) /\ Forall good_raw (sh_src Item st).

(** The loop delivers a prefix of what remains: [bs] entries if there are that many. *)
Lemma fill_spec : forall bs fuel orig st acc,
  sinv orig st -> sh_end Item st = false -> length acc <= bs ->
  (match rb_left Item (sh_buf Item st) with [] => 2 | _ => 3 end) + 2 * length (sh_src Item st) <= fuel ->
  exists st', fill Item moved fuel bs st acc = Ok (st', acc ++ firstn (bs - length acc) (remaining orig st)) /\
    ((sh_end Item st' = false /\ exists orig', sinv orig' st' /\ remaining orig' st' = skipn (bs - length acc) (remaining orig st))
     \/ (sh_end Item st' = true /\ length (remaining orig st) < bs - length acc)).
Proof using.
  intros bs. induction fuel as [|fuel IH]; intros orig st acc HS HE HA HF; [destruct (rb_left Item (sh_buf Item st)); lia|].
  cbn [fill]. destruct (Nat.ltb_spec (length acc) bs) as [L|L].
  - destruct (rb_left Item (sh_buf Item st)) as [|f0 lf] eqn:EL.
    + destruct HS as [HI HG]. destruct st as [src buf base sbase en]. cbn [sh_src sh_buf sh_base sh_sbase sh_end] in *.
      assert (LO : length (rb_items Item buf) = length orig) by apply HI.
      destruct src as [|b r]; cbn [read_raw].
      * cbn [rb_items empty_raw]. eexists. split.
        { unfold remaining. cbn [sh_src sh_buf sh_base sh_sbase rest_entries]. rewrite EL. cbn. rewrite firstn_nil, app_nil_r. reflexivity. }
        right. split; [reflexivity|]. unfold remaining. cbn [sh_src sh_buf sh_base sh_sbase rest_entries]. rewrite EL. cbn. lia.
      * inversion HG as [|? ? Gb Gr]; subst. destruct (rb_items Item b) as [|it its] eqn:EI; [destruct Gb as [Gb _]; congruence|].
        set (st1 := mk_shuf Item r b base (sbase + length (rb_items Item buf)) false).
        assert (R : remaining orig (mk_shuf Item (b :: r) buf base sbase false) = remaining (rb_items Item b) st1).
        { unfold remaining, st1. cbn [sh_src sh_buf sh_base sh_sbase rest_entries]. rewrite EL. cbn [length].
          rewrite !Nat.add_0_r, LO. reflexivity. }
        destruct (IH (rb_items Item b) st1 acc) as (st' & A & B); unfold st1; cbn [sh_src sh_buf sh_base sh_sbase sh_end]; auto.
        { split; [apply good_intact; exact Gb|exact Gr]. }
        { cbn [length] in HF. destruct (rb_left Item b); lia. }
        fold st1 in A, B. exists st'. rewrite R. split; [exact A|exact B].
    + set (n := Nat.min (bs - length acc) (length (f0 :: lf))).
      destruct HS as [HI HG].
      destruct (push_spec n orig (sh_buf Item st) 0 (sh_base Item st) (sh_sbase Item st) acc HI) as (b' & A & B & C).
      { rewrite EL. unfold n. lia. }
      rewrite A. cbn [bind]. rewrite EL, Nat.add_0_r. rewrite EL in B.
      set (acc' := acc ++ entries orig (sh_base Item st) (sh_sbase Item st) (firstn n (f0 :: lf))).
      assert (LA : length acc' = length acc + n).
      { unfold acc'. rewrite app_length, entries_len, firstn_length. unfold n. lia. }
      set (st1 := mk_shuf Item (sh_src Item st) b' (sh_base Item st + n) (sh_sbase Item st) (sh_end Item st)).
      assert (R : remaining orig st = entries orig (sh_base Item st) (sh_sbase Item st) (firstn n (f0 :: lf)) ++ remaining orig st1).
      { unfold remaining, st1. cbn [sh_src sh_buf sh_base sh_sbase]. rewrite EL, B.
        rewrite <- (firstn_skipn n (f0 :: lf)) at 1. rewrite entries_app, <- app_assoc. f_equal.
        rewrite firstn_length, Nat.min_l by (unfold n; lia). f_equal. f_equal. rewrite skipn_length.
        unfold n. cbn [length]. lia. }
      destruct (Nat.le_gt_cases (length (f0 :: lf)) (bs - length acc)) as [K|K].
      * assert (NN : n = length (f0 :: lf)) by (unfold n; lia).
        destruct (IH orig st1 acc') as (st' & A' & B'); unfold st1; cbn [sh_src sh_buf sh_base sh_sbase sh_end]; auto.
        { split; [exact C|exact HG]. }
        { rewrite LA. lia. }
        { rewrite B, NN, skipn_all. lia. }
        fold st1 in A', B'. exists st'. rewrite LA in *. split.
        -- etransitivity; [exact A'|]. unfold acc'. rewrite <- app_assoc. do 3 f_equal. rewrite R, firstn_app, entries_len, firstn_length.
           rewrite (firstn_all2 (n := bs - length acc) (entries _ _ _ _)) by (rewrite entries_len, firstn_length; unfold n; lia).
           do 2 f_equal. unfold n. lia.
        -- rewrite R. rewrite skipn_app, entries_len, firstn_length, Nat.min_l by lia.
           rewrite (skipn_all2 (n := bs - length acc) (entries _ _ _ _)) by (rewrite entries_len, firstn_length; unfold n; lia).
           cbn [app]. replace (bs - length acc - n) with (bs - (length acc + n)) by lia.
           destruct B' as [B'|[B1 B2]]; [left; exact B'|right]. split; [exact B1|]. rewrite app_length, entries_len, firstn_length. lia.
      * assert (NN : n = bs - length acc) by (unfold n; lia).
        destruct fuel as [|fuel]; [lia|]. exists st1. split.
        -- cbn [fill]. replace (Nat.ltb (length acc') bs) with false by (symmetry; apply Nat.ltb_ge; lia).
           unfold acc'. do 3 f_equal. rewrite R, firstn_app, entries_len, firstn_length.
           rewrite (firstn_all2 (n := bs - length acc) (entries _ _ _ _)) by (rewrite entries_len, firstn_length; lia).
           replace (bs - length acc - Nat.min n (length (f0 :: lf))) with 0 by lia. cbn. rewrite app_nil_r. reflexivity.
        -- left. split; [exact HE|]. exists orig. split; [split; [exact C|exact HG]|].
           rewrite R, skipn_app, entries_len, firstn_length, Nat.min_l by lia.
           rewrite (skipn_all2 (n := bs - length acc) (entries _ _ _ _)) by (rewrite entries_len, firstn_length; lia).
           replace (bs - length acc - n) with 0 by lia. reflexivity.
  - exists st. replace (bs - length acc) with 0 by lia. cbn. rewrite app_nil_r. split; [reflexivity|].
    left. split; [exact HE|]. exists orig. split; [exact HS|reflexivity].
Qed.

(** All batches of a pass. *)
Lemma drain_spec : forall bs fuel orig st, 0 < bs -> sinv orig st -> sh_end Item st = false ->
  length (remaining orig st) < fuel ->
  exists B, drain_shuffled Item moved (S fuel) bs st = Ok B /\ concat B = remaining orig st /\
    Forall (fun b => 0 < length b <= bs) B /\ Forall (fun b => length b = bs) (removelast B).
Proof using.
  intros bs. induction fuel as [|fuel IH]; intros orig st HB HS HE HF; [lia|].
  set (k := S fuel) in *. cbn [drain_shuffled]. unfold read_shuffled. rewrite HE.
  destruct (fill_spec bs (3 + 2 * length (sh_src Item st)) orig st [] HS HE ltac:(cbn; lia)) as (st' & A & C).
  { destruct (rb_left Item (sh_buf Item st)); lia. }
  rewrite A. cbn [bind app length] in *. rewrite Nat.sub_0_r in *.
  destruct (remaining orig st) as [|e es] eqn:ER.
  - rewrite firstn_nil. exists []. repeat split; constructor.
  - destruct bs as [|bs']; [lia|]. cbn [firstn]. set (bs := S bs') in *.
    destruct C as [(E' & orig' & S' & R')|(E' & L')].
    + destruct (IH orig' st' HB S' E') as (B & D & F & G & H).
      { rewrite R', skipn_length. unfold bs, k in *. cbn [length] in *. lia. }
      rewrite D. cbn [omap]. eexists. split; [reflexivity|]. cbn [concat]. rewrite F, R'.
      split; [|split].
      * unfold bs. cbn [skipn]. change (e :: firstn bs' es) with ([e] ++ firstn bs' es). rewrite <- app_assoc, firstn_skipn. reflexivity.
      * constructor; [|exact G]. cbn [length]. rewrite firstn_length. unfold bs. lia.
      * destruct B as [|b0 B]; [constructor|]. change (removelast ((e :: firstn bs' es) :: b0 :: B)) with ((e :: firstn bs' es) :: removelast (b0 :: B)).
        constructor; [|exact H]. cbn [length]. rewrite firstn_length. inversion G as [|? ? G0 _]; subst.
        assert (LC : length (concat (b0 :: B)) = length (skipn bs (e :: es))) by (rewrite F, R'; reflexivity).
        cbn [concat] in LC. rewrite app_length in LC. unfold bs in LC. cbn [skipn] in LC. rewrite skipn_length in LC. unfold bs. lia.
    + unfold k. cbn [drain_shuffled]. unfold read_shuffled. rewrite E'. cbn [bind omap]. eexists. split; [reflexivity|].
      cbn [concat]. rewrite app_nil_r. unfold bs in L'. cbn [length] in L'. rewrite firstn_all2 by lia. split; [reflexivity|].
      split; [constructor; [cbn [length]; unfold bs; lia|constructor]|constructor].
Qed.

Lemma rest_pass : forall src base sbase, Forall good_raw src ->
  map (fun e : ent => snd (fst e)) (rest_entries src base sbase) = seq base (length (concat (map (rb_items Item) src))) /\
  Permutation (map (fun e : ent => snd e) (rest_entries src base sbase)) (seq sbase (length (concat (map (rb_items Item) src)))) /\
  Forall (fun e => sbase <= snd e /\ nth_error (concat (map (rb_items Item) src)) (snd e - sbase) = Some (fst (fst e))) (rest_entries src base sbase).
Proof using.
  induction src as [|b src IH]; intros base sbase HG; [cbn; repeat split; constructor|].
  inversion HG as [|? ? G1 G2]; subst. destruct (IH (base + length (rb_left Item b)) (sbase + length (rb_items Item b)) G2) as (A & B & C).
  assert (LL : length (rb_left Item b) = length (rb_items Item b)).
  { destruct G1 as [_ P]. rewrite (Permutation_length P), seq_length. reflexivity. }
  destruct (good_intact b G1) as (_ & _ & HF). rewrite LL in A, B, C.
  assert (M1 : map (fun e : ent => snd (fst e)) (entries (rb_items Item b) base sbase (rb_left Item b)) = seq base (length (rb_left Item b))).
  { clear. unfold entries. rewrite map_map. generalize (rb_left Item b). intros l.
    assert (Q : forall i, map (fun x => snd (fst (entry_at (rb_items Item b) base sbase (fst x) (snd x)))) (number i l) = seq (base + i) (length l));
      [|rewrite (Q 0), Nat.add_0_r; reflexivity].
    induction l as [|f l IHl]; intros i; [reflexivity|]. cbn [number map length seq].
    f_equal; [unfold entry_at; cbn [fst snd]; destruct (nth_error (rb_items Item b) f) as [[]|]; reflexivity|].
    rewrite IHl. f_equal. lia. }
  assert (M2 : map (fun e : ent => snd e) (entries (rb_items Item b) base sbase (rb_left Item b)) = map (Nat.add sbase) (rb_left Item b)).
  { clear. unfold entries. rewrite map_map. generalize (rb_left Item b). intros l. generalize 0 as i.
    induction l as [|f l IHl]; intros i; [reflexivity|]. cbn [number map].
    f_equal; [unfold entry_at; cbn [fst snd]; destruct (nth_error (rb_items Item b) f) as [[]|]; reflexivity|]. apply IHl. }
  cbn [rest_entries map concat]. rewrite !map_app, app_length, seq_app, seq_app, M1, M2, LL, A. split; [reflexivity|]. split.
  - apply Permutation_app; [|exact B].
    transitivity (map (Nat.add sbase) (seq 0 (length (rb_items Item b)))); [apply Permutation_map; apply G1|].
    clear. generalize (length (rb_items Item b)) as n. intros n.
    assert (Q : forall i, Permutation (map (Nat.add sbase) (seq i n)) (seq (sbase + i) n)); [|specialize (Q 0); rewrite Nat.add_0_r in Q; exact Q].
    induction n as [|n IHn]; intros i; [reflexivity|]. cbn [seq map]. constructor. specialize (IHn (S i)).
    replace (sbase + S i) with (S (sbase + i)) in IHn by lia. exact IHn.
  - apply Forall_app. split.
    + unfold entries. apply Forall_map. apply Forall_forall. intros [j f] I. cbn [fst snd].
      assert (If : In f (rb_left Item b)).
      { clear - I. revert I. generalize (rb_left Item b). intros l. generalize 0. induction l as [|y l IHl]; intros i I; [destruct I|].
        cbn [number] in I. destruct I as [I|I]; [inversion I; left; reflexivity|right; eapply IHl; exact I]. }
      destruct (HF f If) as [Lf _]. unfold entry_at. destruct (nth_error (rb_items Item b) f) as [[x d]|] eqn:E.
      2: { apply nth_error_None in E. lia. }
      cbn [fst snd]. split; [lia|]. replace (sbase + f - sbase) with f by lia. rewrite nth_error_app1 by lia. exact E.
    + eapply Forall_impl; [|exact C]. cbn beta. intros e [L E]. split; [lia|].
      rewrite nth_error_app2 by lia. rewrite <- E. f_equal. lia.
Qed.

Lemma full_pass : forall src bs, 0 < bs -> Forall good_raw src ->
  exists B, drain_shuffled Item moved (2 + length (concat (map (rb_items Item) src))) bs (shuf_open Item src) = Ok B /\
    shuffled_pass (concat (map (rb_items Item) src)) (concat B) /\
    Forall (fun b => 0 < length b <= bs) B /\ Forall (fun b => length b = bs) (removelast B).
Proof using.
  intros src bs HB HG.
  assert (exists orig, sinv orig (shuf_open Item src) /\ remaining orig (shuf_open Item src) = rest_entries src 0 0 /\ sh_end Item (shuf_open Item src) = false) as (orig & HS & HR & HE).
  { destruct src as [|b r].
    - exists []. split; [split; [split; [reflexivity|split; [constructor|intros f []]]|constructor]|]. split; reflexivity.
    - inversion HG as [|? ? G1 G2]; subst. exists (rb_items Item b). split; [split; [apply good_intact; exact G1|exact G2]|].
      split; [|reflexivity]. unfold remaining. cbn. reflexivity. }
  destruct (rest_pass src 0 0 HG) as (A & B & C).
  assert (LR : length (rest_entries src 0 0) = length (concat (map (rb_items Item) src))).
  { rewrite <- (map_length (fun e : ent => snd (fst e))), A, seq_length. reflexivity. }
  destruct (drain_spec bs (S (length (concat (map (rb_items Item) src)))) orig (shuf_open Item src) HB HS HE) as (BB & D & E & F & G).
  { rewrite HR, LR. lia. }
  exists BB. split; [exact D|]. rewrite E, HR. split; [|split; assumption].
  split; [exact A|]. split; [exact B|]. eapply Forall_impl; [|exact C]. cbn beta. intros e [_ H]. rewrite Nat.sub_0_r in H. exact H.
Qed.
End P.
