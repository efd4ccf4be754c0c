From Coq Require Import List NArith ZArith Lia Bool Permutation Sorted Arith.
From Verif Require Import Base BaseProofs Text TextProofs StoreModel StoreSpec.
Import ListNotations.

(** ** Lists *)
Lemma upd_length : forall (A : Type) n (f : A -> A) l, length (upd n f l) = length l.
Proof. induction n as [|n IH]; intros f [|x l]; simpl; auto. Qed.

Lemma upd_nth : forall (A : Type) n (f : A -> A) l m,
  nth_error (upd n f l) m = if Nat.eqb n m then option_map f (nth_error l m) else nth_error l m.
Proof.
  induction n as [|n IH]; intros f [|x l] [|m]; simpl; auto.
  destruct (Nat.eqb n m); auto.
Qed.

Lemma partition_perm : forall (A : Type) (key : A -> nat) n (l : list A),
  Forall (fun x => key x < n) l ->
  Permutation (flat_map (fun b => filter (fun x => Nat.eqb (key x) b) l) (seq 0 n)) l.
Proof.
  intros A key n l. induction l as [|x l IH]; intros H.
  - induction (seq 0 n); simpl; auto.
  - inversion H as [|? ? Hx Hl]; subst. specialize (IH Hl).
    assert (Hs : exists a b, seq 0 n = a ++ key x :: b /\ ~ In (key x) a /\ ~ In (key x) b).
    { assert (Hin : In (key x) (seq 0 n)) by (apply in_seq; lia).
      apply in_split in Hin. destruct Hin as (a & b & E). exists a, b. split; auto.
      pose proof (seq_NoDup n 0) as Hn. rewrite E in Hn. apply NoDup_remove in Hn.
      destruct Hn as [_ Hn]. rewrite in_app_iff in Hn. tauto. }
    destruct Hs as (a & b & E & Ha & Hb). rewrite E in *. clear E.
    assert (Hsame : forall c, ~ In (key x) c ->
       flat_map (fun b0 => filter (fun x0 => Nat.eqb (key x0) b0) (x :: l)) c =
       flat_map (fun b0 => filter (fun x0 => Nat.eqb (key x0) b0) l) c).
    { induction c as [|y c IHc]; intros Hc; auto. simpl.
      rewrite <- IHc by (intros Hin; apply Hc; right; auto).
      destruct (Nat.eqb_spec (key x) y); [exfalso; apply Hc; left; auto|]. reflexivity. }
    rewrite flat_map_app in *. cbn [flat_map] in *.
    rewrite (Hsame a Ha), (Hsame b Hb). cbn [filter]. rewrite Nat.eqb_refl.
    rewrite <- app_comm_cons. rewrite <- Permutation_middle. constructor. exact IH.
Qed.

(** ** Serialisation *)
Definition good_item (i : bitem) : Prop :=
  (b_index i < max64)%N /\ (b_dup i < max32)%N /\ ~ In comma (b_data i) /\ ~ In newline (b_data i).

Lemma deserialize_serialize : forall i, good_item i -> deserialize (serialize i) = Ok i.
Proof.
  intros [x d s] (H1 & H2 & H3 & H4). cbn [b_index b_dup b_data] in *. unfold deserialize, serialize.
  cbn [b_index b_dup b_data].
  rewrite split_on_app by (apply dec_not; unfold comma; lia).
  rewrite split_on_app by (apply dec_not; unfold comma; lia).
  rewrite split_on_nosep by auto. rewrite !atoi_dec by auto. reflexivity.
Qed.

Lemma serialize_newline : forall i, good_item i -> ~ In newline (serialize i).
Proof.
  intros [x d s] (H1 & H2 & H3 & H4). cbn [b_index b_dup b_data] in *. unfold serialize. cbn [b_index b_dup b_data].
  rewrite in_app_iff. intros [H|[H|H]]; [|discriminate|].
  - revert H. apply dec_not. unfold newline. lia.
  - rewrite in_app_iff in H. destruct H as [H|[H|H]]; [|discriminate|auto].
    revert H. apply dec_not. unfold newline. lia.
Qed.

Definition file_text (is : list bitem) : bytes := concat (map (fun i => serialize i ++ [newline]) is).

Lemma load_file_text : forall is, Forall good_item is -> load_lines (lines (file_text is)) = Ok is.
Proof.
  intros is H. unfold file_text.
  rewrite <- (map_map serialize (fun s => s ++ [newline])).
  rewrite lines_written.
  - induction H as [|i is Hi His IH]; simpl; auto.
    rewrite deserialize_serialize by auto. simpl. rewrite IH. reflexivity.
  - apply Forall_forall. intros s Hs. apply in_map_iff in Hs. destruct Hs as (i & <- & Hi).
    apply serialize_newline. rewrite Forall_forall in H. auto.
Qed.

(** [files] hold exactly the items [iss], bucket by bucket. *)
Definition holds (files : list bytes) (iss : list (list bitem)) : Prop :=
  files = map file_text iss /\ Forall (Forall good_item) iss.

Lemma holds_load : forall files iss n idx b is,
  holds files iss -> nth_error iss b = Some is -> hb_load (mk_hbc files n idx) b = Ok is.
Proof.
  intros files iss n idx b is [E G] H. unfold hb_load. cbn [hb_files]. subst files.
  rewrite nth_error_map, H. simpl. apply load_file_text.
  rewrite Forall_forall in G. apply G. eapply nth_error_In; eauto.
Qed.

Lemma upd_map : forall (A B : Type) (g : A -> B) (f : A -> A) (f' : B -> B) n l,
  (forall x, g (f x) = f' (g x)) -> upd n f' (map g l) = map g (upd n f l).
Proof.
  induction n as [|n IH]; intros [|x l] H; simpl; auto; [rewrite H; auto|f_equal; auto].
Qed.

Section Hash.
Variable hash : bytes -> N.

Lemma bucket_lt : forall num s, 0 < num -> bucket_of hash num s < num.
Proof.
  intros num s H. unfold bucket_of.
  assert (hash s mod N.of_nat num < N.of_nat num)%N by (apply N.mod_lt; lia). lia.
Qed.

(** Items with write positions starting at [i]. *)
Definition to_items (i : nat) (items : list (bytes * N)) : list bitem :=
  map (fun p => mk_bitem (N.of_nat (fst p)) (snd (snd p)) (base64 (fst (snd p)))) (number i items).

Definition in_bucket (num : nat) (b : nat) (l : list bitem) : list bitem :=
  filter (fun i => Nat.eqb (bucket_of hash num (b_data i)) b) l.

Lemma to_items_cons : forall i it items,
  to_items i (it :: items) = mk_bitem (N.of_nat i) (snd it) (base64 (fst it)) :: to_items (S i) items.
Proof. reflexivity. Qed.

Lemma to_items_good : forall items i, Forall good_input items -> (N.of_nat (i + length items) <= max64)%N ->
  Forall good_item (to_items i items).
Proof.
  induction items as [|[d c] items IH]; intros i H Hb; [constructor|].
  rewrite to_items_cons. inversion H as [|? ? [Hd Hc] Hr]; subst. cbn [length] in Hb. constructor.
  - cbn [fst snd] in *. pose proof (base64_chars d Hd). unfold good_item. cbn [b_index b_dup b_data].
    split; [lia|]. tauto.
  - apply IH; auto. lia.
Qed.

Lemma write_all_holds : forall items files iss num i,
  0 < num -> num <= length iss -> holds files iss -> Forall good_input items ->
  (N.of_nat (i + length items) < max64)%N ->
  exists files' iss',
    hb_write_all hash (mk_hbc files num (N.of_nat i)) items =
      mk_hbc files' num (N.of_nat (i + length items)) /\
    holds files' iss' /\ length iss' = length iss /\
    (forall b old, nth_error iss b = Some old ->
       nth_error iss' b = Some (old ++ in_bucket num b (to_items i items))).
Proof.
  induction items as [|[d c] items IH]; intros files iss num i Hn Hl Hh Hg Hb.
  - exists files, iss. simpl. rewrite Nat.add_0_r. repeat split; try apply Hh.
    intros b old Hb'. rewrite app_nil_r. auto.
  - inversion Hg as [|? ? Hgi Hgr]; subst. cbn [length] in Hb.
    unfold hb_write_all. cbn [fold_left]. fold (hb_write_all hash).
    set (it := mk_bitem (N.of_nat i) c (base64 d)).
    set (bk := bucket_of hash num (base64 d)).
    assert (Hgood : good_item it).
    { destruct Hgi as [Hd Hc]. pose proof (base64_chars d Hd). unfold good_item, it. cbn [b_index b_dup b_data].
      cbn [snd] in Hc. split; [lia|]. tauto. }
    assert (Hw : hb_write hash (mk_hbc files num (N.of_nat i)) (d, c) =
                 mk_hbc (map file_text (upd bk (fun l => l ++ [it]) iss)) num (N.of_nat (S i))).
    { unfold hb_write. cbn [hb_files hb_num hb_idx]. fold it bk. f_equal.
      - destruct Hh as [-> _]. apply upd_map. intros x. unfold file_text.
        rewrite map_app, concat_app. simpl. rewrite app_nil_r. reflexivity.
      - rewrite u64_small by lia. lia. }
    rewrite Hw.
    assert (Hh' : holds (map file_text (upd bk (fun l => l ++ [it]) iss)) (upd bk (fun l => l ++ [it]) iss)).
    { split; auto. destruct Hh as [_ G]. clear -G Hgood.
      clearbody bk. revert bk. induction iss as [|x iss IHi]; intros [|bk]; simpl; auto;
        inversion G; subst; constructor; auto. apply Forall_app; auto. }
    destruct (IH (map file_text (upd bk (fun l => l ++ [it]) iss)) (upd bk (fun l => l ++ [it]) iss) num (S i) Hn) as (f' & iss' & E & H1 & H2 & H3); auto.
    { rewrite upd_length. auto. }
    { lia. }
    exists f', iss'. split; [|split; [auto|split]].
    + unfold hb_write_all in E. rewrite E. f_equal. cbn [length]. lia.
    + rewrite H2. apply upd_length.
    + intros b old Hold. rewrite to_items_cons. unfold in_bucket. cbn [filter fst snd b_data].
      fold bk. specialize (H3 b). rewrite upd_nth, Hold in H3.
      destruct (Nat.eqb bk b); simpl in H3.
      * rewrite (H3 _ eq_refl). rewrite <- app_assoc. reflexivity.
      * rewrite (H3 _ eq_refl). reflexivity.
Qed.

(** One session on a directory that already holds [iss]. *)
Lemma session : forall iss num items,
  0 < num -> length iss <= num -> Forall (Forall good_item) iss -> Forall good_input items ->
  (N.of_nat (length items) < max64)%N ->
  exists c c', hb_open (map file_text iss) num = Ok c /\ hb_write_all hash c items = c' /\
    hb_num c' = num /\ hb_idx c' = N.of_nat (length items) /\
    (forall b, b < num ->
      hb_load c' b = Ok (nth b iss [] ++ in_bucket num b (to_items 0 items))).
Proof.
  intros iss num items Hn Hl Hg Hi Hb. unfold hb_open.
  replace (negb (num =? 0)) with true by (destruct num; [lia|reflexivity]). cbn [enforce].
  set (iss0 := iss ++ repeat [] (num - length iss)).
  assert (Hh : holds (map file_text iss ++ repeat [] (num - length (map file_text iss))) iss0).
  { unfold holds, iss0. rewrite map_app, map_length. split.
    - f_equal. generalize (num - length iss). induction n as [|n IHn]; [reflexivity|]. simpl. rewrite IHn. reflexivity.
    - apply Forall_app. split; auto. apply Forall_forall. intros x Hx. apply repeat_spec in Hx. subst. constructor. }
  assert (Hlen : length iss0 = num) by (unfold iss0; rewrite app_length, repeat_length; lia).
  destruct (write_all_holds items _ iss0 num 0 Hn ltac:(lia) Hh Hi ltac:(simpl; lia)) as (f' & iss' & E & H1 & H2 & H3).
  eexists _, _. split; [reflexivity|]. split; [reflexivity|].
  replace 0%N with (N.of_nat 0) by reflexivity. rewrite E. cbn [hb_num hb_idx].
  split; [auto|]. split; [lia|]. intros b Hb'.
  eapply holds_load; [exact H1|]. apply H3.
  unfold iss0. destruct (Nat.ltb_spec b (length iss)).
  - rewrite nth_error_app1 by auto. apply nth_error_nth'. auto.
  - rewrite nth_error_app2 by auto. rewrite (nth_overflow iss) by auto.
    rewrite nth_error_repeat by lia. reflexivity.
Qed.

(** A fresh cache. *)
Lemma fresh_load : forall num items,
  0 < num -> Forall good_input items -> (N.of_nat (length items) < max64)%N ->
  exists c c', hb_open [] num = Ok c /\ hb_write_all hash c items = c' /\ hb_num c' = num /\
    hb_idx c' = N.of_nat (length items) /\
    (forall b, b < num -> hb_load c' b = Ok (in_bucket num b (to_items 0 items))).
Proof.
  intros num items Hn Hi Hb.
  destruct (session [] num items) as (c & c' & H1 & H2 & H3 & H4 & H5); auto; [simpl; lia|].
  exists c, c'. repeat split; auto. intros b Hb'. rewrite H5 by auto.
  destruct b; reflexivity.
Qed.

(** ** Matching *)
Lemma find_bucket : forall num i peer d b,
  Forall good_input peer -> Forall is_byte d -> bucket_of hash num (base64 d) = b ->
  set_find (in_bucket num b (to_items i peer)) (base64 d) =
  option_map (fun p => mk_bitem (N.of_nat (fst p)) (snd (snd p)) (base64 (fst (snd p))))
             (find (fun p => beqb (fst (snd p)) d) (number i peer)).
Proof.
  intros num i peer. revert i. induction peer as [|[x c] peer IH]; intros i d b Hg Hd Hb; auto.
  inversion Hg as [|? ? [Hx Hc] Hr]; subst. cbn [fst snd] in *.
  rewrite to_items_cons. unfold in_bucket, set_find. cbn [filter number find fst snd b_data].
  destruct (beqb x d) eqn:E.
  - apply beqb_spec in E. subst x. rewrite Nat.eqb_refl. cbn [find b_data].
    rewrite (proj2 (beqb_spec _ _) eq_refl). reflexivity.
  - specialize (IH (S i) d _ Hr Hd eq_refl). unfold in_bucket, set_find in IH.
    destruct (Nat.eqb _ _); auto. cbn [find b_data].
    destruct (beqb (base64 x) (base64 d)) eqn:E2; auto.
    apply beqb_spec in E2. apply base64_inj in E2; auto. subst.
    rewrite (proj2 (beqb_spec _ _) eq_refl) in E. discriminate.
Qed.

Lemma find_number : forall (P : bytes * N -> bool) l i,
  option_map (fun p => snd p) (find (fun p => P (snd p)) (number i l)) = find P l.
Proof.
  induction l as [|x l IH]; intros i; simpl; [reflexivity|]. destruct (P x); [reflexivity|]. apply IH.
Qed.

(** Result of one bin, in terms of numbered inputs. *)
Definition bin_spec (num b : nat) (self peer : list (bytes * N)) : list (N * N) :=
  flat_map (match1 peer)
    (filter (fun p => Nat.eqb (bucket_of hash num (base64 (fst (snd p)))) b) (number 0 self)).

Lemma match_bin_spec : forall num b self peer,
  Forall good_input self -> Forall good_input peer ->
  match_bin (in_bucket num b (to_items 0 self)) (in_bucket num b (to_items 0 peer)) =
  bin_spec num b self peer.
Proof.
  intros num b self peer Hs Hp. unfold match_bin, bin_spec.
  assert (HF : forall d, Forall is_byte d -> bucket_of hash num (base64 d) = b ->
     set_find (in_bucket num b (to_items 0 peer)) (base64 d) = 
     option_map (fun p => mk_bitem (N.of_nat (fst p)) (snd (snd p)) (base64 (fst (snd p))))
             (find (fun p => beqb (fst (snd p)) d) (number 0 peer))).
  { intros d Hd Hb. apply find_bucket; auto. }
  generalize dependent (in_bucket num b (to_items 0 peer)). intros P HF. generalize 0 at 1 2 as i.
  induction self as [|[d c] self IH]; intros i; [reflexivity|].
  inversion Hs as [|? ? [Hd Hc] Hr]; subst. rewrite to_items_cons.
  unfold in_bucket in *. cbn [number filter b_data fst snd] in *.
  specialize (IH Hr (S i)).
  destruct (Nat.eqb_spec (bucket_of hash num (base64 d)) b) as [E|E]; [|exact IH].
  cbn [flat_map b_data b_index]. rewrite IH. f_equal.
  rewrite (HF d Hd E). unfold match1. cbn [fst snd].
  pose proof (find_number (fun q => beqb (fst q) d) peer 0) as HN.
  destruct (find (fun p => beqb (fst (snd p)) d) (number 0 peer)) as [[j [y e]]|]; cbn [option_map fst snd] in *;
    rewrite <- HN; reflexivity.
Qed.

Lemma sum_dup_eq : forall l acc, (acc < max32)%N ->
  sum_dup l acc = u32 (acc + fold_right (fun d a => d + 1 + a)%N 0%N l).
Proof.
  induction l as [|d l IH]; intros acc Ha.
  - unfold sum_dup. simpl. rewrite N.add_0_r. rewrite u32_small; auto.
  - unfold sum_dup in *. cbn [fold_left fold_right]. rewrite IH by apply u32_lt.
    unfold u32. rewrite N.add_mod_idemp_l by discriminate. f_equal. lia.
Qed.

Lemma u32_add : forall a b, u32 (u32 a + b) = u32 (a + b).
Proof. intros. unfold u32. apply N.add_mod_idemp_l. discriminate. Qed.

Lemma sum_dup_app : forall l1 l2 acc, sum_dup l2 (sum_dup l1 acc) = sum_dup (l1 ++ l2) acc.
Proof. intros. unfold sum_dup. rewrite fold_left_app. reflexivity. Qed.

Lemma finalize_loop_spec : forall num cs cp self peer bins t i,
  Forall good_input self -> Forall good_input peer ->
  (forall b, b < num -> hb_load cs b = Ok (in_bucket num b (to_items 0 self))) ->
  (forall b, b < num -> hb_load cp b = Ok (in_bucket num b (to_items 0 peer))) ->
  Forall (fun b => b < num) bins ->
  finalize_loop cs cp bins t i =
    Ok (flat_map (fun b => bin_spec num b self peer) bins,
        sum_dup (flat_map (fun b => map b_dup (in_bucket num b (to_items 0 peer))) bins) t,
        sum_dup (map snd (flat_map (fun b => bin_spec num b self peer) bins)) i).
Proof.
  intros num cs cp self peer bins. induction bins as [|b bins IH]; intros t i Hs Hp Ls Lp Hb.
  - reflexivity.
  - inversion Hb as [|? ? Hb0 Hbr]; subst. cbn [finalize_loop].
    rewrite (Ls b Hb0), (Lp b Hb0). cbn [bind]. rewrite IH by auto. cbn [bind flat_map].
    rewrite match_bin_spec by auto. rewrite map_app, <- !sum_dup_app. reflexivity.
Qed.

Lemma Forall_seq : forall n, Forall (fun b => b < n) (seq 0 n).
Proof. intros n. apply Forall_forall. intros b Hb. apply in_seq in Hb. lia. Qed.

Lemma Permutation_fold_add : forall l1 l2, Permutation l1 l2 ->
  fold_right (fun d a => d + 1 + a)%N 0%N l1 = fold_right (fun d a => d + 1 + a)%N 0%N l2.
Proof. induction 1; simpl; lia. Qed.

Lemma sum_dup_perm : forall l1 l2, Permutation l1 l2 -> sum_dup l1 0 = sum_dup l2 0.
Proof.
  intros l1 l2 H. rewrite !sum_dup_eq by reflexivity. f_equal. f_equal.
  apply Permutation_fold_add. auto.
Qed.

Lemma bins_perm : forall num self peer, 0 < num ->
  Permutation (flat_map (fun b => bin_spec num b self peer) (seq 0 num)) (matches self peer).
Proof.
  intros num self peer Hn. unfold bin_spec, matches.
  set (g := match1 peer).
  transitivity (flat_map g (flat_map (fun b => filter (fun p => Nat.eqb (bucket_of hash num (base64 (fst (snd p)))) b) (number 0 self)) (seq 0 num))).
  - generalize (seq 0 num). induction l as [|b l IH]; simpl; auto.
    rewrite flat_map_app. apply Permutation_app_head. exact IH.
  - apply Permutation_flat_map. apply partition_perm. apply Forall_forall. intros x _. apply bucket_lt. auto.
Qed.

Lemma in_bucket_perm : forall num items, 0 < num ->
  Permutation (flat_map (fun b => in_bucket num b items) (seq 0 num)) items.
Proof.
  intros num items Hn. unfold in_bucket.
  apply (partition_perm bitem (fun i => bucket_of hash num (b_data i)) num items).
  apply Forall_forall. intros x _. apply bucket_lt. auto.
Qed.

Lemma map_flat_map : forall (A B C : Type) (f : B -> C) (g : A -> list B) l,
  map f (flat_map g l) = flat_map (fun x => map f (g x)) l.
Proof. induction l; simpl; auto. rewrite map_app. congruence. Qed.

Lemma finalize_exact : forall num self peer,
  0 < num -> Forall good_input self -> Forall good_input peer ->
  (N.of_nat (length self) < max64)%N -> (N.of_nat (length peer) < max64)%N ->
  exists cs cp m t i,
    omap (fun c => hb_write_all hash c self) (hb_open [] num) = Ok cs /\
    omap (fun c => hb_write_all hash c peer) (hb_open [] num) = Ok cp /\
    finalize_indices cs cp = Ok (m, t, i) /\
    Permutation m (matches self peer) /\
    t = rows_of (map snd peer) /\
    i = rows_of (map snd (matches self peer)).
Proof.
  intros num self peer Hn Hs Hp Bs Bp.
  destruct (fresh_load num self Hn Hs Bs) as (c1 & cs & O1 & W1 & N1 & _ & L1).
  destruct (fresh_load num peer Hn Hp Bp) as (c2 & cp & O2 & W2 & N2 & _ & L2).
  rewrite O2 in O1. injection O1 as ->. rewrite O2.
  exists cs, cp. eexists _, _, _. split; [simpl; rewrite W1; reflexivity|]. split; [simpl; rewrite W2; reflexivity|].
  unfold finalize_indices. rewrite N1, N2, Nat.eqb_refl. cbn [enforce].
  rewrite (finalize_loop_spec num cs cp self peer) by (auto using Forall_seq).
  split; [reflexivity|]. pose proof (bins_perm num self peer Hn) as HP. split; [exact HP|]. split.
  - assert (Hpm : Permutation (flat_map (fun b => map b_dup (in_bucket num b (to_items 0 peer))) (seq 0 num))
                  (map snd peer)).
    { rewrite <- map_flat_map. rewrite (Permutation_map b_dup (in_bucket_perm num (to_items 0 peer) Hn)).
      unfold to_items. rewrite map_map. simpl.
      rewrite <- (map_map snd (fun q : bytes * N => snd q)), number_snd. reflexivity. }
    rewrite (sum_dup_perm _ _ Hpm). rewrite sum_dup_eq by reflexivity. reflexivity.
  - rewrite (sum_dup_perm _ (map snd (matches self peer))) by (apply Permutation_map; exact HP).
    rewrite sum_dup_eq by reflexivity. reflexivity.
Qed.

(** The sorted-index variant. *)
Lemma match_bin_idx_eq : forall s p, match_bin_idx s p = map fst (match_bin s p).
Proof.
  intros s p. unfold match_bin_idx, match_bin, set_find. induction s as [|it s IH]; auto.
  cbn [flat_map]. rewrite map_app, IH. f_equal.
  clear. induction p as [|q p IHp]; simpl; [reflexivity|].
  destruct (beqb (b_data q) (b_data it)); simpl; [reflexivity|exact IHp].
Qed.

Lemma finalize_idx_eq : forall cs cp bins t i m t' i',
  finalize_loop cs cp bins t i = Ok (m, t', i') -> finalize_idx_loop cs cp bins = Ok (map fst m).
Proof.
  induction bins as [|b bins IH]; intros t i m t' i' H; cbn [finalize_loop finalize_idx_loop] in *.
  - injection H as <- _ _. reflexivity.
  - destruct (hb_load cs b) as [s| | |]; try discriminate. cbn [bind] in *.
    destruct (hb_load cp b) as [p| | |]; try discriminate. cbn [bind] in *.
    destruct (finalize_loop cs cp bins _ _) as [[[r t1] i1]| | |] eqn:E; try discriminate. cbn [bind] in H.
    injection H as <- _ _. rewrite (IH _ _ _ _ _ E). cbn [bind].
    rewrite match_bin_idx_eq, map_app. reflexivity.
Qed.

Lemma matches_sorted : forall self peer i,
  StronglySorted N.lt (map fst (flat_map (match1 peer) (number i self))) /\
  Forall (fun x => (N.of_nat i <= x)%N) (map fst (flat_map (match1 peer) (number i self))).
Proof.
  induction self as [|[d c] self IH]; intros peer i; [simpl; split; constructor|].
  destruct (IH peer (S i)) as [I1 I2]. cbn [number flat_map fst snd].
  assert (I2' : forall j, j <= S i -> Forall (fun x => (N.of_nat j <= x)%N) (map fst (flat_map (match1 peer) (number (S i) self)))).
  { intros j Hj. eapply Forall_impl; [|exact I2]. intros a Ha. simpl in *. lia. }
  unfold match1 at 1 3. cbn [fst snd]. destruct (find _ peer); cbn [app map fst].
  - split; constructor; auto; try lia. eapply Forall_impl; [|exact I2]. intros a Ha. simpl in *. lia.
  - split; auto.
Qed.

Lemma finalize_sorted_exact : forall (srt : list N -> list N) num self peer,
  (forall l, Permutation (srt l) l) -> (forall l, StronglySorted N.le (srt l)) ->
  0 < num -> Forall good_input self -> Forall good_input peer ->
  (N.of_nat (length self) < max64)%N -> (N.of_nat (length peer) < max64)%N ->
  exists cs cp,
    omap (fun c => hb_write_all hash c self) (hb_open [] num) = Ok cs /\
    omap (fun c => hb_write_all hash c peer) (hb_open [] num) = Ok cp /\
    finalize_indices_sorted srt cs cp = Ok (map fst (matches self peer)).
Proof.
  intros srt num self peer Sp Ss Hn Hs Hp Bs Bp.
  destruct (finalize_exact num self peer Hn Hs Hp Bs Bp) as (cs & cp & m & t & i & H1 & H2 & H3 & H4 & _).
  exists cs, cp. split; auto. split; auto. unfold finalize_indices, finalize_indices_sorted in *.
  destruct (Nat.eqb (hb_num cs) (hb_num cp)); [|discriminate]. cbn [enforce] in *.
  rewrite (finalize_idx_eq _ _ _ _ _ _ _ _ H3). unfold omap. cbn [bind]. f_equal.
  apply (sorted_perm_unique _ N.le).
  - intros x y. lia.
  - apply Ss.
  - destruct (matches_sorted self peer 0) as [M _]. fold (matches self peer) in M.
    induction M as [|x l Ml IH Mf]; constructor; auto. eapply Forall_impl; [|exact Mf]. intros. lia.
  - rewrite Sp. apply Permutation_map. exact H4.
Qed.

(** In-memory path. *)
Lemma ms_save_all_spec : forall items s,
  (ms_cnt s + N.of_nat (length items) < max64)%N ->
  Forall (fun p => fst p < length (ms_store s)) (ms_dup s) ->
  let s' := ms_save_all s items in
  ms_store s' = ms_store s ++ map fst items /\
  ms_cnt s' = (ms_cnt s + N.of_nat (length items))%N /\
  (forall j, j < length (ms_store s) -> assoc j (ms_dup s') = assoc j (ms_dup s)) /\
  (forall j ct d, nth_error items j = Some (ct, d) ->
     match assoc (length (ms_store s) + j) (ms_dup s') with Some x => x | None => 0%N end = d).
Proof.
  induction items as [|[ct d] items IH]; intros s Hb Hf; cbv zeta.
  - unfold ms_save_all. simpl. rewrite app_nil_r. split; [auto|]. split; [lia|]. split; [auto|].
    intros j ct d H. destruct j; discriminate.
  - unfold ms_save_all. cbn [fold_left]. fold (ms_save_all (ms_save s (ct, d)) items).
    cbn [length] in Hb.
    assert (Hbs : forall j l, Forall (fun p : nat * N => fst p < j) l -> forall k, j <= k -> assoc k l = None).
    { intros j l Hl k Hk. induction Hl as [|[a b] l Ha Hl IHl]; auto. simpl in *.
      destruct (Nat.eqb_spec a k); [lia|auto]. }
    specialize (IH (ms_save s (ct, d))). cbn [ms_save ms_store ms_cnt ms_dup] in IH.
    rewrite u64_small in IH by lia. rewrite app_length in IH. cbn [length] in IH.
    destruct IH as (I1 & I2 & I3 & I4).
    + lia.
    + assert (Forall (fun p : nat * N => fst p < length (ms_store s) + 1) (ms_dup s)).
      { eapply Forall_impl; [|exact Hf]. intros a Ha. simpl in *. lia. }
      destruct (0 <? d)%N; auto. constructor; auto. simpl. lia.
    + split; [|split; [|split]].
      * cbn [ms_save] in *. rewrite u64_small in * by lia. rewrite I1. rewrite <- app_assoc. reflexivity.
      * cbn [ms_save] in *. rewrite u64_small in * by lia. rewrite I2. cbn [length]. lia.
      * intros j Hj. cbn [ms_save] in *. rewrite u64_small in * by lia. rewrite I3 by lia.
        destruct (0 <? d)%N; auto. simpl. destruct (Nat.eqb_spec (length (ms_store s)) j); [lia|auto].
      * intros j ct' d' Hj. destruct j as [|j]; cbn [nth_error] in Hj.
        -- injection Hj as -> ->. rewrite Nat.add_0_r.
           cbn [ms_save] in *. rewrite u64_small in * by lia. rewrite I3 by lia.
           destruct (N.ltb_spec 0 d').
           ++ simpl. rewrite Nat.eqb_refl. reflexivity.
           ++ rewrite (Hbs (length (ms_store s))) by auto. lia.
        -- specialize (I4 j ct' d' Hj). rewrite <- Nat.add_assoc in I4. simpl in I4. cbn [ms_save]. rewrite u64_small by lia. exact I4.
Qed.

Lemma first_pos_find : forall (peer : list (bytes * N)) i x,
  first_pos i (map fst peer) x = option_map fst (find (fun q => beqb (fst (snd q)) x) (number i peer)).
Proof.
  induction peer as [|[y d] peer IH]; intros i x; simpl; auto.
  destruct (beqb y x); auto.
Qed.

Lemma number_find_nth : forall (A : Type) (P : A -> bool) l i j x,
  find (fun q => P (snd q)) (number i l) = Some (j, x) -> i <= j /\ nth_error l (j - i) = Some x.
Proof.
  intros A P l i j x H. apply find_some in H. destruct H as [H _]. apply number_in in H. exact H.
Qed.

Lemma number_map : forall (A B : Type) (f : A -> B) l i, number i (map f l) = map (fun p => (fst p, f (snd p))) (number i l).
Proof. induction l; simpl; intros; f_equal; auto. Qed.

Lemma flat_map_map : forall (A B C : Type) (f : A -> B) (g : B -> list C) l,
  flat_map g (map f l) = flat_map (fun x => g (f x)) l.
Proof. induction l; simpl; congruence. Qed.

Lemma on_end_memory_exact : forall self peer,
  (N.of_nat (length self) < max64)%N -> (N.of_nat (length peer) < max64)%N ->
  on_end_memory (ms_save_all ms_empty self) (ms_save_all ms_empty peer) =
  map (fun p => (fst p, u32 (snd p + 1))) (matches self peer).
Proof.
  intros self peer Hs Hp. unfold on_end_memory, matches.
  destruct (ms_save_all_spec self ms_empty) as (S1 & _); [simpl; lia|constructor|].
  destruct (ms_save_all_spec peer ms_empty) as (P1 & _ & _ & P4); [simpl; lia|constructor|].
  rewrite S1, P1. simpl app. cbn [ms_store ms_empty length Nat.add] in P4.
  rewrite number_map, flat_map_map, map_flat_map.
  apply flat_map_ext. intros [i [d c]]. unfold match1. cbn [fst snd].
  rewrite first_pos_find.
  pose proof (find_number (fun q => beqb (fst q) d) peer 0) as HN.
  destruct (find (fun q => beqb (fst (snd q)) d) (number 0 peer)) as [[j [y e]]|] eqn:E;
    cbn [option_map fst snd] in *; rewrite <- HN; auto.
  apply (number_find_nth _ (fun q => beqb (fst q) d)) in E. destruct E as [_ E]. rewrite Nat.sub_0_r in E.
  rewrite (P4 _ _ _ E), N.add_comm. reflexivity.
Qed.

Lemma on_end_bins_exact : forall num self peer,
  0 < num -> Forall good_input self -> Forall good_input peer ->
  (N.of_nat (length self) < max64)%N -> (N.of_nat (length peer) < max64)%N ->
  exists cs cp m,
    omap (fun c => hb_write_all hash c self) (hb_open [] num) = Ok cs /\
    omap (fun c => hb_write_all hash c peer) (hb_open [] num) = Ok cp /\
    on_end_bins cs cp = Ok m /\
    Permutation m (on_end_memory (ms_save_all ms_empty self) (ms_save_all ms_empty peer)).
Proof.
  intros num self peer Hn Hs Hp Bs Bp.
  destruct (finalize_exact num self peer Hn Hs Hp Bs Bp) as (cs & cp & m & t & i & H1 & H2 & H3 & H4 & _).
  exists cs, cp. eexists. split; [auto|]. split; [auto|]. unfold on_end_bins. rewrite H3. cbn [bind].
  split; [reflexivity|]. rewrite on_end_memory_exact by auto. apply Permutation_map. exact H4.
Qed.

End Hash.
