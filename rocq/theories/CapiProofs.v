From Coq Require Import List NArith ZArith Znumtheory Bool Lia.
From Verif Require Import Base Text PirPackModel GroupDbModel CapiModel CapiSpec.
Import ListNotations.
Local Open Scope N_scope.

Definition above (m : N) (l : list (N * block)) : Prop := Forall (fun x => m <= fst x) l.
Lemma above_app m l1 l2 : above m l1 -> above m l2 -> above m (l1 ++ l2).
Proof. intros. apply Forall_app. now split. Qed.
Lemma above_le m m' l : m' <= m -> above m l -> above m' l.
Proof. intros L. apply Forall_impl. intros x Hx. lia. Qed.
Lemma above_rev m l : above m l -> above m (rev l).
Proof. apply Forall_rev. Qed.
Lemma assoc_skip {B} a : forall (l1 l2 : list (N * B)), Forall (fun x => fst x <> a) l1 -> assoc a (l1 ++ l2) = assoc a l2.
Proof. induction l1 as [|[x b] l1 IH]; intros l2 F; [reflexivity|]. inversion F as [|? ? H F']; subst. cbn [app assoc]. cbn in H. destruct (N.eqb_spec x a); [contradiction|]. now apply IH. Qed.
Lemma drop_skip a : forall l1 l2, Forall (fun x => fst x <> a) l1 -> drop a (l1 ++ l2) = l1 ++ drop a l2.
Proof. induction l1 as [|[x b] l1 IH]; intros l2 F; [reflexivity|]. inversion F as [|? ? H F']; subst. cbn [app drop]. cbn in H. destruct (N.eqb_spec x a); [contradiction|]. now rewrite IH. Qed.
Lemma fill_skip a b : forall l1 l2, Forall (fun x => fst x <> a) l1 -> fill a b (l1 ++ l2) = l1 ++ fill a b l2.
Proof. induction l1 as [|[x b'] l1 IH]; intros l2 F; [reflexivity|]. inversion F as [|? ? H F']; subst. cbn [app fill]. cbn in H. destruct (N.eqb_spec x a); [contradiction|]. now rewrite IH. Qed.
Lemma above_ne a l : above (a + 1) l -> Forall (fun x => fst x <> a) l.
Proof. apply Forall_impl. intros x Hx. lia. Qed.

Lemma free_at a nx l1 b l2 : 0 < a -> above (a + 1) l1 -> free a (mk_heap nx (l1 ++ (a, b) :: l2)) = Ok (mk_heap nx (l1 ++ l2)).
Proof.
  intros A F. apply above_ne in F. unfold free. destruct (N.eqb_spec a 0); [lia|]. cbn [h_live h_next]. rewrite assoc_skip, drop_skip by exact F.
  cbn [assoc drop]. rewrite N.eqb_refl. reflexivity.
Qed.

(** * Strings *)
Fixpoint cstrs (n : N) (ss : list bytes) : list cstr :=
  match ss with [] => [] | s :: ss' => mk_cstr n (N.of_nat (length s)) :: cstrs (n + 1) ss' end.
Fixpoint blocks (n : N) (ss : list bytes) : list (N * block) :=
  match ss with [] => [] | s :: ss' => (n, BBytes (s ++ [0])) :: blocks (n + 1) ss' end.
Lemma cstrs_length n ss : length (cstrs n ss) = length ss.
Proof. revert n. induction ss; intros; cbn; auto. Qed.
Lemma blocks_above : forall ss n m, m <= n -> above m (blocks n ss).
Proof. induction ss as [|s ss IH]; intros n m L; constructor; [exact L|]. apply IH. lia. Qed.

Section Allow.
Variable allow : N -> bool.
Hypothesis all : forall n, allow n = true.

Lemma cstring_ok s h : make_cstring allow s h = (Some (mk_cstr (h_next h) (N.of_nat (length s))), mk_heap (h_next h + 1) ((h_next h, BBytes (s ++ [0])) :: h_live h)).
Proof. unfold make_cstring, alloc. now rewrite all. Qed.
Lemma cstrings_ok : forall ss h, make_cstrings allow ss h =
  (Some (cstrs (h_next h) ss), mk_heap (h_next h + N.of_nat (length ss)) (rev (blocks (h_next h) ss) ++ h_live h)).
Proof.
  induction ss as [|s ss IH]; intros [n l]; cbn [h_next h_live].
  - cbn. now rewrite N.add_0_r.
  - cbn [make_cstrings]. rewrite cstring_ok. rewrite IH. cbn [h_next h_live cstrs blocks rev]. rewrite <- app_assoc. cbn [app].
    do 2 f_equal. cbn [length]. lia.
Qed.
End Allow.

Lemma string_read s a h : assoc a (h_live h) = Some (BBytes (s ++ [0])) -> make_string (mk_cstr a (N.of_nat (length s))) h = Ok s.
Proof.
  intros E. unfold make_string. cbn [cs_data cs_size]. rewrite E, app_length. cbn [length].
  replace (N.of_nat (length s) <=? N.of_nat (length s + 1)) with true by (symmetry; apply N.leb_le; lia).
  rewrite Nat2N.id, firstn_app, Nat.sub_diag, firstn_all. cbn. now rewrite app_nil_r.
Qed.
Lemma strings_read : forall ss n nx pre rest, above (n + N.of_nat (length ss)) pre ->
  map_out (fun x => make_string x (mk_heap nx (pre ++ rev (blocks n ss) ++ rest))) (cstrs n ss) = Ok ss.
Proof.
  induction ss as [|s ss IH]; intros n nx pre rest F; [reflexivity|]. cbn [cstrs map_out blocks rev].
  rewrite <- app_assoc. cbn [app]. rewrite string_read.
  - cbn [bind]. rewrite IH by (eapply above_le; [|exact F]; cbn [length]; lia). reflexivity.
  - cbn [h_live]. rewrite assoc_skip by (apply above_ne; eapply above_le; [|exact F]; cbn [length]; lia).
    rewrite assoc_skip by (apply above_ne, above_rev, blocks_above; lia). cbn [assoc]. now rewrite N.eqb_refl.
Qed.
Lemma strings_free : forall ss n nx pre rest, 0 < n -> above (n + N.of_nat (length ss)) pre ->
  free_all (cstrs n ss) (mk_heap nx (pre ++ rev (blocks n ss) ++ rest)) = Ok (mk_heap nx (pre ++ rest)).
Proof.
  induction ss as [|s ss IH]; intros n nx pre rest P F; [reflexivity|]. cbn [cstrs free_all cs_data blocks rev].
  rewrite <- app_assoc. cbn [app]. rewrite app_assoc. rewrite free_at; [|exact P|].
  - cbn [bind]. rewrite <- app_assoc. apply IH; [lia|]. eapply above_le; [|exact F]. cbn [length]. lia.
  - apply above_app; [eapply above_le; [|exact F]; cbn [length]; lia|]. apply above_rev, blocks_above. lia.
Qed.

(** * Arrays *)
Definition layout (n : N) (ss : list bytes) : list (N * block) := rev (blocks (n + 1) ss) ++ [(n, BStrs (cstrs (n + 1) ss))].
Lemma layout_above n ss : above n (layout n ss).
Proof. apply above_app; [apply above_rev, blocks_above; lia|]. constructor; [cbn; lia|constructor]. Qed.
Lemma carray_ok allow ss h : (forall n, allow n = true) ->
  make_carray allow ss h = (Some (mk_carr (h_next h) (N.of_nat (length ss))), mk_heap (h_next h + 1 + N.of_nat (length ss)) (layout (h_next h) ss ++ h_live h)).
Proof.
  intros A. unfold make_carray, alloc. rewrite A, cstrings_ok by exact A. cbn [h_next h_live].
  rewrite fill_skip by (apply above_ne, above_rev, blocks_above; lia). cbn [fill]. rewrite N.eqb_refl. unfold layout. rewrite <- app_assoc. reflexivity.
Qed.
Lemma entries_ok n ss nx pre rest : above (n + 1 + N.of_nat (length ss)) pre ->
  entries (mk_carr n (N.of_nat (length ss))) (mk_heap nx (pre ++ layout n ss ++ rest)) = Ok (cstrs (n + 1) ss).
Proof.
  intros F. unfold entries. cbn [ca_size ca_data h_live]. destruct ss as [|s ss]; [reflexivity|].
  destruct (N.eqb_spec (N.of_nat (length (s :: ss))) 0) as [E|_]; [cbn [length] in E; lia|].
  rewrite assoc_skip by (apply above_ne; eapply above_le; [|exact F]; lia). unfold layout. rewrite <- app_assoc.
  rewrite assoc_skip by (apply above_ne, above_rev, blocks_above; lia). cbn [app assoc]. rewrite N.eqb_refl, cstrs_length, N.leb_refl, Nat2N.id.
  rewrite firstn_all2; [reflexivity|]. now rewrite cstrs_length.
Qed.
Lemma carray_read n ss nx pre rest : above (n + 1 + N.of_nat (length ss)) pre ->
  make_strings (mk_carr n (N.of_nat (length ss))) (mk_heap nx (pre ++ layout n ss ++ rest)) = Ok ss.
Proof.
  intros F. unfold make_strings. rewrite entries_ok by exact F. cbn [bind]. unfold layout. rewrite <- app_assoc. now apply strings_read.
Qed.
Lemma carray_free n ss nx pre rest : 0 < n -> above (n + 1 + N.of_nat (length ss)) pre ->
  free_carray (mk_carr n (N.of_nat (length ss))) (mk_heap nx (pre ++ layout n ss ++ rest)) = Ok (mk_carr n 0, mk_heap nx (pre ++ rest)).
Proof.
  intros P F. unfold free_carray. rewrite entries_ok by exact F. cbn [bind]. unfold layout. rewrite <- app_assoc.
  rewrite strings_free by (try exact F; lia). cbn [bind ca_data app]. rewrite free_at; [reflexivity|exact P|]. eapply above_le; [|exact F]. lia.
Qed.

(** * Results *)
Definition nx2 (n : N) (ss : list bytes) : N := n + 1 + N.of_nat (length ss).
Lemma result_ok allow keys values h : (forall n, allow n = true) -> length keys = length values \/ values = [] ->
  make_result allow keys values h =
  let q := h_next h in let k := q + 1 in let v := nx2 k keys in
  match values with
  | [] => (Some q, mk_heap v (layout k keys ++ (q, BResult (mk_qres (N.of_nat (length keys)) false (mk_carr k (N.of_nat (length keys))) (mk_carr 0 0))) :: h_live h))
  | _ => (Some q, mk_heap (nx2 v values) (layout v values ++ layout k keys ++
      (q, BResult (mk_qres (N.of_nat (length keys)) true (mk_carr k (N.of_nat (length keys))) (mk_carr v (N.of_nat (length values))))) :: h_live h))
  end.
Proof.
  intros A L. unfold make_result, alloc.
  replace (negb (Nat.eqb (length keys) (length values)) && negb (Nat.eqb (length values) 0)) with false.
  2: { symmetry. apply andb_false_iff. destruct L as [L | ->]; [left; now rewrite L, Nat.eqb_refl|now right]. }
  rewrite A, carray_ok by exact A. cbn [h_next h_live]. cbv zeta. unfold nx2.
  assert (Fk : Forall (fun x => fst x <> h_next h) (layout (h_next h + 1) keys)) by (apply above_ne, layout_above).
  destruct values as [|v values]; cbn [length Nat.eqb].
  - rewrite fill_skip by exact Fk. cbn [fill]. rewrite N.eqb_refl. reflexivity.
  - rewrite carray_ok by exact A. cbn [h_next h_live]. rewrite fill_skip by (apply above_ne; eapply above_le; [|apply layout_above]; lia).
    rewrite fill_skip by exact Fk. cbn [fill]. rewrite N.eqb_refl. reflexivity.
Qed.

Lemma keeps_app h nx l : sane h -> above (h_next h) l -> keeps h (mk_heap nx (l ++ h_live h)).
Proof.
  intros (_ & _ & S) F a b E. cbn [h_live]. rewrite assoc_skip; [exact E|].
  assert (A : a < h_next h). { clear F. revert E S. generalize (h_next h). induction (h_live h) as [|[x y] m IH]; intros n E S; [discriminate|].
    inversion S as [|? ? [S1 S2] S']; subst. cbn [assoc fst] in *. destruct (N.eqb_spec x a); [subst; exact S2|exact (IH n E S')]. }
  eapply Forall_impl; [|exact F]. intros y Hy. cbn in Hy. lia.
Qed.
Lemma not_live h a : sane h -> h_next h <= a -> assoc a (h_live h) = None.
Proof.
  intros (_ & _ & S) L. revert S. induction (h_live h) as [|[x y] m IH]; intros S; [reflexivity|]. inversion S as [|? ? [S1 S2] S']; subst.
  cbn [assoc fst] in *. destruct (N.eqb_spec x a); [lia|exact (IH S')].
Qed.
Lemma free_gone h a nx : sane h -> h_next h <= a -> free a (mk_heap nx (h_live h)) = UB.
Proof. intros S L. pose proof S as (P & _). unfold free. destruct (N.eqb_spec a 0); [lia|]. cbn [h_live]. now rewrite not_live. Qed.

Lemma result_holds allow keys values h q h' : (forall n, allow n = true) -> sane h -> length keys = length values \/ values = [] ->
  make_result allow keys values h = (Some q, h') -> q <> 0 /\ holds q keys values h' /\ keeps h h' /\
  exists h'', free_result q h' = Ok h'' /\ h_live h'' = h_live h /\ free_result q h'' = UB.
Proof.
  intros A S L. rewrite result_ok by assumption. pose proof S as (P & _). cbv zeta. set (n := h_next h) in *. intros E.
  assert (Gone : forall nx, free_result n (mk_heap nx (h_live h)) = UB).
  { intros nx. unfold free_result. destruct (N.eqb_spec n 0); [lia|]. cbn [h_live]. now rewrite not_live by (try exact S; unfold n; lia). }
  destruct values as [|v values].
  - injection E as <- <-. set (r := mk_qres _ _ _ _).
    assert (R : assoc n (layout (n + 1) keys ++ (n, BResult r) :: h_live h) = Some (BResult r)).
    { rewrite assoc_skip by (apply above_ne, layout_above). cbn [assoc]. now rewrite N.eqb_refl. }
    split; [lia|]. split; [|split].
    + exists r. cbn [h_live]. split; [exact R|]. split; [reflexivity|]. split; [reflexivity|]. split; [|congruence].
      apply (carray_read (n + 1) keys _ [] ((n, BResult r) :: h_live h)). constructor.
    + change (layout (n + 1) keys ++ (n, BResult r) :: h_live h) with (layout (n + 1) keys ++ [(n, BResult r)] ++ h_live h). rewrite app_assoc.
      apply keeps_app; [exact S|]. apply above_app; [eapply above_le; [|apply layout_above]; fold n; lia|]. constructor; [cbn; fold n; lia|constructor].
    + exists (mk_heap (nx2 (n + 1) keys) (h_live h)). split; [|split; [reflexivity|apply Gone]]. unfold free_result. destruct (N.eqb_spec n 0); [lia|]. cbn [h_live]. rewrite R.
      rewrite (carray_free (n + 1) keys _ [] ((n, BResult r) :: h_live h)) by (try constructor; lia). cbn [bind snd qr_values r ca_data N.eqb app].
      rewrite (free_at n _ [] (BResult r) (h_live h)) by (try constructor; lia). reflexivity.
  - injection E as <- <-. set (k := n + 1). set (w := nx2 k keys). set (r := mk_qres _ _ _ _). assert (W : k + 1 + N.of_nat (length keys) = w) by reflexivity.
    assert (R : assoc n (layout w (v :: values) ++ layout k keys ++ (n, BResult r) :: h_live h) = Some (BResult r)).
    { rewrite assoc_skip by (apply above_ne; eapply above_le; [|apply layout_above]; unfold k in W; lia).
      rewrite assoc_skip by (apply above_ne, layout_above). cbn [assoc]. now rewrite N.eqb_refl. }
    split; [lia|]. split; [|split].
    + exists r. cbn [h_live]. split; [exact R|]. split; [reflexivity|]. split; [reflexivity|]. split.
      * apply (carray_read k keys _ (layout w (v :: values)) ((n, BResult r) :: h_live h)). rewrite W. apply layout_above.
      * intros _. apply (carray_read w (v :: values) _ [] (layout k keys ++ (n, BResult r) :: h_live h)). constructor.
    + change ((n, BResult r) :: h_live h) with ([(n, BResult r)] ++ h_live h). rewrite !app_assoc. apply keeps_app; [exact S|].
      apply above_app; [apply above_app|]; [eapply above_le; [|apply layout_above]; fold n; unfold k in W; lia|eapply above_le; [|apply layout_above]; fold n; unfold k; lia|].
      constructor; [cbn; fold n; lia|constructor].
    + exists (mk_heap (nx2 w (v :: values)) (h_live h)). split; [|split; [reflexivity|apply Gone]]. unfold free_result. destruct (N.eqb_spec n 0); [lia|]. cbn [h_live]. rewrite R.
      cbn [qr_keys r]. rewrite (carray_free k keys _ (layout w (v :: values)) ((n, BResult r) :: h_live h)); [|unfold k; lia|rewrite W; apply layout_above].
      cbn [bind snd qr_values r ca_data]. destruct (N.eqb_spec w 0) as [C|_]; [unfold k in W; lia|].
      rewrite (carray_free w (v :: values) _ [] ((n, BResult r) :: h_live h)) by (try constructor; unfold k in W; lia). cbn [bind snd app].
      rewrite (free_at n _ [] (BResult r) (h_live h)) by (try constructor; lia). reflexivity.
Qed.

(** * Counts *)
Lemma to_int_mod z : (to_int z mod 4294967296 = z mod 4294967296)%Z.
Proof. unfold to_int. rewrite Zminus_mod, Zmod_mod, <- Zminus_mod. f_equal. lia. Qed.
Lemma sum_mod : forall l acc,
  ((fold_left (fun a n => to_int (a mod 18446744073709551616 + Z.of_N n)) l acc) mod 4294967296 = (acc + Z.of_N (total l)) mod 4294967296)%Z.
Proof.
  induction l as [|n l IH]; intros acc; cbn [fold_left total fold_right]; [f_equal; lia|].
  rewrite IH, Zplus_mod, to_int_mod, <- Zplus_mod. fold (total l). rewrite N2Z.inj_add.
  rewrite <- Z.add_assoc, Zplus_mod, <- (Zmod_div_mod 4294967296 18446744073709551616) by (try lia; exists 4294967296%Z; reflexivity).
  rewrite <- Zplus_mod. f_equal.
Qed.
Lemma until_zero_all s : Ok (until_zero (s ++ [0])) = Ok s <-> ~ In 0 s.
Proof.
  split.
  - intros E I. injection E as E. induction s as [|c s IH]; [destruct I|]. cbn [app until_zero] in E. destruct (N.eqb_spec c 0) as [->|C]; [discriminate|].
    injection E as E. destruct I as [I|I]; [congruence|exact (IH E I)].
  - intros N0. f_equal. induction s as [|c s IH]; [reflexivity|]. cbn [app until_zero]. destruct (N.eqb_spec c 0) as [->|C]; [exfalso; apply N0; now left|].
    rewrite IH; [reflexivity|]. intros I. apply N0. now right.
Qed.
Lemma free_head a nx b l : 0 < a -> free a (mk_heap nx ((a, b) :: l)) = Ok (mk_heap nx l).
Proof. intros A. exact (free_at a nx [] b l A (Forall_nil _)). Qed.
