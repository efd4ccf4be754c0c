(** One retrieval, and many. *)
From Coq Require Import List NArith Bool Arith Lia Permutation.
From Verif Require Import Base BaseProofs StoreModel KkrtProofs PpsModel PpsSpec PpsProofs PpsProofs2.
Import ListNotations.

Lemma pp_mapM_map : forall (A B : Type) (f : A -> outcome B) g l, (forall x, In x l -> f x = Ok (g x)) -> pp_mapM f l = Ok (map g l).
Proof.
  induction l; intros H; [reflexivity|]. cbn [pp_mapM map]. rewrite (H a) by (left; reflexivity). cbn [bind].
  rewrite IHl by (intros; apply H; right; assumption). reflexivity.
Qed.

Lemma gen_spec : forall prg n s keys fuel pos k m p, pp_gen prg n s keys fuel pos = Ok (k, m, p) ->
  exists c, pos <= c /\ S c = p /\ c < pos + fuel /\ k = keys c /\ m = pp_map prg n s k /\ length m = s.
Proof.
  intros prg n s keys. induction fuel; intros pos k m p E; [discriminate|]. cbn [pp_gen] in E.
  destruct (Nat.eqb_spec (length (pp_map prg n s (keys pos))) s) as [L|L].
  - injection E as <- <- <-. exists pos. repeat split; try lia; try reflexivity; try exact L.
  - destruct (IHfuel _ _ _ _ E) as (c & A & B & C & D). exists c. repeat split; try lia; apply D.
Qed.

Section S.
Variable prg : N -> N * N.
Variable n : N.
Variable s : nat.
Hypothesis Hprg : forall x, (fst (prg x) < max64 * max64)%N /\ (snd (prg x) < max64 * max64)%N.
Hypothesis Hn : (0 < n < half)%N.
Hypothesis Hs : 0 < s.
Variable bits : list bool.
Hypothesis Hbits : N.to_nat n <= length bits.
Variable walk : list (N * nat) -> list (N * nat).
Hypothesis Hwalk : forall m, Permutation (walk m) m.
Variable keys : nat -> N.
Variable lambda : nat.
Variable lnc : N.
Notation vals := (vals prg n s).
Notation ssum := (ssum n bits).
Notation at_ := (at_ bits).

Lemma pick_ok : forall k r, length (pp_map prg n s k) = s -> (r < max64)%N -> (N.of_nat s < max64)%N ->
  exists v pos, pp_pick s walk (pp_map prg n s k) r = Ok v /\ nth_error (vals k) pos = Some v.
Proof.
  intros k r L Hr Hsm. unfold pp_pick.
  assert (B : (pp_lemire64 r (N.of_nat s) < N.of_nat s)%N) by (apply pp_lemire64_lt; lia).
  destruct (nth_error (walk (pp_map prg n s k)) (N.to_nat (pp_lemire64 r (N.of_nat s)))) as [[v pos]|] eqn:E.
  - exists v, pos. split; [reflexivity|]. apply nth_error_In in E. apply (Permutation_in _ (Hwalk _)) in E.
    destruct (map_full prg n s Hprg Hn Hs k L) as [EM _]. rewrite EM in E. apply (pairs_in prg n s Hprg Hn Hs) in E. exact E.
  - apply nth_error_None in E. rewrite (Permutation_length (Hwalk _)), L in E. lia.
Qed.

Lemma punc_ok : forall k v pos i d pk0, length (pp_map prg n s k) = s -> nth_error (vals k) pos = Some v -> v = i ->
  pp_punc prg s (pp_map prg n s k) i k (mk_ppk [] pk0 d)
  = Ok (mk_ppk (pp_copath prg (pp_depth s) (N.of_nat pos) k) (N.of_nat pos) d).
Proof.
  intros k v pos i d pk0 L E <-. unfold pp_punc. apply (find_map prg n s Hprg Hn Hs) in E; [|exact L]. rewrite E. reflexivity.
Qed.

(** ** One retrieval *)
Lemma insert_lt : forall x l, (x < n)%N -> Forall (fun d => (d < n)%N) l -> Forall (fun d => (d < n)%N) (pp_insert x l).
Proof.
  intros x l Hx. induction 1; cbn [pp_insert]; [repeat constructor; exact Hx|].
  destruct (x <? x0)%N; [repeat constructor; assumption|]. destruct (x =? x0)%N; constructor; assumption.
Qed.
Lemma draw_lt : forall words fuel need pos ds out, (forall c, (words c < max64)%N) -> Forall (fun d => (d < n)%N) ds ->
  pp_draw n words fuel need pos ds = Ok out -> Forall (fun d => (d < n)%N) out.
Proof.
  intros words fuel. induction fuel; intros need pos ds out HW F E; [discriminate|]. cbn [pp_draw] in E.
  destruct need; [injection E as <-; exact F|]. destruct (pp_mem _ ds); [exact (IHfuel _ _ _ _ HW F E)|].
  refine (IHfuel _ _ _ _ HW _ E). apply insert_lt; [|exact F]. apply pp_lemire64_lt; [apply HW|]. unfold half, max64 in *; lia.
Qed.

Lemma search_spec : forall k i, length (pp_map prg n s k) = s -> (k < max64 * max64)%N -> (i < n)%N ->
  forall ds j0, Forall (fun d => (d < n)%N) ds ->
  match pp_search n (pp_map prg n s k) i j0 ds with
  | Some (j, d) => j0 <= j /\ nth_error ds (j - j0) = Some d /\ (d < n)%N /\ shifts_to n (vals k) d i
  | None => forall d, In d ds -> ~ shifts_to n (vals k) d i
  end.
Proof.
  intros k i L Hk Hi. induction ds as [|d ds IH]; intros j0 F; cbn [pp_search]; [intros d []|].
  inversion F as [|? ? Fd Fds]; subst. destruct (pp_sub_spec i d n Hn Hi Fd) as [S1 S2].
  pose proof (vals_lt prg n s Hprg Hn Hs k Hk) as VL. rewrite Forall_forall in VL.
  destruct (pp_find (pp_map prg n s k) (pp_sub i d n)) as [pos|] eqn:E.
  - split; [lia|]. rewrite Nat.sub_diag. split; [reflexivity|]. split; [exact Fd|].
    apply (find_map prg n s Hprg Hn Hs k _ _ L) in E. exists (pp_sub i d n). split; [exact (nth_error_In _ _ E)|]. apply S2; [exact S1|reflexivity].
  - specialize (IH (S j0) Fds). destruct (pp_search n (pp_map prg n s k) i (S j0) ds) as [[j d']|].
    + destruct IH as (A & B & C & D). split; [lia|]. replace (j - j0) with (S (j - S j0)) by lia. repeat split; assumption.
    + intros d' [<-|J]; [|exact (IH d' J)]. intros (v & Jv & Ev). destruct (In_nth_error _ _ Jv) as [pos Ep].
      apply S2 in Ev; [|apply VL; exact Jv]. rewrite Ev in E. apply (find_map prg n s Hprg Hn Hs k _ _ L) in Ep. rewrite Ep in E. discriminate.
Qed.

Lemma single_ok : forall words i r1 r2 b k m ds,
  (forall c, (words c < max64)%N) -> (forall c, c < lambda -> (keys c < max64 * max64)%N /\ no_zero_node prg (pp_depth s) (keys c)) ->
  (r1 < max64)%N -> (r2 < max64)%N -> (N.of_nat s < max64)%N -> (i < n)%N ->
  pp_ctor n s = Ok tt -> pp_setup prg n s keys lambda lnc words = Ok (k, m, ds) ->
  (b = false -> (exists d, In d ds /\ shifts_to n (pp_eval prg n s k) d i) ->
     pp_single prg n s walk keys lambda lnc bits words i r1 r2 b = Ok (nth_error bits (N.to_nat i))) /\
  (b = true \/ (forall d, In d ds -> ~ shifts_to n (pp_eval prg n s k) d i) ->
     pp_single prg n s walk keys lambda lnc bits words i r1 r2 b = Ok None).
Proof.
  intros words i r1 r2 b k m ds HW HK Hr1 Hr2 Hsm Hi HC HS.
  assert (P : exists x, pp_single prg n s walk keys lambda lnc bits words i r1 r2 b = Ok x /\
            (b = true \/ (forall d, In d ds -> ~ shifts_to n (vals k) d i) -> x = None) /\
            (b = false -> (exists d, In d ds /\ shifts_to n (vals k) d i) -> x = Some (at_ i)) /\ NoDup (vals k)).
  { unfold pp_single. rewrite HC, HS. cbn [bind]. unfold pp_setup in HS.
    destruct (pp_gen prg n s keys lambda 0) as [[[k0 m0] p0]| | |] eqn:EG; try discriminate. cbn [bind] in HS.
    destruct (pp_draw n words (N.to_nat (10 * pp_M n s lnc)) (N.to_nat (pp_M n s lnc)) 0 []) as [ds0| | |] eqn:ED; try discriminate.
    cbn [bind] in HS. injection HS as -> -> ->.
    destruct (gen_spec prg n s keys _ _ _ _ _ EG) as (c & _ & _ & Hc & Ek & Em & L). rewrite Em in L |- *.
    destruct (HK c) as [Hk HZ]; [lia|]. rewrite <- Ek in Hk, HZ.
    assert (FD : Forall (fun d => (d < n)%N) ds) by exact (draw_lt _ _ _ _ _ _ HW (Forall_nil _) ED).
    destruct (map_full prg n s Hprg Hn Hs k L) as [_ ND].
    pose proof (vals_lt prg n s Hprg Hn Hs k Hk) as VL.
    assert (EH : pp_hint prg n s bits k ds = Ok (map (fun d => ssum d (vals k)) ds)).
    { unfold pp_hint. apply pp_mapM_map. intros d J. rewrite Forall_forall in FD. rewrite eval_vals by exact ND.
      apply (xor_ok prg n s); try assumption. exact (FD d J). }
    rewrite EH. cbn [bind]. unfold pp_query. pose proof (search_spec k i L Hk Hi ds 0 FD) as SS.
    destruct (pick_ok k r2 L Hr2 Hsm) as (v2 & p2 & EP2 & EN2).
    destruct (pp_search n (pp_map prg n s k) i 0 ds) as [[j d]|].
    - destruct SS as (_ & Ej & Hd & v & Jv & Ev). rewrite Nat.sub_0_r in Ej. cbn [bind].
      destruct (pp_sub_spec i d n Hn Hi Hd) as [S1 S2].
      assert (Hv : (v < n)%N) by (rewrite Forall_forall in VL; exact (VL v Jv)). apply (S2 v Hv) in Ev.
      destruct (In_nth_error _ _ Jv) as [pos Ep].
      destruct b; cbn [bind].
      + rewrite EP2. cbn [bind pk_ks pk_pos pk_new]. rewrite (punc_ok k v2 p2 v2 d 0%N L EN2 eq_refl). cbn [bind].
        rewrite (answer_ok prg n s Hprg Hn Hs bits Hbits k p2 v2 d Hk Hd HZ ND EN2). cbn [bind pp_recon].
        eexists. split; [reflexivity|]. split; [intros; reflexivity|]. split; [discriminate|exact ND].
      + cbn [pk_ks pk_pos pk_new]. rewrite (punc_ok k v pos (pp_sub i d n) d 0%N L Ep (eq_sym Ev)). cbn [bind].
        rewrite (answer_ok prg n s Hprg Hn Hs bits Hbits k pos v d Hk Hd HZ ND Ep). cbn [bind pp_recon].
        rewrite nth_error_map, Ej. cbn [option_map].
        eexists. split; [reflexivity|]. split.
        * intros [X|X]; [discriminate|]. exfalso. apply (X d (nth_error_In _ _ Ej)). exists v. split; [exact Jv|]. apply S2; assumption.
        * split; [|exact ND]. intros _ _. apply (S2 v Hv) in Ev. rewrite Ev. rewrite xorb_assoc, xorb_nilpotent, xorb_false_r. reflexivity.
    - destruct (pick_ok k r1 L Hr1 Hsm) as (v1 & p1 & EP1 & EN1). rewrite EP1. cbn [bind].
      assert (Hv1 : (v1 < n)%N) by (rewrite Forall_forall in VL; exact (VL v1 (nth_error_In _ _ EN1))).
      destruct (pp_sub_spec i v1 n Hn Hi Hv1) as [S1 S2]. set (d := pp_sub i v1 n) in *.
      assert (Back : pp_sub i d n = v1).
      { destruct (pp_sub_spec i d n Hn Hi S1) as [_ T2]. apply T2; [exact Hv1|].
        pose proof (proj1 (S2 d S1) eq_refl) as Q. rewrite N.add_comm in Q. exact Q. }
      assert (FIN : forall v p, nth_error (vals k) p = Some v -> forall ip, v = ip ->
        exists x, (do pk' <- pp_punc prg s (pp_map prg n s k) ip k (mk_ppk [] 0 d);
                   do a <- pp_answer prg n s bits pk'; pp_recon None b (map (fun d => ssum d (vals k)) ds) a) = Ok x /\ x = None).
      { intros v p EN ip Hip. rewrite (punc_ok k v p ip d 0%N L EN Hip). cbn [bind].
        rewrite (answer_ok prg n s Hprg Hn Hs bits Hbits k p v d Hk S1 HZ ND EN). cbn [bind pp_recon]. eexists. split; reflexivity. }
      assert (R : exists x, (do (j, pk) <- (do ip <- (if b then pp_pick s walk (pp_map prg n s k) r2 else Ok (pp_sub i d n));
                    do pk' <- pp_punc prg s (pp_map prg n s k) ip k (mk_ppk (pk_ks pk_new) (pk_pos pk_new) d);
                    Ok (None, pk'));
                    do a <- pp_answer prg n s bits pk; pp_recon j b (map (fun d => ssum d (vals k)) ds) a) = Ok x /\ x = None).
      { destruct b.
        - rewrite EP2. cbn [bind]. destruct (FIN v2 p2 EN2 v2 eq_refl) as (x & E & X). exists x. split; [|exact X].
          rewrite <- E. cbn [pk_ks pk_pos pk_new]. destruct (pp_punc prg s (pp_map prg n s k) v2 k (mk_ppk [] 0 d)); reflexivity.
        - cbn [bind]. destruct (FIN v1 p1 EN1 (pp_sub i d n) (eq_sym Back)) as (x & E & X). exists x. split; [|exact X].
          rewrite <- E. cbn [pk_ks pk_pos pk_new]. destruct (pp_punc prg s (pp_map prg n s k) (pp_sub i d n) k (mk_ppk [] 0 d)); reflexivity. }
      destruct R as (x & E & ->). exists None. split; [exact E|]. split; [reflexivity|]. split; [|exact ND].
      intros _ (d' & Jd & X). exfalso. exact (SS d' Jd X). }
  destruct P as (x & E & P1 & P2 & ND). rewrite (eval_vals prg n s k ND). split.
  - intros B X. rewrite E, (P2 B X). unfold PpsProofs2.at_. rewrite (nth_error_nth' bits false) by lia. reflexivity.
  - intros X. rewrite E, (P1 X). reflexivity.
Qed.
End S.
