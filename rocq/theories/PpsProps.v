(** PIR with puncturable pseudorandom sets: results (C83) and what the online server sees (C84). *)
From Coq Require Import List NArith Bool Arith Lia Permutation.
From Verif Require Import Base BaseProofs StoreModel PpsModel PpsSpec PpsProofs PpsProofs2 PpsProofs3 PpsProofs4 PpsProofs5 PpsProofs6.
Import ListNotations.

(** A generator yields 128-bit blocks. *)
Definition prg_ok (prg : N -> N * N) : Prop := forall x, (fst (prg x) < max64 * max64)%N /\ (snd (prg x) < max64 * max64)%N.

(** ** Small instances *)
Definition t_prg (x : N) : N * N := ((x + 1) mod 2 ^ 128, (x + 2 ^ 127 + 1) mod 2 ^ 128)%N.
Definition t_keys (c : nat) : N := (N.of_nat c mod 4 * 2 ^ 126 + (N.of_nat c + 1) mod 2 ^ 100)%N.
Definition t_words (c : nat) : N := (N.of_nat c mod 4 * 2 ^ 62)%N.
Definition t_bits : list bool := [true; true; false; false].
Definition t_walk (m : list (N * nat)) : list (N * nat) := m.

Lemma t_prg_ok : prg_ok t_prg.
Proof. intro x. unfold t_prg. cbn [fst snd]. change (max64 * max64)%N with (2 ^ 128)%N. split; apply N.mod_lt; discriminate. Qed.
Lemma t_keys_lt : forall c, (t_keys c < max64 * max64)%N.
Proof.
  intro c. unfold t_keys, max64.
  assert (A : (N.of_nat c mod 4 < 4)%N) by (apply N.mod_lt; discriminate).
  assert (B : ((N.of_nat c + 1) mod 2 ^ 100 < 2 ^ 100)%N) by (apply N.mod_lt; discriminate).
  change (2 ^ 126)%N with 85070591730234615865843651857942052864%N.
  change (2 ^ 100)%N with 1267650600228229401496703205376%N in *. lia.
Qed.
Lemma t_words_lt : forall c, (t_words c < max64)%N.
Proof.
  intro c. unfold t_words, max64. assert (A : (N.of_nat c mod 4 < 4)%N) by (apply N.mod_lt; discriminate).
  change (2 ^ 62)%N with 4611686018427387904%N. lia.
Qed.
Lemma t_walk_ok : forall m, Permutation (t_walk m) m. Proof. intro m. apply Permutation_refl. Qed.
Lemma t_zero : forall c, c < 64 -> no_zero_node t_prg (pp_depth 2) (t_keys c).
Proof.
  intros c Hc path H. change (pp_depth 2) with 1 in H. destruct path; [|cbn in H; lia]. cbn [tree_node].
  do 64 (destruct c as [|c]; [vm_compute; discriminate|]). lia.
Qed.

(** ** C83: results *)
Theorem C83_single : forall prg n s walk keys lambda lnc bits words i r1 r2 b k m ds,
  prg_ok prg -> (0 < n < 2 ^ 63)%N -> 0 < s -> (N.of_nat s < max64)%N -> N.to_nat n <= length bits -> (forall l, Permutation (walk l) l) ->
  (forall c, (words c < max64)%N) -> (r1 < max64)%N -> (r2 < max64)%N -> (i < n)%N ->
  (forall c, c < lambda -> (keys c < max64 * max64)%N /\ no_zero_node prg (pp_depth s) (keys c)) ->
  pp_ctor n s = Ok tt -> pp_setup prg n s keys lambda lnc words = Ok (k, m, ds) ->
  (b = false -> (exists d, In d ds /\ shifts_to n (pp_eval prg n s k) d i) ->
     pp_single prg n s walk keys lambda lnc bits words i r1 r2 b = Ok (nth_error bits (N.to_nat i))) /\
  (b = true \/ (forall d, In d ds -> ~ shifts_to n (pp_eval prg n s k) d i) ->
     pp_single prg n s walk keys lambda lnc bits words i r1 r2 b = Ok None).
Proof.
  intros prg n s walk keys lambda lnc bits words i r1 r2 b k m ds Hprg Hn Hs Hsm Hbits Hwalk HW Hr1 Hr2 Hi HK HC HS.
  exact (single_ok prg n s Hprg Hn Hs bits Hbits walk Hwalk keys lambda lnc words i r1 r2 b k m ds HW HK Hr1 Hr2 Hsm Hi HC HS).
Qed.
Print Assumptions C83_single.

Example C83_single_example :
  prg_ok t_prg /\ (forall c, (t_words c < max64)%N) /\ pp_ctor 4 2 = Ok tt /\
  (forall c, c < 64 -> (t_keys c < max64 * max64)%N /\ no_zero_node t_prg (pp_depth 2) (t_keys c)) /\
  (exists k m, pp_setup t_prg 4 2 t_keys 64 2 t_words = Ok (k, m, [0; 1; 2; 3]%N)) /\
  map (fun i => pp_single t_prg 4 2 t_walk t_keys 64 2 t_bits t_words i 5 7 false) [0; 1; 2; 3]%N
    = [Ok (Some true); Ok (Some true); Ok (Some false); Ok (Some false)] /\
  pp_single t_prg 4 2 t_walk t_keys 64 2 t_bits t_words 2 5 7 true = Ok None.
Proof.
  split; [exact t_prg_ok|]. split; [exact t_words_lt|]. split; [reflexivity|].
  split; [intros c H; split; [apply t_keys_lt|apply t_zero; exact H]|].
  split; [|split; vm_compute; reflexivity].
  let r := eval vm_compute in (pp_setup t_prg 4 2 t_keys 64 2 t_words) in match r with Ok (?k, ?m, _) => exists k, m end. vm_compute. reflexivity.
Qed.

(** Any number of queries: an answer is never wrong, *)
Theorem C83_multi : forall prg n s walk keys lambda lnc bits qs xs st ws,
  prg_ok prg -> (0 < n < 2 ^ 63)%N -> 2 <= s -> (N.of_nat s < max64)%N -> N.to_nat n <= length bits -> (forall l, Permutation (walk l) l) ->
  Forall (fun q => (fst q < n)%N /\ good_coin (snd q)) qs ->
  pp_multi prg n s walk keys lambda lnc bits qs = Ok (xs, st, ws) -> good_keys prg (pp_depth s) keys (c_pos st) ->
  Forall2 (fun q x => x = None \/ x = nth_error bits (N.to_nat (fst q))) qs xs.
Proof.
  intros prg n s walk keys lambda lnc bits qs xs st ws Hprg Hn Hs Hsm Hbits Hwalk F E GK.
  exact (proj2 (multi_good prg n s Hprg Hn Hs Hsm bits Hbits walk Hwalk keys lambda lnc qs xs st ws F E GK)).
Qed.
Print Assumptions C83_multi.

(** and one more query is answered exactly when the coin falls right and a key's set reaches the index. *)
Theorem C83_multi_step : forall prg n s walk keys lambda lnc bits qs xs st ws i coin k m p,
  prg_ok prg -> (0 < n < 2 ^ 63)%N -> 2 <= s -> (N.of_nat s < max64)%N -> N.to_nat n <= length bits -> (forall l, Permutation (walk l) l) ->
  Forall (fun q => (fst q < n)%N /\ good_coin (snd q)) qs -> (i < n)%N -> good_coin coin ->
  pp_multi prg n s walk keys lambda lnc bits qs = Ok (xs, st, ws) -> pp_gen prg n s keys lambda (c_pos st) = Ok (k, m, p) ->
  good_keys prg (pp_depth s) keys p ->
  exists x st' w, pp_multi prg n s walk keys lambda lnc bits (qs ++ [(i, coin)]) = Ok (xs ++ [x], st', ws ++ [w]) /\
    (snd coin = false -> (exists c, In c (c_ck st) /\ shifts_to n (pp_eval prg n s (fst c)) (snd c) i) -> x = nth_error bits (N.to_nat i)) /\
    (snd coin = true \/ (forall c, In c (c_ck st) -> ~ shifts_to n (pp_eval prg n s (fst c)) (snd c) i) -> x = None).
Proof.
  intros prg n s walk keys lambda lnc bits qs xs st ws i coin k m p Hprg Hn Hs Hsm Hbits Hwalk F Hi Fc E EG GK.
  exact (multi_step prg n s Hprg Hn Hs Hsm bits Hbits walk Hwalk keys lambda lnc qs xs st ws i coin k m p F Hi Fc E EG GK).
Qed.
Print Assumptions C83_multi_step.

Lemma t_good : forall p, p <= 20 -> good_keys t_prg (pp_depth 2) t_keys p.
Proof.
  intros p Hp. split.
  - intros c H. split; [apply t_keys_lt|apply t_zero; lia].
  - intros c d H1 H2. assert (Hd : d < 20) by lia.
    assert (A : forallb (fun c => forallb (fun d => (d <=? c) || (negb (fst (t_prg (t_keys c)) =? fst (t_prg (t_keys d)))%N && negb (snd (t_prg (t_keys c)) =? snd (t_prg (t_keys d)))%N)) (seq 0 20)) (seq 0 20) = true) by (vm_compute; reflexivity).
    rewrite forallb_forall in A. specialize (A c ltac:(apply in_seq; lia)). rewrite forallb_forall in A. specialize (A d ltac:(apply in_seq; lia)).
    apply orb_true_iff in A. destruct A as [A|A]; [apply Nat.leb_le in A; lia|].
    apply andb_true_iff in A. destruct A as [A B]. apply negb_true_iff, N.eqb_neq in A. apply negb_true_iff, N.eqb_neq in B. split; assumption.
Qed.

(** Index 0, a query thrown away, index 2 with the key placed by the first, index 3. *)
Definition t_qs : list (N * (N * N * bool)) := [(0, (5, 7, false)); (1, (5, 7, true)); (2, (2 ^ 63, 7, false)); (3, (5, 7, false))]%N.
Example C83_multi_example :
  exists st ws, pp_multi t_prg 4 2 t_walk t_keys 64 2 t_bits t_qs = Ok ([Some true; None; Some false; Some false], st, ws) /\
  good_keys t_prg (pp_depth 2) t_keys (c_pos st) /\ Forall (fun q => (fst q < 4)%N /\ good_coin (snd q)) t_qs /\
  (exists k m p, pp_gen t_prg 4 2 t_keys 64 (c_pos st) = Ok (k, m, p) /\ good_keys t_prg (pp_depth 2) t_keys p).
Proof.
  let r := eval vm_compute in (pp_multi t_prg 4 2 t_walk t_keys 64 2 t_bits t_qs) in
  match r with Ok (_, ?st, ?ws) => exists st, ws end.
  split; [vm_compute; reflexivity|]. split; [apply t_good; cbn [c_pos]; lia|].
  split; [repeat constructor|]. cbn [c_pos].
  match goal with |- exists k m p, ?X = _ /\ _ => let r := eval vm_compute in X in match r with Ok (?k, ?m, ?p) => exists k, m, p end end.
  split; [vm_compute; reflexivity|]. apply t_good. lia.
Qed.

(** Query appends to the key it is given: used for a second query, the answer is wrong. *)
Theorem C83_reused_key_refuted : exists prg n s walk keys lambda lnc bits words k m ds h j pk j' pk' a x,
  prg_ok prg /\ (forall c, (keys c < max64 * max64)%N) /\ (forall c, c < lambda -> no_zero_node prg (pp_depth s) (keys c)) /\
  pp_ctor n s = Ok tt /\ pp_setup prg n s keys lambda lnc words = Ok (k, m, ds) /\ pp_hint prg n s bits k ds = Ok h /\
  pp_query prg n s walk 0 k m ds 5 7 false pk_new = Ok (j, pk) /\
  pp_query prg n s walk 2 k m ds 5 7 false pk = Ok (j', pk') /\
  pp_answer prg n s bits pk' = Ok a /\ pp_recon j' false h a = Ok (Some x) /\ nth_error bits 2 <> Some x.
Proof.
  exists t_prg, 4%N, 2, t_walk, t_keys, 64, 2%N, t_bits, t_words.
  let r := eval vm_compute in (pp_setup t_prg 4 2 t_keys 64 2 t_words) in
  match r with Ok (?k, ?m, ?ds) => exists k, m, ds;
    let h := eval vm_compute in (pp_hint t_prg 4 2 t_bits k ds) in
    let q := eval vm_compute in (pp_query t_prg 4 2 t_walk 0 k m ds 5 7 false pk_new) in
    match h with Ok ?h => match q with Ok (?j, ?pk) => exists h, j, pk;
      let q' := eval vm_compute in (pp_query t_prg 4 2 t_walk 2 k m ds 5 7 false pk) in
      match q' with Ok (?j', ?pk') => exists j', pk';
        let a := eval vm_compute in (pp_answer t_prg 4 2 t_bits pk') in
        match a with Ok ?a => exists a; let x := eval vm_compute in (pp_recon j' false h a) in match x with Ok (Some ?x) => exists x end end
      end end end
  end.
  split; [exact t_prg_ok|]. split; [exact t_keys_lt|]. split; [exact t_zero|].
  repeat (split; [vm_compute; reflexivity|]). vm_compute. discriminate.
Qed.
Print Assumptions C83_reused_key_refuted.

(** A node of the tree that happens to be 0 is taken for the unknown path: the answer is wrong. *)
Definition z_prg (x : N) : N * N :=
  if (x =? 5)%N then (0, 7)%N else if (x =? 0)%N then (2 ^ 125, 2 * 2 ^ 125)%N else if (x =? 7)%N then (3 * 2 ^ 125, 4 * 2 ^ 125)%N else (1, 1)%N.
Theorem C83_zero_node_refuted : exists prg n s walk keys lambda lnc bits words i r1 r2 x,
  prg_ok prg /\ (forall c, (keys c < max64 * max64)%N) /\ pp_ctor n s = Ok tt /\ N.to_nat n = length bits /\
  pp_single prg n s walk keys lambda lnc bits words i r1 r2 false = Ok (Some x) /\ nth_error bits (N.to_nat i) <> Some x.
Proof.
  exists z_prg, 8%N, 4, t_walk, (fun _ => 5%N), 64, 3%N, [true; false; false; false; false; false; false; false],
    (fun c => N.of_nat c mod 8 * 2 ^ 61)%N, 3%N, 5%N, 7%N, true.
  split. { intro x. unfold z_prg. repeat match goal with |- context [if ?c then _ else _] => destruct c end; split; reflexivity. }
  split; [reflexivity|]. split; [reflexivity|]. split; [reflexivity|]. split; [vm_compute; reflexivity|]. vm_compute. discriminate.
Qed.
Print Assumptions C83_zero_node_refuted.

(** Sets of one element pass the check of the constructor, but AnswerMulti then reads the first entry of an empty key. *)
Theorem C83_one_element_refuted : exists prg n keys lambda lnc bits coin,
  prg_ok prg /\ (forall c, (keys c < max64 * max64)%N) /\ pp_ctor n 1 = Ok tt /\ N.to_nat n = length bits /\ good_coin coin /\
  pp_multi prg n 1 t_walk keys lambda lnc bits [(0%N, coin)] = UB.
Proof.
  exists t_prg, 2%N, t_keys, 64, 1%N, [true; false], (5%N, 7%N, false).
  split; [exact t_prg_ok|]. split; [exact t_keys_lt|]. split; [reflexivity|]. split; [reflexivity|]. split; [split; reflexivity|]. vm_compute. reflexivity.
Qed.
Print Assumptions C83_one_element_refuted.

(** Setup that wants more shifts than there are indices never succeeds. *)
Theorem C83_too_many_shifts : forall prg n s keys lambda lnc words x,
  (0 < n < 2 ^ 63)%N -> (forall c, (words c < max64)%N) -> (n < pp_M n s lnc)%N ->
  pp_setup prg n s keys lambda lnc words <> Ok x.
Proof.
  intros prg n s keys lambda lnc words x Hn HW HM E. unfold pp_setup in E. destruct (pp_gen prg n s keys lambda 0) as [[[k m] p]| | |]; try discriminate. cbn [bind] in E.
  destruct (pp_draw n words (N.to_nat (10 * pp_M n s lnc)) (N.to_nat (pp_M n s lnc)) 0 []) as [ds| | |] eqn:ED; try discriminate.
  assert (B : (n < max64)%N) by (apply (N.lt_trans _ (2 ^ 63)); [apply Hn|reflexivity]).
  pose proof (draw_bound n words _ _ _ _ _ (proj1 Hn) B HW (NoDup_nil _) (Forall_nil _) ED) as X. cbn [length] in X. lia.
Qed.
Print Assumptions C83_too_many_shifts.
(** Set sizes the constructor refuses: too small, too large; and one it takes. *)
Example C83_sizes_example : pp_ctor 100 2 = Throw /\ pp_ctor 7 4 = Throw /\ pp_ctor 8 2 = Ok tt.
Proof. repeat split; vm_compute; reflexivity. Qed.
(** 8 indices and sets of 2 pass the check of the constructor; ceil(log 8) is 3. *)
Example C83_too_many_shifts_example : pp_ctor 8 2 = Ok tt /\ (8 < pp_M 8 2 3)%N.
Proof. split; reflexivity. Qed.

(** ** C84: what the online server sees *)
(** The server receives both punctured keys.  When the key placed by one query is used by a later one
    for another index, the two messages give the earlier index. *)
Theorem C84_linked_refuted : exists infer : (N -> N * N) -> N -> nat -> ppk -> ppk -> list N,
  forall prg n s walk keys lambda lnc bits qs xs st ws i1 c1 a1 st1 w1 mid ys st2 us i2 c2 a2 st3 w2 j,
  prg_ok prg -> (0 < n < 2 ^ 63)%N -> 2 <= s -> (N.of_nat s < max64)%N -> N.to_nat n <= length bits -> (forall l, Permutation (walk l) l) ->
  Forall (fun q => (fst q < n)%N /\ good_coin (snd q)) qs -> Forall (fun q => (fst q < n)%N /\ good_coin (snd q)) mid ->
  (i1 < n)%N -> (i2 < n)%N -> good_coin c1 -> good_coin c2 ->
  pp_multi prg n s walk keys lambda lnc bits qs = Ok (xs, st, ws) ->
  pp_round prg n s walk keys lambda bits st i1 c1 = Ok (a1, st1, w1) ->
  pp_rounds prg n s walk keys lambda bits st1 mid = Ok (ys, st2, us) ->
  pp_round prg n s walk keys lambda bits st2 i2 c2 = Ok (a2, st3, w2) ->
  good_keys prg (pp_depth s) keys (c_pos st3) -> i1 <> i2 ->
  nth_error (c_ck st) j <> nth_error (c_ck st1) j -> nth_error (c_ck st1) j = nth_error (c_ck st2) j ->
  nth_error (c_ck st2) j <> nth_error (c_ck st3) j ->
  infer prg n s (fst w1) (snd w2) = [i1].
Proof.
  exists infer.
  intros prg n s walk keys lambda lnc bits qs xs st ws i1 c1 a1 st1 w1 mid ys st2 us i2 c2 a2 st3 w2 j Hprg Hn Hs Hsm Hbits Hwalk.
  apply (linked prg n s Hprg Hn Hs Hsm bits Hbits walk Hwalk keys lambda lnc).
Qed.
Print Assumptions C84_linked_refuted.

Example C84_linked_example : exists st a1 st1 w1 ys st2 us a2 st3 w2,
  pp_multi t_prg 4 2 t_walk t_keys 64 2 t_bits [] = Ok ([], st, []) /\
  pp_round t_prg 4 2 t_walk t_keys 64 t_bits st 0 (5%N, 7%N, false) = Ok (a1, st1, w1) /\
  pp_rounds t_prg 4 2 t_walk t_keys 64 t_bits st1 [(1, (5, 7, true))%N] = Ok (ys, st2, us) /\
  pp_round t_prg 4 2 t_walk t_keys 64 t_bits st2 2 (2 ^ 63, 7, false)%N = Ok (a2, st3, w2) /\
  good_keys t_prg (pp_depth 2) t_keys (c_pos st3) /\
  nth_error (c_ck st) 0 <> nth_error (c_ck st1) 0 /\ nth_error (c_ck st1) 0 = nth_error (c_ck st2) 0 /\
  nth_error (c_ck st2) 0 <> nth_error (c_ck st3) 0 /\ infer t_prg 4 2 (fst w1) (snd w2) = [0%N].
Proof.
  let r := eval vm_compute in (pp_multi t_prg 4 2 t_walk t_keys 64 2 t_bits []) in
  match r with Ok (_, ?st, _) => exists st;
    let q := eval vm_compute in (pp_round t_prg 4 2 t_walk t_keys 64 t_bits st 0 (5%N, 7%N, false)) in
    match q with Ok (?a1, ?st1, ?w1) => exists a1, st1, w1;
      let q := eval vm_compute in (pp_rounds t_prg 4 2 t_walk t_keys 64 t_bits st1 [(1, (5, 7, true))%N]) in
      match q with Ok (?ys, ?st2, ?us) => exists ys, st2, us;
        let q := eval vm_compute in (pp_round t_prg 4 2 t_walk t_keys 64 t_bits st2 2 (2 ^ 63, 7, false)%N) in
        match q with Ok (?a2, ?st3, ?w2) => exists a2, st3, w2 end end end
  end.
  do 4 (split; [vm_compute; reflexivity|]).
  split; [apply t_good; cbn [c_pos]; lia|]. split; [cbn; discriminate|]. split; [reflexivity|]. split; [cbn; discriminate|]. vm_compute. reflexivity.
Qed.

(** One query.  A choice is a key with its shifts and the word for a failed search, the coin as one of
    [n] numbers of which [s - 1] make it true, and the word for the element to puncture. *)
Definition all_choices (n : N) (setups : list (N * list N * N)) (words : list N) : list ((N * list N * N) * nat * N) :=
  list_prod (list_prod setups (seq 0 (N.to_nat n))) words.
Definition message (prg : N -> N * N) (n : N) (s : nat) (walk : list (N * nat) -> list (N * nat)) (i : N)
  (c : (N * list N * N) * nat * N) : outcome ppk :=
  let '((k, ds, r1), t, w) := c in omap snd (pp_query prg n s walk i k (pp_map prg n s k) ds r1 w (t <? s - 1) pk_new).
(** The indices the server reads for a message. *)
Definition indices_read (prg : N -> N * N) (n : N) (s : nat) (m : outcome ppk) : list N :=
  match m with
  | Ok pk => match pp_evalp prg n s pk with Ok l => map (fun v => ((v + pk_delta pk) mod n)%N) l | _ => [] end
  | _ => []
  end.
(** Key and shifts as Setup yields them; the words fall on each element of the set once. *)
Definition fair_setup (prg : N -> N * N) (n : N) (s : nat) (o : N * list N * N) : Prop :=
  let '(k, ds, r1) := o in
  (k < max64 * max64)%N /\ no_zero_node prg (pp_depth s) k /\ length (pp_map prg n s k) = s /\ Forall (fun d => (d < n)%N) ds /\ (r1 < max64)%N.
Definition fair_words (s : nat) (words : list N) : Prop :=
  Forall (fun w => (w < max64)%N) words /\ Permutation (map (fun w => N.to_nat (pp_lemire64 w (N.of_nat s))) words) (seq 0 s).

Lemma sets_same : forall prg n s walk setups words i,
  sets prg n s walk setups words i = map (fun c => indices_read prg n s (message prg n s walk i c)) (all_choices n setups words).
Proof. intros. apply map_ext. intros [[[[k ds] r1] t] w]. reflexivity. Qed.

(** The index asked for is among those read in (s-1)(s-1) of the n*s choices for each setup ... *)
Theorem C84_own_index : forall prg n s walk setups words i,
  prg_ok prg -> (0 < n < 2 ^ 63)%N -> 2 <= s -> (N.of_nat s < max64)%N -> (forall l, Permutation (walk l) l) ->
  Forall (fair_setup prg n s) setups -> fair_words s words -> (i < n)%N ->
  occurrences i (map (fun c => indices_read prg n s (message prg n s walk i c)) (all_choices n setups words)) = length setups * (s - 1) * (s - 1).
Proof.
  intros prg n s walk setups words i Hprg Hn Hs Hsm Hwalk HO [HW HU] Hi. rewrite <- sets_same.
  exact (own_count prg n s Hprg Hn Hs Hsm walk Hwalk setups words HO HW HU i Hi).
Qed.
Print Assumptions C84_own_index.
(** ... while on average an index is read in s(s-1) of them. *)
Theorem C84_all_indices : forall prg n s walk setups words i,
  prg_ok prg -> (0 < n < 2 ^ 63)%N -> 2 <= s -> (N.of_nat s < max64)%N -> (forall l, Permutation (walk l) l) ->
  Forall (fair_setup prg n s) setups -> fair_words s words -> (i < n)%N ->
  fold_right Nat.add 0 (map (fun x => occurrences (N.of_nat x) (map (fun c => indices_read prg n s (message prg n s walk i c)) (all_choices n setups words))) (seq 0 (N.to_nat n)))
  = N.to_nat n * (length setups * s * (s - 1)).
Proof.
  intros prg n s walk setups words i Hprg Hn Hs Hsm Hwalk HO [HW HU] Hi. rewrite <- sets_same.
  pose proof (total_count prg n s Hprg Hn Hs Hsm walk Hwalk setups words HO HW HU i Hi) as T. unfold sum in T. rewrite T. ring.
Qed.
Print Assumptions C84_all_indices.
(** So the messages are not the same for all indices. *)
Theorem C84_one_query_refuted : forall prg n s walk setups words,
  prg_ok prg -> (0 < n < 2 ^ 63)%N -> 2 <= s -> (N.of_nat s < max64)%N -> (forall l, Permutation (walk l) l) ->
  Forall (fair_setup prg n s) setups -> setups <> [] -> fair_words s words ->
  exists i, (i < n)%N /\ ~ Permutation (map (message prg n s walk i) (all_choices n setups words)) (map (message prg n s walk 0%N) (all_choices n setups words)).
Proof.
  intros prg n s walk setups words Hprg Hn Hs Hsm Hwalk HO HNE [HW HU].
  destruct (depends prg n s Hprg Hn Hs Hsm walk Hwalk setups words HO HW HU HNE) as (i & Hi & D). exists i. split; [exact Hi|].
  intro P. apply D. rewrite !sets_same, <- !(map_map (message prg n s walk _) (indices_read prg n s)), !occ_cnt.
  apply cnt_perm. apply Permutation_map. exact P.
Qed.
Print Assumptions C84_one_query_refuted.

Example C84_one_query_example :
  Forall (fair_setup t_prg 4 2) [(t_keys 0, [0; 1; 2; 3]%N, 5%N); (t_keys 1, [2%N], 5%N)] /\ fair_words 2 [0; 2 ^ 63]%N.
Proof.
  split.
  - repeat constructor; try (apply (t_zero 0); lia); try (apply (t_zero 1); lia); reflexivity.
  - split; [repeat constructor|]. vm_compute. apply Permutation_refl.
Qed.
