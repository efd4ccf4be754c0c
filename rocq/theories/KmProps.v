(** C81, C82: KMPRT17 multi-party PSI: the leader outputs every common item; items that somebody
    lacks, and outputs of other parties, are accidents of the OPRF and of the zero shares. *)
From Coq Require Import List NArith Bool Arith Lia Permutation.
From Verif Require Import Base BaseProofs StoreModel KmModel KmSpec KmProofs KmProofs2 KmProofs3 KmProofs4.
Import ListNotations.

(** For every number of parties, leader, inputs (repeated rows and different sizes allowed),
    randomness and walk of the maps: if the run ends, every party's output is made of its own input
    rows in their order, and the leader's has every item that all parties have.  Assumed: the hash
    of [x] is not 0 and not that of another input; and no OPRF value for [x] equals a value
    programmed for it (in the first round a zero share, in the second a sum of them; [p j] is the
    first place of [x] at party [j]). *)
Theorem C81_common_found : forall ro tries H bins_of n leader zero pad R inputs outs,
  let bins := bins_of (list_max (map (@length _) inputs)) in
  leader < n -> length inputs = n -> Forall (fun i => i <> []) inputs ->
  (forall b s d l, Permutation (kr_walk (R b s d) l) l) ->
  km_run ro tries H bins_of n leader zero pad R inputs = Ok outs ->
  (forall me, me < n -> subseq (nth me outs []) (nth me inputs [])) /\
  forall x p,
    (forall j, j < n -> first_at x (p j) (nth j inputs [])) ->
    (forall i y, In i inputs -> In y i -> H y = H x -> y = x) -> H x <> 0%N ->
    (forall src dst ot, src < n -> dst < n -> src <> dst -> ot < fst bins + snd bins ->
       kr_oprf (R false src dst) ot (H x) <> km_zero n zero src dst (p src)) ->
    (forall src ot, src < n -> src <> leader -> ot < fst bins + snd bins ->
       kr_oprf (R true src leader) ot (H x) <> km_xor (map (fun s => km_zero n zero s src (p s)) (seq 0 n))) ->
    In x (nth leader outs []).
Proof.
  intros ro tries H bins_of n leader zero pad R inputs outs bins HL HN HE HW E. split.
  - intros me Hm. exact (outputs_sub ro tries H bins_of n leader zero pad R inputs outs me HN HE E Hm).
  - intros x p HP HI HZ H1 H2. exact (common_found ro tries H bins_of n leader zero pad R inputs outs x p HL HN HE E HI HZ HW HP H1 H2).
Qed.
Print Assumptions C81_common_found.

(** Fewer items than parties: recv_shares has one place per item, but is written at every rank.  No
    run with 0 < largest input < number of parties ends. *)
Theorem C81_few_items : forall ro tries H bins_of n leader zero pad R inputs outs,
  Forall (fun i => i <> []) inputs -> list_max (map (@length _) inputs) < n ->
  km_run ro tries H bins_of n leader zero pad R inputs <> Ok outs.
Proof. exact few_items. Qed.
Print Assumptions C81_few_items.

(** A toy world. *)
Definition c81_ro (e nonce : N) : N := (e * (nonce + 1) / 4294967296)%N.
Definition c81_H (x : list N) : N := (nth 0 x 0 * 18446744073709551619 + 5)%N.
Definition c81_bins (c : nat) : nat * nat := (c + 1, 1).
Definition c81_zero (me dst k : nat) : N := u64 (N.of_nat (1 + me + 5 * dst + 25 * k) * 11400714819323198485)%N.
Definition c81_pad (me k : nat) : N := (N.of_nat (me * 100 + k) + 999999999999)%N.
Definition c81_R (b : bool) (s d : nat) : km_rand :=
  mk_kr (fun ot x => u64 ((x mod 18446744073709551557 + N.of_nat (ot * 64 + s * 8 + d + if b then 4096 else 0)) * 12157665459056928801)%N)
    (fun _ a => N.of_nat a) (fun ot i => N.of_nat (ot * 64 + i) + 77)%N (fun p => N.of_nat p) (fun ot => N.of_nat ot + 123456789)%N (fun l => l).
Definition c81_run (n leader : nat) (inputs : list (list (list N))) :=
  km_run c81_ro 50 c81_H c81_bins n leader c81_zero c81_pad c81_R inputs.

(** Three parties, inputs of different sizes; 2 and 3 are common. *)
Example C81_example :
  c81_run 3 0 [[[1]; [2]; [3]]; [[2]; [3]; [4]; [5]]; [[3]; [2]; [6]]]%N = Ok [[[2]; [3]]; []; []]%N /\
  c81_run 3 1 [[[1]; [2]; [3]]; [[2]; [3]; [4]; [5]]; [[3]; [2]; [6]]]%N = Ok [[]; [[2]; [3]]; []]%N /\
  c81_run 2 0 [[[1]; [2]; [3]]; []]%N = Ok [[]; []].
Proof. repeat split; vm_compute; reflexivity. Qed.
(** The hypotheses about item 2 hold there (it is first at places 1, 0 and 1). *)
Example C81_example_hypotheses :
  let p (j : nat) := match j with 1 => 0 | _ => 1 end in
  let ots := seq 0 (fst (c81_bins 4) + snd (c81_bins 4)) in
  forallb (fun s => forallb (fun d => (s =? d) || forallb (fun ot =>
    negb (kr_oprf (c81_R false s d) ot (c81_H [2%N]) =? km_zero 3 c81_zero s d (p s))%N) ots) (seq 0 3)) (seq 0 3) = true /\
  forallb (fun s => (s =? 0) || forallb (fun ot =>
    negb (kr_oprf (c81_R true s 0) ot (c81_H [2%N]) =? km_xor (map (fun i => km_zero 3 c81_zero i s (p i)) (seq 0 3)))%N) ots) (seq 0 3) = true /\
  c81_H [2%N] <> 0%N /\ (forall b s d l, Permutation (kr_walk (c81_R b s d) l) l).
Proof. split; [vm_compute; reflexivity|]. split; [vm_compute; reflexivity|]. split; [vm_compute; discriminate|]. reflexivity. Qed.

(** The claim that a run with non-empty inputs ends without undefined behaviour is false: three
    parties with one item each. *)
Theorem C81_few_items_refuted : exists inputs, Forall (fun i => i <> []) inputs /\ length inputs = 3 /\ c81_run 3 0 inputs = UB.
Proof.
  exists [[[1]]; [[1]]; [[1]]]%N. split; [repeat constructor; discriminate|]. split; [reflexivity|]. vm_compute. reflexivity.
Qed.
Print Assumptions C81_few_items_refuted.

(** The claim that the leader outputs every row whose key all parties have is false: a key the
    leader has twice is output once, as the other parties' shares belong to one place only. *)
Theorem C81_duplicates_refuted : exists inputs outs, c81_run 2 0 inputs = Ok outs /\
  everybodys inputs [2%N] /\ length (filter (fun x => (nth 0 x 0 =? 2)%N) (nth 0 inputs [])) = 2 /\
  length (filter (fun x => (nth 0 x 0 =? 2)%N) (nth 0 outs [])) = 1.
Proof.
  exists [[[1]; [2]; [2]]; [[2]; [7]]]%N, [[[2]]; []]%N. split; [vm_compute; reflexivity|].
  split; [repeat apply Forall_cons; cbn; auto|]. split; reflexivity.
Qed.
Print Assumptions C81_duplicates_refuted.

(** An item that some other party lacks.  Fix all randomness but the OPRF's value, in the second
    round, at the leader's bin for the item: at most 64 of the 2^64 values let the leader output it. *)
Theorem C82_lacking_rare : forall ro tries H bins_of n leader zero pad R inputs src x,
  leader < n -> length inputs = n -> Forall (fun i => i <> []) inputs ->
  (forall b s d l, Permutation (kr_walk (R b s d) l) l) ->
  src < n -> src <> leader -> H x <> 0%N ->
  ~ In (H x) (map H (nth src inputs [])) ->
  (forall k, pad src k <> H x) ->
  In x (nth leader inputs []) -> NoDup (nth leader inputs []) ->
  exists ot, forall vs, NoDup vs ->
    Forall (fun v => exists outs,
      km_run ro tries H bins_of n leader zero pad (set_round2 R src leader ot (H x) v) inputs = Ok outs /\
      In x (nth leader outs [])) vs ->
    length vs <= 64.
Proof.
  intros ro tries H bins_of n leader zero pad R inputs src x HL HN HE HW Hs Hsl Zx NI NP I ND.
  apply In_nth_error in I. destruct I as (k & Ek).
  destruct (lacking_few ro tries H bins_of n leader zero pad R inputs src k x HL HN HE HW Hs Hsl Zx) as (ot & bad & LB & HB); [|exact Ek|exact ND|].
  { unfold km_encode. intros J. apply in_app_or in J. destruct J as [J|J]; [contradiction|]. apply in_map_iff in J. destruct J as (i & Q & _). exact (NP i Q). }
  exists ot. intros vs NV F. apply Nat.le_trans with (length bad); [|exact LB]. apply NoDup_incl_length; [exact NV|].
  intros v J. rewrite Forall_forall in F. destruct (F v J) as (outs & E & IO). exact (HB v outs E IO).
Qed.
Print Assumptions C82_lacking_rare.

(** Another party than the leader.  Fix all randomness but one 64-bit word of its own sharing: at
    most one value lets it output the item. *)
Theorem C82_others_rare : forall ro tries H bins_of n leader zero pad R inputs me k x,
  length inputs = n -> Forall (fun i => i <> []) inputs -> 1 < n ->
  me < n -> me <> leader -> nth_error (nth me inputs []) k = Some x -> NoDup (nth me inputs []) ->
  forall vs, NoDup vs ->
    Forall (fun v => (v < max64)%N /\ exists outs,
      km_run ro tries H bins_of n leader (set_zero zero me (own_word me) k v) pad R inputs = Ok outs /\
      In x (nth me outs [])) vs ->
    length vs <= 1.
Proof.
  intros ro tries H bins_of n leader zero pad R inputs me k x HN HE Hn Hm Hml Ek ND vs NV F.
  destruct (others_few ro tries H bins_of n leader zero pad R inputs me k x HN HE Hn Hm Hml Ek ND) as (w & HB).
  apply (NoDup_incl_length (l' := [w]) NV). intros v J. rewrite Forall_forall in F. destruct (F v J) as (Hv & outs & E & IO).
  left. symmetry. exact (HB v outs Hv E IO).
Qed.
Print Assumptions C82_others_rare.

(** In the toy world item 1 is not party 1's and stands in the leader's bin 1.  Of these OPRF values
    the last two let the leader output it, the others do not. *)
Example C82_example :
  let inputs := [[[1]; [2]; [3]]; [[2]; [3]; [4]]]%N in
  let run v := km_run c81_ro 50 c81_H c81_bins 2 0 c81_zero c81_pad (set_round2 c81_R 1 0 1 (c81_H [1%N]) v) inputs in
  map (fun v => omap (fun o => nth 0 o []) (run v)) [0; 1; 2; 2955824550785180077; 6231975508858294989]%N
  = repeat (Ok [[2]; [3]]%N) 3 ++ repeat (Ok [[1]; [2]; [3]]%N) 2.
Proof. vm_compute. reflexivity. Qed.
