(** C93: parties started from Kuscia task files agree on one another. *)
From Coq Require Import String List NArith ZArith Lia Bool Arith Permutation Sorted.
From Verif Require Import Base Text KusModel KusSpec KusProofs.
Import ListNotations.
Local Open Scope list_scope.

(** Whatever order the parties have in each task file, every party starts with the same list of
    parties, in the order of their names, and with its own place in that list as its rank.  It
    listens on the port allocated to it and reaches the others at their first endpoints; the
    rest of its configuration is untouched. *)
Theorem C93_agree : forall names, NoDup names -> ~ In [] names ->
  exists order, Permutation order names /\ StronglySorted before order /\
  forall me t, task_of names me t -> exists c i, kuscia_start t = Ok (c, Some i) /\
    map fst (l_parties c) = order /\ nth_error order i = Some me /\ l_self c = me /\
    (forall c0, config_at (k_configs t) me = Ok c0 -> l_rest c = l_rest c0) /\
    (forall port ports, k_ports t = port :: ports -> In (me, str "0.0.0.0:"%string ++ dec port) (l_parties c)) /\
    (forall p e es r, In p (k_parties t) -> kp_services p = (e :: es) :: r -> kp_name p <> me -> In (kp_name p, str "http://"%string ++ e) (l_parties c)).
Proof.
  intros names ND NE. destruct (kuscia_agree names ND NE) as (order & P & S & H).
  exists order. split; [exact P|]. split; [now apply sorted_before|exact H].
Qed.
Print Assumptions C93_agree.

(** Two parties of one cluster never take the same rank, and each has one host for every party. *)
Theorem C93_peers : forall names a b ta tb ca cb i j, NoDup names -> ~ In [] names ->
  task_of names a ta -> task_of names b tb -> kuscia_start ta = Ok (ca, i) -> kuscia_start tb = Ok (cb, j) ->
  map fst (l_parties ca) = map fst (l_parties cb) /\ length (l_parties ca) = length names /\
  NoDup (map fst (l_parties ca)) /\ (i = j -> a = b).
Proof.
  intros names a b ta tb ca cb i j ND NE TA TB SA SB.
  destruct (kuscia_agree names ND NE) as (order & P & S & H).
  destruct (H _ _ TA) as (ca' & i' & EA & KA & NA & _). destruct (H _ _ TB) as (cb' & j' & EB & KB & NB & _).
  rewrite SA in EA. injection EA as -> ->. rewrite SB in EB. injection EB as -> ->.
  split; [congruence|]. split.
  { rewrite <- (map_length fst), KA. now apply Permutation_length. }
  split; [rewrite KA; now apply sorted_nodup_b|]. intros E. injection E as ->. congruence.
Qed.
Print Assumptions C93_peers.

(** A task without ports is not refused: the first port is read beyond the end of a repeated field.
    A party without a configuration stops. *)
Theorem C93_unchecked : forall t p, at_z (k_parties t) (k_self t) = Ok p ->
  (forall c, config_at (k_configs t) (kp_name p) = Ok c -> k_ports t = [] -> kuscia_start t = UB) /\
  ((forall c, ~ In (kp_name p, c) (k_configs t)) -> kuscia_start t = Throw).
Proof.
  intros t p E. unfold kuscia_start, from_kuscia. rewrite E. cbn [bind]. split.
  - intros c -> ->. reflexivity.
  - intros N. assert (C : config_at (k_configs t) (kp_name p) = Throw).
    { revert N. induction (k_configs t) as [|[k c] r IH]; intros N; [reflexivity|]. cbn [config_at].
      destruct (beqb k (kp_name p)) eqn:B; [apply beqb_eq in B; subst; destruct (N c); left; reflexivity|].
      apply IH. intros c' I. apply (N c'). right. exact I. }
    rewrite C. reflexivity.
Qed.
Print Assumptions C93_unchecked.

Definition kb (s : string) : bytes := str s.
Definition k_alice := mk_kparty (kb "alice"%string) [[kb "alice.svc:80"%string]].
Definition k_bob := mk_kparty (kb "bob"%string) [[kb "bob.svc:81"%string; kb "x"%string]; []].
Definition k_zoe := mk_kparty (kb "zoe"%string) [[kb "zoe.svc"%string]].
Definition k_plain := mk_lcfg [] [] 7%N.
Definition k_t1 := mk_ktask [k_zoe; k_bob; k_alice] 0 [(kb "bob"%string, k_plain); (kb "zoe"%string, k_plain)] [9001%N].
Definition k_t2 := mk_ktask [k_alice; k_zoe; k_bob] 2 [(kb "bob"%string, k_plain)] [9002%N; 5%N].
Example C93_example :
  kuscia_start k_t1 = Ok (mk_lcfg [(kb "alice"%string, kb "http://alice.svc:80"%string); (kb "bob"%string, kb "http://bob.svc:81"%string);
    (kb "zoe"%string, kb "0.0.0.0:9001"%string)] (kb "zoe"%string) 7%N, Some 2) /\
  kuscia_start k_t2 = Ok (mk_lcfg [(kb "alice"%string, kb "http://alice.svc:80"%string); (kb "bob"%string, kb "0.0.0.0:9002"%string);
    (kb "zoe"%string, kb "http://zoe.svc"%string)] (kb "bob"%string) 7%N, Some 1) /\
  task_of [kb "alice"%string; kb "bob"%string; kb "zoe"%string] (kb "zoe"%string) k_t1 /\
  task_of [kb "alice"%string; kb "bob"%string; kb "zoe"%string] (kb "bob"%string) k_t2 /\
  kuscia_start (mk_ktask [k_alice; k_bob] 0 [(kb "alice"%string, k_plain)] []) = UB /\
  kuscia_start (mk_ktask [k_alice; k_bob] 0 [(kb "bob"%string, k_plain)] [1%N]) = Throw.
Proof.
  split; [vm_compute; reflexivity|]. split; [vm_compute; reflexivity|]. split; [|split; [|split; vm_compute; reflexivity]].
  - split; [|split; [|split; [|split]]].
    + cbn [k_t1 k_parties map kp_name]. change (Permutation [kb "zoe"%string; kb "bob"%string; kb "alice"%string] [kb "alice"%string; kb "bob"%string; kb "zoe"%string]).
      apply Permutation_sym. change [kb "zoe"%string; kb "bob"%string; kb "alice"%string] with (rev [kb "alice"%string; kb "bob"%string; kb "zoe"%string]). apply Permutation_rev.
    + exists k_zoe. split; reflexivity.
    + repeat constructor; do 3 eexists; reflexivity.
    + discriminate.
    + exists k_plain. split; reflexivity.
  - split; [|split; [|split; [|split]]].
    + change (Permutation [kb "alice"%string; kb "zoe"%string; kb "bob"%string] [kb "alice"%string; kb "bob"%string; kb "zoe"%string]).
      constructor. apply perm_swap.
    + exists k_bob. split; reflexivity.
    + repeat constructor; do 3 eexists; reflexivity.
    + discriminate.
    + exists k_plain. split; reflexivity.
Qed.

(** Parties already in the configuration stay in front of those of the cluster: each party is
    then in the link twice, and a rank is one past the number of parties. *)
Theorem C93_twice_refuted : exists t c i, Forall (fun p => exists e es r, kp_services p = (e :: es) :: r) (k_parties t) /\
  k_ports t <> [] /\ NoDup (map kp_name (k_parties t)) /\ length (k_parties t) = 2 /\
  kuscia_start t = Ok (c, Some i) /\ length (l_parties c) = 4 /\ i = 2 /\
  (exists h, nth_error (l_parties c) 0 = Some (l_self c, h)).
Proof.
  exists (mk_ktask [k_alice; k_bob] 0 [(kb "alice"%string, mk_lcfg [(kb "alice"%string, kb "10.0.0.1:1"%string); (kb "bob"%string, kb "10.0.0.2:1"%string)] [] 7%N)] [9001%N]).
  exists (mk_lcfg [(kb "alice"%string, kb "10.0.0.1:1"%string); (kb "bob"%string, kb "10.0.0.2:1"%string); (kb "alice"%string, kb "0.0.0.0:9001"%string); (kb "bob"%string, kb "http://bob.svc:81"%string)] (kb "alice"%string) 7%N), 2.
  split; [repeat constructor; do 3 eexists; reflexivity|]. split; [discriminate|].
  split; [repeat constructor; cbn; intuition discriminate|]. split; [reflexivity|]. split; [vm_compute; reflexivity|].
  split; [reflexivity|]. split; [reflexivity|]. exists (kb "10.0.0.1:1"%string). reflexivity.
Qed.
Print Assumptions C93_twice_refuted.

(** Two parties of one name are not refused: the later one replaces the first, whose own listening
    address is lost, and both processes take the same rank. *)
Theorem C93_same_name_refuted : exists ps cfg port c d i, length ps = 2 /\
  kuscia_start (mk_ktask ps 0 cfg [port]) = Ok (c, Some i) /\ kuscia_start (mk_ktask ps 1 cfg [port]) = Ok (d, Some i) /\
  length (l_parties c) = 1 /\ ~ In (l_self c, str "0.0.0.0:"%string ++ dec port) (l_parties c).
Proof.
  exists [k_alice; k_alice], [(kb "alice"%string, k_plain)], 9001%N.
  exists (mk_lcfg [(kb "alice"%string, kb "http://alice.svc:80"%string)] (kb "alice"%string) 7%N).
  exists (mk_lcfg [(kb "alice"%string, kb "0.0.0.0:9001"%string)] (kb "alice"%string) 7%N), 0.
  split; [reflexivity|]. split; [vm_compute; reflexivity|]. split; [vm_compute; reflexivity|]. split; [reflexivity|].
  vm_compute. intros [H|[]]. discriminate H.
Qed.
Print Assumptions C93_same_name_refuted.
