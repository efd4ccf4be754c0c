(** Theorems of C99: strings, arrays and results of the C interface. *)
From Coq Require Import List NArith ZArith Bool Lia.
From Verif Require Import Base Text PirPackModel GroupDbModel CapiModel CapiSpec CapiProofs.
Import ListNotations.
Local Open Scope N_scope.

(** A string goes through the interface unchanged, with zero bytes, other memory stays, and freeing it
    leaves the heap as before; a C program that reads up to the first zero byte sees all of it exactly if
    it has none. *)
Theorem C99_string : forall allow h s, (forall n, allow n = true) -> sane h ->
  exists c h1 h2, make_cstring allow s h = (Some c, h1) /\ keeps h h1 /\
    make_string c h1 = Ok s /\ (read_c c h1 = Ok s <-> ~ In 0 s) /\
    free_cstring c h1 = Ok (mk_cstr (cs_data c) 0, h2) /\ h_live h2 = h_live h.
Proof.
  intros allow h s A S. pose proof S as (P & _). exists (mk_cstr (h_next h) (N.of_nat (length s))), (mk_heap (h_next h + 1) ([(h_next h, BBytes (s ++ [0]))] ++ h_live h)), (mk_heap (h_next h + 1) (h_live h)).
  split; [now apply cstring_ok|]. split; [apply keeps_app; [exact S|constructor; [cbn; lia|constructor]]|].
  assert (E : assoc (h_next h) ([(h_next h, BBytes (s ++ [0]))] ++ h_live h) = Some (BBytes (s ++ [0]))) by (cbn; now rewrite N.eqb_refl).
  split; [now apply string_read|]. split; [|split; [|reflexivity]].
  - unfold read_c. cbn [cs_data h_live]. rewrite E. apply until_zero_all.
  - unfold free_cstring. cbn [cs_data]. cbn [app]. rewrite free_head by exact P. reflexivity.
Qed.
Print Assumptions C99_string.

(** Arrays likewise. *)
Theorem C99_array : forall allow h ss, (forall n, allow n = true) -> sane h ->
  exists c h1 h2, make_carray allow ss h = (Some c, h1) /\ keeps h h1 /\ ca_size c = N.of_nat (length ss) /\
    make_strings c h1 = Ok ss /\ free_carray c h1 = Ok (mk_carr (ca_data c) 0, h2) /\ h_live h2 = h_live h.
Proof.
  intros allow h ss A S. pose proof S as (P & _). set (n := h_next h).
  exists (mk_carr n (N.of_nat (length ss))), (mk_heap (n + 1 + N.of_nat (length ss)) (layout n ss ++ h_live h)), (mk_heap (n + 1 + N.of_nat (length ss)) (h_live h)).
  split; [now apply carray_ok|]. split; [apply keeps_app; [exact S|apply layout_above]|]. split; [reflexivity|].
  split; [apply (carray_read n ss _ [] (h_live h)); constructor|]. split; [|reflexivity].
  apply (carray_free n ss _ [] (h_live h)); [exact P|constructor].
Qed.
Print Assumptions C99_array.

(** Results: with as many values as keys, or none, the result holds both, freeing it gives all memory
    back, and freeing it again is undefined.  With another number of values the result is null. *)
Theorem C99_result : forall allow keys values h, (forall n, allow n = true) -> sane h ->
  (length keys = length values \/ values = [] ->
   exists q h1 h2, make_result allow keys values h = (Some q, h1) /\ q <> 0 /\ holds q keys values h1 /\ keeps h h1 /\
     free_result q h1 = Ok h2 /\ h_live h2 = h_live h /\ free_result q h2 = UB) /\
  (length keys <> length values -> values <> [] -> make_result allow keys values h = (Some 0, h)).
Proof.
  intros allow keys values h A S. split.
  - intros L. destruct (make_result allow keys values h) as [[q|] h1] eqn:E.
    + destruct (result_holds allow keys values h q h1 A S L E) as (Q & H & K & h2 & F & L2 & F2). exists q, h1, h2. tauto.
    + rewrite result_ok in E by assumption. destruct values; discriminate.
  - intros L V. unfold make_result. destruct (Nat.eqb_spec (length keys) (length values)); [contradiction|]. destruct values; [congruence|reflexivity].
Qed.
Print Assumptions C99_result.

(** A receiver may be freed twice, and with a null pointer; afterwards the handle is null. *)
Theorem C99_receiver : forall h a b, sane h -> assoc a (h_live h) = Some b ->
  receiver_free None h = Ok (None, h) /\
  exists h1, receiver_free (Some a) h = Ok (Some 0, h1) /\ h_live h1 = drop a (h_live h) /\ receiver_free (Some 0) h1 = Ok (Some 0, h1).
Proof.
  intros h a b S E. assert (A : a <> 0).
  { intros ->. destruct S as (_ & _ & F). clear - E F. induction (h_live h) as [|[x y] m IH]; [discriminate|]. inversion F as [|? ? [F1 F2] F']; subst.
    cbn [assoc fst] in *. destruct (N.eqb_spec x 0); [lia|exact (IH F' E)]. }
  split; [reflexivity|]. exists (mk_heap (h_next h) (drop a (h_live h))). unfold receiver_free, free. destruct (N.eqb_spec a 0); [contradiction|].
  rewrite E. split; [reflexivity|]. split; reflexivity.
Qed.
Print Assumptions C99_receiver.

(** A null result may be freed: it is what MakeQueryResult returns when the numbers differ. *)
Theorem C99_null : forall allow h keys values, length keys <> length values -> values <> [] ->
  exists q h1, make_result allow keys values h = (Some q, h1) /\ h1 = h /\ free_result q h1 = Ok h.
Proof.
  intros allow h keys values L V. exists 0, h. split; [|split; reflexivity]. unfold make_result.
  destruct (Nat.eqb_spec (length keys) (length values)); [contradiction|]. destruct values; [congruence|reflexivity].
Qed.
Print Assumptions C99_null.

(** The number of matches returned is the total modulo 2^32. *)
Theorem C99_count : forall l, sum_counts l = total l mod 4294967296.
Proof.
  intros l. unfold sum_counts. rewrite sum_mod. cbn [Z.add]. apply N2Z.inj. rewrite Z2N.id by (apply Z.mod_pos_bound; lia). rewrite N2Z.inj_mod. reflexivity.
Qed.
Print Assumptions C99_count.

(** Freeing a string, an array or a query context twice is undefined although the first call clears
    the size: the pointers stay. *)
Theorem C99_free_twice : forall allow h s ss, (forall n, allow n = true) -> sane h ->
  (exists c h1 c' h2, make_cstring allow s h = (Some c, h1) /\ free_cstring c h1 = Ok (c', h2) /\ cs_size c' = 0 /\ free_cstring c' h2 = UB) /\
  (exists c h1 c' h2, make_carray allow ss h = (Some c, h1) /\ free_carray c h1 = Ok (c', h2) /\ ca_size c' = 0 /\ free_carray c' h2 = UB) /\
  (exists a h1 h2, alloc allow BObject h = (Some a, h1) /\ ctx_free a h1 = Ok h2 /\ ctx_free a h2 = UB).
Proof.
  intros allow h s ss A S. pose proof S as (P & _). set (n := h_next h). split; [|split].
  - exists (mk_cstr n (N.of_nat (length s))), (mk_heap (n + 1) ([(n, BBytes (s ++ [0]))] ++ h_live h)), (mk_cstr n 0), (mk_heap (n + 1) (h_live h)).
    split; [now apply cstring_ok|]. unfold free_cstring. cbn [cs_data cs_size]. cbn [app]. rewrite free_head by exact P.
    split; [reflexivity|]. split; [reflexivity|]. rewrite free_gone by (try exact S; unfold n; lia). reflexivity.
  - exists (mk_carr n (N.of_nat (length ss))), (mk_heap (n + 1 + N.of_nat (length ss)) (layout n ss ++ h_live h)), (mk_carr n 0), (mk_heap (n + 1 + N.of_nat (length ss)) (h_live h)).
    split; [now apply carray_ok|]. split; [apply (carray_free n ss _ [] (h_live h)); [exact P|constructor]|]. split; [reflexivity|].
    unfold free_carray. cbn [entries ca_size N.eqb bind free_all ca_data]. rewrite free_gone by (try exact S; unfold n; lia). reflexivity.
  - exists n, (mk_heap (n + 1) ([(n, BObject)] ++ h_live h)), (mk_heap (n + 1) (h_live h)). unfold alloc, ctx_free. rewrite A. split; [reflexivity|].
    cbn [app]. rewrite free_head by exact P. split; [reflexivity|]. apply free_gone; [exact S|unfold n; lia].
Qed.
Print Assumptions C99_free_twice.

(** If memory runs out in the middle of an array, what was allocated is lost. *)
Theorem C99_leak_refuted : exists allow h ss h1, sane h /\ make_carray allow ss h = (None, h1) /\ (length (h_live h) < length (h_live h1))%nat.
Proof.
  exists (fun n => n <? 3), (mk_heap 1 []), [[65]; [66]], (mk_heap 4 [(2, BBytes [65; 0]); (1, BStrs [])]).
  split; [split; [reflexivity|split; constructor]|]. split; [reflexivity|]. cbn. lia.
Qed.
Print Assumptions C99_leak_refuted.

(** A result without matches says "no labels" whatever the database; freeing a sender through a null
    pointer raises across the interface; more than 2^32 matches are counted wrong. *)
Theorem C99_edges_refuted :
  (exists q h1 r, make_result (fun _ => true) [] [] (mk_heap 1 []) = (Some q, h1) /\ assoc q (h_live h1) = Some (BResult r) /\ qr_labeled r = false) /\
  (forall h, sender_free None h = Throw) /\
  (exists l, Forall (fun n => n < 4294967296) l /\ sum_counts l <> total l).
Proof.
  split; [|split; [reflexivity|]].
  - exists 1, (mk_heap 3 [(2, BStrs []); (1, BResult (mk_qres 0 false (mk_carr 2 0) (mk_carr 0 0)))]), (mk_qres 0 false (mk_carr 2 0) (mk_carr 0 0)).
    repeat split.
  - exists [4294967295; 2]. split; [repeat constructor|]. vm_compute. discriminate.
Qed.
Print Assumptions C99_edges_refuted.

(** A labelled result with two rows in a heap that holds another block. *)
Example C99_example :
  let h := mk_heap 6 [(5, BObject)] in sane h /\
  exists q h1, make_result (fun _ => true) [[65]; [66; 0; 67]] [[1]; []] h = (Some q, h1) /\ q = 6 /\ length (h_live h1) = 8%nat /\
    (do h2 <- free_result q h1; Ok (h_live h2)) = Ok [(5, BObject)] /\
    read_c (mk_cstr 9 3) h1 = Ok [66] /\ make_string (mk_cstr 9 3) h1 = Ok [66; 0; 67].
Proof.
  cbv zeta. split.
  - split; [reflexivity|]. split; [repeat constructor; intros []|]. constructor; [split; reflexivity|constructor].
  - eexists _, _. split; [vm_compute; reflexivity|]. repeat split.
Qed.
