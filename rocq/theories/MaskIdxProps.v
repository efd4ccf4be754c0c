(** C106: the server's rows of the masked items the client reports. *)
From Coq Require Import List NArith Bool Arith Lia.
From Verif Require Import Base BaseProofs Text TextProofs StoreModel EcdhModel ShufModel UbCacheModel UbCacheSpec UbCacheProofs
  UbPsiModel UbPsiProofs MaskIdxModel MaskIdxSpec MaskIdxProofs.
Import ListNotations.

(** Whatever the number of processors, the batches of the client's provider and the batch size of the
    cache: the server gets exactly the rows of the cached items among those decoded from the client's
    strings, each record once and in the order of the cache, and the number of cached items. *)
Theorem C106_rows :
  forall unescape len threads bs recs c client,
  0 < len < max_cipher -> 0 < threads -> 0 < bs ->
  Forall (rec_ok len) recs -> (N.of_nat (length recs) < max32)%N -> saved len recs c ->
  Forall (fun b => b <> []) client ->
  Forall (fun x => length x = len) (decoded unescape (concat client)) ->
  mi_run unescape len threads bs c client
  = Ok (rows_holding (decoded unescape (concat client)) recs, length recs).
Proof.
  intros un len threads bs recs c client HL HT HB HR HC HS F D. unfold mi_run, mi_server.
  rewrite recv_send by (try assumption; lia). cbn [bind]. eapply cache_lookup; try eassumption. lia.
Qed.
Print Assumptions C106_rows.

(** The provider ends at its first empty batch: what comes later is not reported. *)
Theorem C106_first_empty :
  forall unescape len threads bs c before after,
  mi_run unescape len threads bs c (before ++ [] :: after) = mi_run unescape len threads bs c before.
Proof.
  intros un len threads bs c before after. unfold mi_run. f_equal.
  induction before as [|b r IH]; [reflexivity|]. cbn [app mi_send]. destruct b; [reflexivity|]. rewrite IH. reflexivity.
Qed.
Print Assumptions C106_first_empty.

(** Any messages at all, of any client: if the server ends, its result is the rows of its own records
    holding some set of items, and the count does not depend on the messages. *)
Theorem C106_any_client :
  forall len threads bs recs c ms ids n,
  len < max_cipher -> 0 < threads -> 0 < bs ->
  Forall (rec_ok len) recs -> (N.of_nat (length recs) < max32)%N -> saved len recs c ->
  mi_server len threads bs c ms = Ok (ids, n) ->
  n = length recs /\ exists items, ids = rows_holding items recs /\
    forall x, In x items -> exists flat pre post, In (Some flat) ms /\ flat = pre ++ x ++ post.
Proof.
  intros len threads bs recs c ms ids n HL HT HB HR HC HS E. unfold mi_server in E.
  destruct (mi_recv len ms) as [set| | |] eqn:ER; try discriminate. cbn [bind] in E.
  rewrite (cache_lookup len recs) in E by assumption. injection E as <- <-. split; [reflexivity|].
  exists set. split; [reflexivity|]. clear - ER. revert set ER.
  induction ms as [|[flat|] r IH]; intros set ER x I; cbn [mi_recv] in ER; try discriminate.
  - destruct (cut len flat) as [its| | |] eqn:EC; try discriminate. cbn [bind] in ER.
    destruct (mi_recv len r) as [more| | |]; try discriminate. cbn [omap bind] in ER. injection ER as <-.
    apply in_app_or in I as [I|I].
    + unfold cut in EC. destruct (Nat.eqb (length flat mod len) 0); [|discriminate]. cbn [enforce] in EC. injection EC as <-.
      apply in_map_iff in I as (i & <- & _). exists flat, (firstn (i * len) flat), (skipn len (skipn (i * len) flat)).
      split; [left; reflexivity|]. rewrite !firstn_skipn. reflexivity.
    + destruct (IH more eq_refl x I) as (f & pre & post & I1 & I2). exists f, pre, post. split; [right; exact I1|exact I2].
  - injection ER as <-. destruct I.
Qed.
Print Assumptions C106_any_client.

(** A batch whose decoded strings do not fill whole items ends the server's run, whatever follows. *)
Theorem C106_partial_item :
  forall unescape len threads bs c before b after,
  0 < len -> Forall (fun b => b <> []) before ->
  Forall (fun x => length x = len) (decoded unescape (concat before)) ->
  length (concat (decoded unescape b)) mod len <> 0 ->
  mi_run unescape len threads bs c (before ++ b :: after) = Throw.
Proof.
  intros un len threads bs c before b after HL F D M. unfold mi_run, mi_server.
  assert (E : mi_recv len (mi_send un (before ++ b :: after)) = Throw); [|rewrite E; reflexivity].
  induction before as [|p r IH]; cbn [app mi_send].
  - destruct b as [|s b]; [cbn in M; rewrite Nat.mod_0_l in M by lia; contradiction|].
    cbn [mi_recv]. rewrite dest_decoded. unfold cut.
    destruct (Nat.eqb_spec (length (concat (decoded un (s :: b))) mod len) 0) as [E|E]; [contradiction|reflexivity].
  - inversion F as [|? ? F1 F2]; subst. cbn [concat] in D.
    assert (EA : decoded un (p ++ concat r) = decoded un p ++ decoded un (concat r)) by (unfold decoded; apply flat_map_app).
    rewrite EA in D. apply Forall_app in D as (D1 & D2).
    destruct p as [|s p]; [contradiction|]. cbn [mi_recv]. rewrite dest_decoded, cut_concat by assumption. cbn [bind].
    rewrite IH by assumption. reflexivity.
Qed.
Print Assumptions C106_partial_item.

(** Inverse of base64 on the given items; everything else is refused. *)
Definition unbase (known : list (list N)) (s : list N) : option (list N) := find (fun x => beqb (base64 x) s) known.
Definition recs106 : list crec :=
  [mk_crec 0 2 0 [1;2]; mk_crec 1 0 1 [3;4]; mk_crec 2 3 0 [5;6]; mk_crec 3 1 0 [7;8]; mk_crec 4 4 0 [2;7]]%N.
Definition cache106 : cache := mk_cache (concat (map enc_rec recs106)) 2 5 [9]%N.
Lemma saved106 : saved 2 recs106 cache106.
Proof. exists [9]%N. vm_compute. reflexivity. Qed.
Example C106_example :
  let un := unbase [[1;2]; [7;8]; [9;9]]%N in
  let client := [[base64 [7;8]; base64 [9;9]]; [base64 [1;2]]]%N in
  Forall (rec_ok 2) recs106 /\ saved 2 recs106 cache106 /\ decoded un (concat client) = [[7;8]; [9;9]; [1;2]]%N /\
  mi_run un 2 3 2 cache106 client = Ok ([2; 1]%N, 5).
Proof.
  cbv zeta. split; [|split; [exact saved106|split; vm_compute; reflexivity]].
  repeat constructor; cbn [cr_data cr_origin cr_shuffle cr_dup length]; try reflexivity.
Qed.
Example C106_partial_item_example : mi_run (unbase [[1;2]; [7]]%N) 2 3 2 cache106 [[base64 [1;2]]; [base64 [7]]; [base64 [1;2]]]%N = Throw.
Proof. vm_compute. reflexivity. Qed.

Example C106_first_empty_example :
  mi_run (unbase [[1;2]; [7;8]]%N) 2 3 2 cache106 [[base64 [7;8]]; []; [base64 [1;2]]]%N = Ok ([1]%N, 5).
Proof. vm_compute. reflexivity. Qed.
Example C106_any_client_example : mi_server 2 1 4 cache106 [Some [1;2;7;8]%N; Some []; Some [0;0]%N; None; Some [5]%N] = Ok ([2; 1]%N, 5).
Proof. vm_compute. reflexivity. Qed.

(** Strings that are not base64, such as the masked items themselves, are dropped without an error:
    the server ends well and finds nothing. *)
Theorem C106_undecoded_refuted :
  exists unescape len threads bs recs c client,
    (forall x, In x (map cr_data recs) -> unescape (base64 x) = Some x) /\
    saved len recs c /\ concat client = map cr_data recs /\ recs <> [] /\
    mi_run unescape len threads bs c client = Ok ([], length recs).
Proof.
  exists (unbase (map cr_data recs106)), 2, 3, 2, recs106, cache106, [map cr_data recs106].
  split; [|split; [exact saved106|split; [reflexivity|split; [discriminate|vm_compute; reflexivity]]]].
  intros x I. cbn [map In recs106 cr_data] in I. repeat destruct I as [<- | I]; try (vm_compute; reflexivity). contradiction.
Qed.
Print Assumptions C106_undecoded_refuted.

(** The lengths of the single strings are not checked: two strings that decode to half an item each
    are read as one, and a row none of them names is reported. *)
Theorem C106_joined_refuted :
  exists unescape len threads bs recs c client ids,
    saved len recs c /\ rows_holding (decoded unescape (concat client)) recs = [] /\
    mi_run unescape len threads bs c client = Ok (ids, length recs) /\ ids <> [].
Proof.
  exists (unbase [[1]; [2]]%N), 2, 3, 2, recs106, cache106, [[base64 [1]; base64 [2]]]%N, [2]%N.
  split; [exact saved106|]. split; [vm_compute; reflexivity|]. split; [vm_compute; reflexivity|discriminate].
Qed.
Print Assumptions C106_joined_refuted.
