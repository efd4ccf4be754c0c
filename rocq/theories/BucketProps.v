(** Properties C19-C21: bucket count, bucket results, bucket-wise PSI. *)
From Coq Require Import List NArith Lia Bool Permutation Arith.
From Verif Require Import Base Text StoreModel StoreSpec SyncModel BucketModel BucketSpec BucketProofs.
Import ListNotations.

(** C19.  [sizes] are the item counts of all parties, [bs] the (agreed) bucket
    size.  Every party computes the same number k; it is 0 exactly when a party
    has no items; otherwise k buckets of size bs hold every party's items and k-1
    would not hold the largest party's. *)
Theorem C19_bucket_count :
  forall sizes bs, (0 < bs)%N -> Forall (fun s => s + bs < max64)%N sizes ->
  exists k, (forall self, In self sizes -> negotiate sizes self bs = Ok k) /\
    ((exists s, In s sizes) -> (k = 0 <-> In 0 sizes))%N /\
    (k <> 0 -> Forall (fun s => s <= k * bs) sizes /\ exists s, In s sizes /\ (k - 1) * bs < s)%N.
Proof. exact negotiate_spec. Qed.
Print Assumptions C19_bucket_count.

Example C19_example :
  negotiate [1000; 2049; 7]%N 7 1024 = Ok 3%N /\ negotiate [1000; 2049; 7]%N 2049 1024 = Ok 3%N /\
  negotiate [1000; 0; 7]%N 7 1024 = Ok 0%N.
Proof. vm_compute. auto. Qed.

(** C20.  One bucket, items distinct on each side.  Given a PSI that tells the
    receiver its matching positions in any order with the sender's extra counts,
    the receiver writes exactly its global indices with the sender's counts, and
    with broadcasting the sender writes exactly its own with the receiver's
    counts (nothing otherwise), whichever rank is the receiver. *)
Theorem C20_bucket_results :
  forall (psi : list bitem -> list bitem -> list (nat * N)) (broadcast recv_first : bool) rb sb,
  NoDup (map b_data rb) -> NoDup (map b_data sb) -> NoDup (map b_index rb) -> NoDup (map b_index sb) ->
  (rb <> [] -> sb <> [] -> exact_on rb sb (psi rb sb)) ->
  exists rw sw, do_bucket psi broadcast recv_first rb sb = Ok (rw, sw) /\
    own_matches rb sb rw /\ if broadcast then own_matches sb rb sw else sw = [].
Proof. exact do_bucket_exact. Qed.
Print Assumptions C20_bucket_results.

(** A PSI by comparison, in reverse order. *)
Definition naive_psi (rb sb : list bitem) : list (nat * N) :=
  rev (flat_map (fun p => match find (fun y => beqb (b_data y) (b_data (snd p))) sb with
                          | Some y => [(fst p, b_dup y)]
                          | None => []
                          end) (number 0 rb)).

Example C20_example :
  let rb := [mk_bitem 5 0 [65]; mk_bitem 9 2 [66]; mk_bitem 11 1 [67]]%N in
  let sb := [mk_bitem 0 3 [67]; mk_bitem 4 0 [70]; mk_bitem 6 0 [65]]%N in
  do_bucket naive_psi true false rb sb = Ok ([(11, 3); (5, 0)], [(0, 1); (6, 0)])%N /\
  (* all of the sender's bucket matched: the other branch of the code *)
  do_bucket naive_psi true true rb [mk_bitem 0 3 [67]]%N = Ok ([(11, 3)], [(0, 1)])%N /\
  do_bucket naive_psi false true rb sb = Ok ([(11, 3); (5, 0)], [])%N.
Proof. vm_compute. auto. Qed.

(** C21.  Both parties write their distinct items into fresh bucket caches with
    the same number of buckets and process bucket after bucket with a PSI exact
    on single buckets: the indices and counts written are those of the whole
    sets, each once. *)
Theorem C21_bucketwise_equals_whole :
  forall (hash : bytes -> N) psi (broadcast recv_first : bool) num self peer,
  0 < num -> Forall good_input self -> Forall good_input peer ->
  NoDup (map fst self) -> NoDup (map fst peer) ->
  (N.of_nat (length self) < max64)%N -> (N.of_nat (length peer) < max64)%N ->
  (forall rb sb, rb <> [] -> sb <> [] -> NoDup (map b_data rb) -> NoDup (map b_data sb) ->
     exact_on rb sb (psi rb sb)) ->
  exists rc sc rw sw,
    omap (fun c => hb_write_all hash c self) (hb_open [] num) = Ok rc /\
    omap (fun c => hb_write_all hash c peer) (hb_open [] num) = Ok sc /\
    online psi broadcast recv_first rc sc = Ok (rw, sw) /\
    Permutation rw (matches self peer) /\
    Permutation sw (if broadcast then matches peer self else []).
Proof. exact online_exact. Qed.
Print Assumptions C21_bucketwise_equals_whole.

Example C21_example :
  let hash (s : bytes) := fold_right N.add 0%N s in
  let self := [([1], 0); ([2], 5); ([3], 0); ([4], 1)]%N in
  let peer := [([4], 2); ([9], 0); ([2], 0)]%N in
  matches self peer = [(1, 0); (3, 2)]%N /\ matches peer self = [(0, 1); (2, 5)]%N /\
  match omap (fun c => hb_write_all hash c self) (hb_open [] 3),
        omap (fun c => hb_write_all hash c peer) (hb_open [] 3) with
  | Ok rc, Ok sc => online naive_psi true true rc sc = Ok ([(3, 2); (1, 0)], [(0, 1); (2, 5)])%N
  | _, _ => False
  end.
Proof. vm_compute. auto. Qed.
