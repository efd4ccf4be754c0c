(** Theorems of C98: what the APSI receiver reports. *)
From Coq Require Import List NArith Arith Bool Permutation Lia.
From Verif Require Import Base Text RcvModel RcvSpec RcvProofs.
Import ListNotations.
Local Open Scope N_scope.

(** With an honest sender a query gives for every key what the database has for it; of equal items
    only the last one is answered.  The order of the packages does not matter. *)
Theorem C98_query : forall cuckoo per hd keys reply loc reply',
  let hs := map (fst hd) keys in
  keys <> [] -> cuckoo hs = Some loc -> apart loc hs -> honest per (snd hd) loc hs (reply loc) -> Permutation (reply loc) (reply' loc) ->
  ask cuckoo per keys (Some hs) reply' = Ok (expected (snd hd) hs).
Proof.
  intros cuckoo per hd keys reply loc reply' hs K C A Hn P. apply ask_ok. split; [exact K|]. split; [reflexivity|]. exists loc.
  split; [exact C|]. split; [exact A|]. exact (honest_perm _ _ _ _ _ _ P Hn).
Qed.
Print Assumptions C98_query.

(** A sender that shows more than one match for an item is noticed. *)
Theorem C98_twice : forall cuckoo per (h : bytes -> N) keys reply loc k,
  cuckoo (map h keys) = Some loc -> apart loc (map h keys) -> In k keys -> (2 <= length (shown per (loc (h k)) (reply loc)))%nat ->
  ask cuckoo per keys (Some (map h keys)) reply = Throw.
Proof.
  intros cuckoo per h keys reply loc k C A I T. unfold ask, extract_hashes. rewrite map_length, Nat.eqb_refl, C.
  apply (process_twice per loc (map h keys) (h k) (reply loc) A (in_map h keys k I) T).
Qed.
Print Assumptions C98_twice.

(** Read key by key: different items are all answered; in general nothing but what is in the database
    is reported, and every item that is in the database is reported exactly once. *)
Theorem C98_answers : forall db hs,
  (NoDup hs -> expected db hs = map db hs) /\
  (forall i r, nth_error (expected db hs) i = Some (Some r) -> exists h, nth_error hs i = Some h /\ db h = Some r) /\
  (forall h r, In h hs -> db h = Some r ->
     exists i, nth_error hs i = Some h /\ nth_error (expected db hs) i = Some (Some r) /\
       forall j x, nth_error hs j = Some h -> nth_error (expected db hs) j = Some (Some x) -> j = i).
Proof.
  intros db hs. split; [apply expected_nodup|]. split; [intros; now apply expected_sound|]. intros h r I D. now apply expected_once.
Qed.
Print Assumptions C98_answers.

(** The file of the command line tool: the lines of all buckets in their order under the header of the
    first bucket with a match, and the number of all matches. *)
Theorem C98_file : forall cuckoo show per hds bs file, Forall2 (faithful cuckoo per) hds bs -> bs <> [] ->
  run_cli cuckoo show per bs false file 0 =
  Ok (head_of (head_bucket (reports hds bs)) ++ [10] ++ concat (map (lines show) (reports hds bs)), list_sum (map matches (reports hds bs))).
Proof. intros. now apply cli_ok. Qed.
Print Assumptions C98_file.

(** The file of the API: the same lines under the header of the first bucket; the vectors of the API. *)
Theorem C98_api : forall cuckoo show per hd hds b bs file, Forall2 (faithful cuckoo per) (hd :: hds) (b :: bs) ->
  let rs := reports (hd :: hds) (b :: bs) in
  run_api cuckoo show per (b :: bs) false file [] = Ok (head_of (report hd b) ++ [10] ++ concat (map (lines show) rs), map matches rs) /\
  run_stream cuckoo show per (b :: bs) [] [] =
    Ok (map fst (filter (fun kr => found (snd kr)) (concat rs)),
        flat_map (fun kr => match snd kr with Some (Some l) => [show l] | _ => [] end) (concat rs)).
Proof. intros cuckoo show per hd hds b bs file F rs. split; [now apply api_ok|exact (run_stream_ok show cuckoo per _ _ [] [] F)]. Qed.
Print Assumptions C98_api.

(** Without labels the header is "key"; with one labelled match "key,value". *)
Theorem C98_header : forall r, (labels r = 0%nat -> head_of r = head_key) /\ (labels r = 1%nat -> head_of r = head_key ++ head_value).
Proof. intros r. unfold head_of. split; intros ->; [apply app_nil_r|cbn [repeat concat]; now rewrite app_nil_r]. Qed.
Print Assumptions C98_header.

(** Two labelled matches: the header names three columns, the lines have two. *)
Definition c98_h (k : bytes) : N := hd 0 k.
Definition c98_table (hs : list N) : option (N -> N) := Some (fun x => x).
Definition c98_label (x : N) : bytes := [x + 32].
Definition c98_db (x : N) : record := if (x =? 65) || (x =? 66) then Some (Some (c98_label x)) else None.
Definition c98_pkg (xs : list N) : option package :=
  Some (mk_package 1 (map (fun x => if existsb (N.eqb x) xs then c98_db x else None) [64; 65; 66; 67])).
Theorem C98_header_refuted :
  exists cuckoo per hds bs, Forall2 (faithful cuckoo per) hds bs /\
    run_cli cuckoo (fun l => l) per bs false [] 0 =
      Ok (head_key ++ head_value ++ head_value ++ [10] ++ [65; 44; 97; 10] ++ [66; 44; 98; 10], 2%nat).
Proof.
  exists c98_table, 64, [(c98_h, c98_db)], [([[65]; [67]; [66]], Some [65; 67; 66], fun _ => [c98_pkg [66]; None; c98_pkg [65]])].
  split; [|reflexivity]. constructor; [|constructor]. split; [discriminate|]. split; [reflexivity|]. exists (fun x => x).
  split; [reflexivity|]. split; [intros a b _ _ E; exact E|]. intros h [<- | [<- | [<- | []]]]; reflexivity.
Qed.
Print Assumptions C98_header_refuted.

(** With the API, a first bucket without matches leaves "key" above lines with labels. *)
Theorem C98_api_header_refuted :
  exists cuckoo per hds bs, Forall2 (faithful cuckoo per) hds bs /\
    run_api cuckoo (fun l => l) per bs false [] [] = Ok (head_key ++ [10] ++ [65; 44; 97; 10], [0; 1]%nat) /\
    run_cli cuckoo (fun l => l) per bs false [] 0 = Ok (head_key ++ head_value ++ [10] ++ [65; 44; 97; 10], 1%nat).
Proof.
  exists c98_table, 64, [(c98_h, c98_db); (c98_h, c98_db)],
    [([[67]], Some [67], fun _ => []); ([[65]], Some [65], fun _ => [c98_pkg [65]])].
  split; [|split; reflexivity]. constructor; [|constructor; [|constructor]]; (split; [discriminate|]; split; [reflexivity|]; exists (fun x => x);
    split; [reflexivity|]; split; [intros a b _ _ E; exact E|]; intros h [<- | []]; reflexivity).
Qed.
Print Assumptions C98_api_header_refuted.

(** A reply to the OPRF request with another number of values is taken for an empty one; whatever the
    sender then answers, the report reads past the end of the results. *)
Theorem C98_short : forall cuckoo show per keys oprf reply bs append file total loc,
  keys <> [] -> cuckoo [] = Some loc -> match oprf with Some hs => length hs <> length keys | None => True end ->
  run_cli cuckoo show per ((keys, oprf, reply) :: bs) append file total = UB.
Proof. intros. now apply (short_reply cuckoo show per keys oprf reply bs append file total loc). Qed.
Print Assumptions C98_short.

(** Without streaming, a package that arrives empty is passed over: the match is lost and the run succeeds. *)
Theorem C98_null_refuted :
  exists cuckoo per hd keys oprf ps ps' r', faithful cuckoo per hd (keys, oprf, fun _ => ps) /\ Forall2 (fun p q => q = p \/ q = None) ps ps' /\
    ask cuckoo per keys oprf (fun _ => ps) = Ok [Some (Some [97])] /\ ask cuckoo per keys oprf (fun _ => ps') = Ok r' /\ r' = [None].
Proof.
  exists c98_table, 64, (c98_h, c98_db), [[65]], (Some [65]), [c98_pkg [65]], [None], [None].
  split; [|split; [constructor; [now right|constructor]|repeat split]].
  split; [discriminate|]. split; [reflexivity|]. exists (fun x => x). split; [reflexivity|]. split; [intros a b _ _ E; exact E|].
  intros h [<- | []]; reflexivity.
Qed.
Print Assumptions C98_null_refuted.

(** Matches with and without label give vectors of different lengths. *)
Theorem C98_vectors_refuted :
  exists cuckoo per hds bs ks vs, Forall2 (faithful cuckoo per) hds bs /\
    run_stream cuckoo (fun l => l) per bs [] [] = Ok (ks, vs) /\ length ks = 2%nat /\ length vs = 1%nat.
Proof.
  exists c98_table, 64, [(c98_h, c98_db); (c98_h, fun _ => Some None)],
    [([[65]], Some [65], fun _ => [c98_pkg [65]]); ([[67]], Some [67], fun _ => [Some (mk_package 1 [None; None; None; Some None])])], [[65]; [67]], [[97]].
  split; [|repeat split]. constructor; [|constructor; [|constructor]]; (split; [discriminate|]; split; [reflexivity|]; exists (fun x => x);
    split; [reflexivity|]; split; [intros a b _ _ E; exact E|]; intros h [<- | []]; reflexivity).
Qed.
Print Assumptions C98_vectors_refuted.

(** Three queries, one of them twice, in two buckets: the twice asked key is reported once. *)
Example C98_example :
  ask c98_table 64 [[65]; [67]; [65]] (Some [65; 67; 65]) (fun _ => [c98_pkg [65]]) = Ok [None; None; Some (Some [97])] /\
  ask c98_table 64 [[65]] (Some [65]) (fun _ => [c98_pkg [65]; c98_pkg [65]]) = Throw /\
  run_cli c98_table (fun l => l) 64 [([[65]; [67]; [65]], Some [65; 67; 65], fun _ => [c98_pkg [65]]); ([[66]], Some [66], fun _ => [c98_pkg [66]])] false [1] 0
    = Ok (head_key ++ head_value ++ [10; 65; 44; 97; 10; 66; 44; 98; 10], 2%nat) /\
  run_cli c98_table (fun l => l) 64 [([[65]], Some [], fun _ => [])] false [] 0 = UB /\
  head_bucket [[([1], None)]; [([2], Some None)]] = [([2], Some None)].
Proof. repeat split. Qed.
