(** Theorems about the text files of duplicate-key PIR. *)
From Coq Require Import List NArith ZArith Bool String Lia Permutation.
From Verif Require Import Base BaseProofs Text TextProofs StoreModel PirPackModel PirPackProofs2 GroupDbModel QuoteModel QuoteProofs ShellModel ShellProps
  DkPirModel DkPirSpec DkPirProofs DkTextModel DkTextSpec DkTextProofs.
Import ListNotations.
Local Open Scope list_scope.
Local Open Scope N_scope.

(** The sender's value file: whatever the order of the map, every key of the table is there once with
    the labels of exactly its rows, in table order. *)
Theorem C105_values : forall table m, table <> [] -> clean_table table -> Permutation m (merge_all table) ->
  exists db, read_values (value_text m) = Ok db /\ NoDup (map fst db) /\
  forall k v, In (k, v) db <-> rows_with table k <> [] /\ v = packed (rows_with table k).
Proof.
  intros table m NE C P. exists (map (fun e => (fst e, fst (snd e))) m).
  assert (K : map fst (map (fun e : bytes * (bytes * N) => (fst e, fst (snd e))) m) = map fst m) by (rewrite map_map; reflexivity).
  split; [|split].
  - unfold value_text. apply read_pairs.
    + intros X. apply map_eq_nil in X. revert X. apply (merged_ne table); assumption.
    + rewrite K. apply (merged_nodup table). exact P.
    + apply Forall_forall. intros p Hp. apply in_map_iff in Hp. destruct Hp as (e & <- & He). exact (entry_clean table m e C P He).
  - rewrite K. apply (merged_nodup table). exact P.
  - intros k v. rewrite in_map_iff. split.
    + intros (e & E & He). injection E as <- <-. destruct (merged_entry table m e P He) as (A & ->). split; [exact A|reflexivity].
    + intros (A & ->). pose proof (merge_all_find table k) as F. destruct (rows_with table k) as [|r rs] eqn:R; [congruence|].
      assert (I : In k (map fst (merge_all table))).
      { destruct (in_dec (list_eq_dec N.eq_dec) k (map fst (merge_all table))) as [I|I]; [exact I|].
        exfalso. assert (G : forall l : kvmap, ~ In k (map fst l) -> find_key k l = None).
        { clear. induction l as [|[k' v'] l IH]; intros H; [reflexivity|]. cbn [find_key]. destruct (beqb k' k) eqn:B.
          - apply beqb_spec in B. subst. exfalso. apply H. left. reflexivity.
          - apply IH. intros X. apply H. right. exact X. }
        rewrite (G _ I) in F. discriminate F. }
      apply in_map_iff in I. destruct I as (e & <- & He). apply (Permutation_in _ (Permutation_sym P)) in He.
      destruct (merged_entry table m e P He) as (_ & E). exists e. split; [|exact He]. rewrite E, R. reflexivity.
Qed.
(** The count file: the number of rows of every key, as long as none has 2^31 rows. *)
Theorem C105_counts : forall table m, table <> [] -> clean_table table -> Permutation m (merge_all table) ->
  (forall k, N.of_nat (List.length (rows_with table k)) < 2147483648) ->
  read_counts (count_text m) = Ok (map (fun e => (fst e, Z.of_nat (List.length (rows_with table (fst e))))) m).
Proof.
  intros table m NE C P B. unfold read_counts, count_text.
  assert (K : map fst (map (fun e : bytes * (bytes * N) => (fst e, dec (snd (snd e)))) m) = map fst m) by (rewrite map_map; reflexivity).
  rewrite read_pairs.
  - cbn [bind]. assert (G : forall l, incl l m -> map_out (fun r : bytes * bytes => do c <- stoi (snd r); Ok (fst r, c)) (map (fun e => (fst e, dec (snd (snd e)))) l) =
        Ok (map (fun e => (fst e, Z.of_nat (List.length (rows_with table (fst e))))) l)); [|apply G; apply incl_refl].
    induction l as [|e l IH]; intros L; [reflexivity|]. destruct (merged_entry table m e P (L e (or_introl eq_refl))) as (_ & E).
    cbn [map map_out fst snd]. rewrite E. cbn [snd]. rewrite stoi_dec by apply B. cbn [bind]. rewrite nat_N_Z.
    rewrite IH by (intros x Hx; apply L; right; exact Hx). reflexivity.
  - intros X. apply map_eq_nil in X. revert X. apply (merged_ne table); assumption.
  - rewrite K. apply (merged_nodup table). exact P.
  - apply Forall_forall. intros p Hp. apply in_map_iff in Hp. destruct Hp as (e & <- & He). cbn [fst snd]. split; [|apply clean_dec].
    apply (entry_clean table m e C P He).
Qed.

(** The queries asked are the ones that are not empty; if one of these is repeated, or none is left,
    the run fails. *)
Theorem C105_queries : forall qs, Forall clean qs ->
  (filter not_empty qs <> [] /\ NoDup (filter not_empty qs) -> read_queries (query_text qs) = Ok (filter not_empty qs)) /\
  (filter not_empty qs = [] \/ ~ NoDup (filter not_empty qs) -> read_queries (query_text qs) = Throw).
Proof.
  intros qs H.
  assert (S : source_rows (query_text qs) = Ok (false, map (fun q => (q, [])) (filter not_empty qs))).
  { unfold source_rows. assert (E : csv AtLine [] [] (query_text qs) = Some ([asc "key"] :: map (fun q => [q]) (filter not_empty qs))).
    { unfold query_text. change (asc "key") with (join_with comma [asc "key"]) at 1. rewrite cells_csv; [rewrite queries_csv by exact H; reflexivity| |discriminate|].
      - constructor; [vm_compute; intuition discriminate|constructor].
      - left. repeat split. discriminate. }
    rewrite E. destruct (list_eq_dec (list_eq_dec N.eq_dec) [asc "key"] [asc "key"; asc "value"]) as [X|_]; [discriminate X|].
    destruct (list_eq_dec (list_eq_dec N.eq_dec) [asc "key"] [asc "key"]) as [_|X]; [|congruence].
    generalize (filter not_empty qs) as l. intros l.
    assert (M : map_out (fun f => match f with [k] => Ok (k, @nil N) | _ => Throw end) (map (fun q : bytes => [q]) l) = Ok (map (fun q => (q, @nil N)) l)).
    { induction l as [|q l IH]; [reflexivity|]. cbn [map map_out bind]. rewrite IH. reflexivity. }
    rewrite M. reflexivity. }
  unfold read_queries, read_db. rewrite S. cbn [bind snd fst]. rewrite map_length, map_map. cbn [fst]. rewrite map_id.
  split.
  - intros (NE & ND). destruct (filter not_empty qs) as [|q l] eqn:E; [congruence|]. cbn [List.length Nat.eqb negb enforce].
    rewrite (proj2 (repeated_spec _) ND). cbn [negb enforce bind fst snd map]. rewrite map_map, map_id. reflexivity.
  - intros [-> | ND]; [reflexivity|]. destruct (Nat.eqb _ 0); [reflexivity|]. cbn [negb enforce].
    destruct (repeated (filter not_empty qs)) eqn:R; [reflexivity|]. apply repeated_spec in R. contradiction.
Qed.

(** The receiver's result: the answers written down and read again give, as CSV, the header and for
    every answered query the rows the labels were packed from. *)
Theorem C105_result : forall table qs n key_name label_names, mergeable n table -> clean_table table ->
  List.length label_names = n -> clean key_name -> Forall clean label_names -> known table qs <> [] ->
  exists text, save_result key_name label_names (pairs_text (map (fun q => (q, packed (rows_with table q))) (known table qs))) =
    Ok (text, N.of_nat (List.length (rows_of table qs))) /\
  csv AtLine [] [] text = Some ((key_name :: label_names) :: map (fun r => fst r :: snd r) (rows_of table qs)).
Proof.
  intros table qs n key_name label_names M C L CK CL NE.
  assert (KI : forall q, In q (known table qs) -> rows_with table q <> []).
  { intros q H. apply filter_In in H. destruct H as (_ & H). apply existsb_exists in H. destruct H as (r & R & B).
    intros X. assert (Y : In r (rows_with table q)) by (apply filter_In; auto). rewrite X in Y. exact Y. }
  assert (RC : forall q, In q (known table qs) -> clean q).
  { intros q H. specialize (KI q H). destruct (rows_with table q) as [|(k & ls) r] eqn:R; [congruence|].
    assert (X : In (k, ls) (rows_with table q)) by (rewrite R; left; reflexivity). apply rows_with_in in X. destruct X as (X & <-).
    apply (C k ls X). }
  assert (RO : rows_of table qs = flat_map (rows_with table) (known table qs)).
  { unfold rows_of, known. clear. induction qs as [|q qs IH]; [reflexivity|]. cbn [flat_map filter]. rewrite IH.
    destruct (existsb (fun r => beqb (fst r) q) table) eqn:E; [reflexivity|]. replace (rows_with table q) with (@nil (bytes * list bytes)); [reflexivity|].
    symmetry. unfold rows_with. apply not_true_iff_false in E. rewrite existsb_exists in E.
    destruct (filter (fun r => beqb (fst r) q) table) as [|r l] eqn:F; [reflexivity|]. exfalso. apply E. exists r. apply (filter_In (fun r => beqb (fst r) q)). rewrite F. left. reflexivity. }
  rewrite RO. set (ks := known table qs) in *.
  assert (X : forall q, In q ks -> extract_one n (q, packed (rows_with table q)) = Ok (rows_with table q)).
  { intros q Hq. unfold extract_one, packed. cbn [fst snd]. destruct M as (N0 & M).
    rewrite split_join.
    - assert (G : forall (f : bytes -> outcome drow) l, (forall ls, In (q, ls) l -> f (join_with 30 ls) = Ok (q, ls)) -> (forall r, In r l -> fst r = q) ->
        map_out f (map (fun r => join_with 30 (snd r)) l) = Ok l).
      { intros f. induction l as [|(k & ls) l IH]; intros A B; [reflexivity|]. assert (E := B (k, ls) (or_introl eq_refl)). cbn [fst] in E. subst k.
        cbn [map map_out snd]. rewrite (A ls) by (left; reflexivity). cbn [bind].
        rewrite IH; [reflexivity|intros y Hy; apply A; right; exact Hy|intros y Hy; apply B; right; exact Hy]. }
      apply G; [|intros (k & ls) R; apply rows_with_in in R; apply R].
      intros ls R. apply rows_with_in in R. destruct R as (R & _).
      assert (S : split_on col_delim (join_with 30 ls) = ls).
      { apply split_join.
        - intros ->. destruct (M q [] [] R) as (Ln & _). cbn in Ln. congruence.
        - apply Forall_forall. intros y Hy. destruct (M q ls y R) as (_ & F). apply F. exact Hy. }
      cbv zeta. rewrite S. destruct (M q ls [] R) as (Ln & _). rewrite Ln, Nat.eqb_refl. reflexivity.
    - intros Y. apply map_eq_nil in Y. exact (KI q Hq Y).
    - apply Forall_forall. intros y Hy. apply in_map_iff in Hy. destruct Hy as ((k & ls) & <- & R). apply rows_with_in in R. destruct R as (R & ->). cbn [snd].
      intros Z. assert (J : forall l : list bytes, In 31 (join_with 30 l) -> exists c, In c l /\ In 31 c).
      { clear. induction l as [|a [|b l] IH]; cbn [join_with]; intros H; [contradiction|eexists; split; [left; reflexivity|exact H]|].
        apply in_app_or in H. destruct H as [H | [H | H]]; [exists a; split; [left; reflexivity|exact H]|discriminate H|].
        destruct (IH H) as (c & C1 & C2). exists c. split; [right; exact C1|exact C2]. }
      destruct (J ls Z) as (c & C1 & C2). destruct (M q ls c R) as (_ & F). apply (proj2 (F C1)). exact C2. }
  exists (result_text key_name label_names (flat_map (rows_with table) ks)). split.
  - unfold save_result, read_result. rewrite source_pairs.
    + cbn [bind fst snd]. rewrite map_length. destruct ks as [|q0 ks0] eqn:KS; [congruence|]. rewrite <- KS in *. 
      replace (Nat.eqb (List.length ks) 0) with false by (rewrite KS; reflexivity). cbn [negb enforce bind].
      unfold extract_result. rewrite L. destruct M as (N0 & _). rewrite (proj2 (Nat.eqb_neq n 0) N0). cbn [negb enforce].
      assert (E : map_out (extract_one n) (map (fun q => (q, packed (rows_with table q))) ks) = Ok (map (rows_with table) ks)).
      { clear -X. induction ks as [|q l IH]; [reflexivity|]. cbn [map map_out]. rewrite X by (left; reflexivity). cbn [bind].
        rewrite IH by (intros y Hy; apply X; right; exact Hy). reflexivity. }
      rewrite E. rewrite KS. cbn [map bind fst snd]. rewrite <- KS. rewrite !flat_map_concat_map. rewrite KS. reflexivity.
    + apply Forall_forall. intros p Hp. apply in_map_iff in Hp. destruct Hp as (q & <- & Hq). cbn [fst snd]. split; [apply RC; exact Hq|apply packed_clean; exact C].
  - unfold result_text. rewrite flat_map_concat_map.
    replace (map (fun r => join_with comma (fst r :: snd r) ++ [newline]) ((key_name, label_names) :: flat_map (rows_with table) ks))
      with (map (fun c => join_with comma c ++ [newline]) (map (fun r : bytes * list bytes => fst r :: snd r) ((key_name, label_names) :: flat_map (rows_with table) ks)))
      by (rewrite map_map; reflexivity).
    rewrite <- flat_map_concat_map. rewrite lines_csv; [reflexivity|]. destruct M as (N0 & M). constructor.
    + cbn [fst snd]. split; [constructor; assumption|]. split; [discriminate|]. intros Y. injection Y as _ Y. subst. cbn in N0. congruence.
    + apply Forall_forall. intros c Hc. apply in_map_iff in Hc. destruct Hc as ((k & ls) & <- & Hr). apply in_flat_map in Hr. destruct Hr as (q & _ & Hr).
      apply rows_with_in in Hr. destruct Hr as (Hr & _). cbn [fst snd]. destruct (C k ls Hr) as (A & B). split; [constructor; assumption|]. split; [discriminate|].
      intros Y. injection Y as _ Y. destruct (M k ls [] Hr) as (Ln & _). rewrite Y in Ln. cbn in Ln. congruence.
Qed.

(** A comma in a label, which the source may have in quotes, stops the sender. *)
Theorem C105_comma : forall before k a b after, Forall (fun p => clean (fst p) /\ clean (snd p)) before -> clean k -> clean a -> clean b ->
  Forall (fun p => clean (fst p) /\ clean (snd p)) after ->
  read_values (pairs_text (before ++ (k, a ++ comma :: b) :: after)) = Throw.
Proof.
  intros before k a b after Hb Hk Ha Hc Hd. unfold read_values, read_db, source_rows.
  assert (E : csv AtLine [] [] (pairs_text (before ++ (k, a ++ comma :: b) :: after)) =
     Some ([asc "key"; asc "value"] :: map (fun p => [fst p; snd p]) before ++ [k; a; b] :: map (fun p => [fst p; snd p]) after)).
  { assert (T : pairs_text (before ++ (k, a ++ comma :: b) :: after) =
      flat_map (fun c => join_with comma c ++ [newline]) ([asc "key"; asc "value"] :: map (fun p => [fst p; snd p]) before ++ [k; a; b] :: map (fun p => [fst p; snd p]) after)).
    { assert (G : forall m, flat_map pair_line m = flat_map (fun c => join_with comma c ++ [newline]) (map (fun p => [fst p; snd p]) m)).
      { induction m as [|p m IH]; [reflexivity|]. cbn [map flat_map]. rewrite IH. unfold pair_line. cbn [join_with]. repeat (rewrite <- !app_assoc; cbn [app]). reflexivity. }
      unfold pairs_text. rewrite flat_map_app. cbn [flat_map]. rewrite !G, flat_map_app. cbn [flat_map].
      change (join_with comma [asc "key"; asc "value"]) with (asc "key,value"). unfold pair_line. cbn [fst snd join_with].
      repeat (rewrite <- !app_assoc; cbn [app]). reflexivity. }
    rewrite T. apply lines_csv. constructor; [split; [apply clean2; vm_compute; intuition discriminate|split; discriminate]|].
    assert (F : forall m, Forall (fun p : bytes * bytes => clean (fst p) /\ clean (snd p)) m ->
      Forall (fun c => Forall clean c /\ c <> [] /\ c <> [[]]) (map (fun p => [fst p; snd p]) m)).
    { intros m H. apply Forall_forall. intros c X. apply in_map_iff in X. destruct X as (p & <- & Hp). rewrite Forall_forall in H.
      destruct (H p Hp). split; [apply clean2; assumption|split; discriminate]. }
    apply Forall_app. split; [apply F; exact Hb|]. constructor; [split; [apply clean3; assumption|split; discriminate]|apply F; exact Hd]. }
  rewrite E. destruct (list_eq_dec (list_eq_dec N.eq_dec) [asc "key"; asc "value"] [asc "key"; asc "value"]) as [_|X]; [|congruence].
  assert (G : map_out (fun f => match f with [x; v] => Ok (x, v) | _ => Throw end) (map (fun p : bytes * bytes => [fst p; snd p]) before ++ [k; a; b] :: map (fun p => [fst p; snd p]) after) = Throw).
  { clear. induction before as [|p l IH]; [reflexivity|]. cbn [map app map_out bind]. rewrite IH. reflexivity. }
  rewrite G. reflexivity.
Qed.

(** Without the conditions values change unnoticed: quotes around a label are lost, a line end in a label
    makes a record of another key, and an empty query is not asked. *)
Theorem C105_quotes_refuted : forall k v, clean k -> clean v -> exists table, table = [(k, [quote :: v ++ [quote]])] /\
  read_values (value_text (merge_all table)) = Ok [(k, v)].
Proof.
  intros k v K V. eexists. split; [reflexivity|]. unfold value_text, merge_all. cbn [fold_left merge_row fst snd join_with map]. unfold read_values, read_db, source_rows.
  assert (E : csv AtLine [] [] (pairs_text [(k, quote :: v ++ [quote])]) = Some [[asc "key"; asc "value"]; [k; v]]).
  { unfold pairs_text. change (asc "key,value") with (join_with comma [asc "key"; asc "value"]). rewrite cells_csv.
    - cbn [flat_map pair_line fst snd]. unfold pair_line. cbn [fst snd]. rewrite app_nil_r.
      assert (Q : csv AtValue [] [k] (quote :: v ++ [quote] ++ [newline]) = Some [[k; v]]).
      { rewrite csv_open, csv_quoted by (apply V). reflexivity. }
      assert (F : csv AtLine [] [] (k ++ comma :: quote :: (v ++ [quote]) ++ [newline]) = csv AtValue [] [k] (quote :: v ++ [quote] ++ [newline])).
      { rewrite <- (app_assoc v). destruct k as [|c k]; [reflexivity|]. rewrite csv_first; [apply csv_comma|left; auto|apply clean_tame; exact K|discriminate]. }
      change ((quote :: v ++ [quote]) ++ [newline]) with (quote :: (v ++ [quote]) ++ [newline]). rewrite F, Q. reflexivity.
    - apply clean2; vm_compute; intuition discriminate.
    - discriminate.
    - left. repeat split. discriminate. }
  match goal with |- context [csv AtLine [] [] ?x] => replace (csv AtLine [] [] x) with (Some [[asc "key"; asc "value"]; [k; v]]) by (symmetry; exact E) end. destruct (list_eq_dec (list_eq_dec N.eq_dec) [asc "key"; asc "value"] [asc "key"; asc "value"]) as [_|X]; [|congruence]. reflexivity.
Qed.
Theorem C105_line_refuted : exists table db, read_values (value_text (merge_all table)) = Ok db /\
  exists k v, In (k, v) db /\ ~ In k (map fst table).
Proof.
  exists [(asc "a", [asc "x" ++ newline :: asc "b,y"])], [(asc "a", asc "x"); (asc "b", asc "y")]. split; [vm_compute; reflexivity|].
  exists (asc "b"), (asc "y"). split; [right; left; reflexivity|]. intros [X | []]. discriminate X.
Qed.
Theorem C105_empty_query_refuted : exists table qs, Forall clean qs /\ rows_with table [] <> [] /\ In [] qs /\
  read_queries (query_text qs) = Ok [asc "a"].
Proof.
  exists [([], [asc "x"])], [[]; asc "a"]. split; [|split; [discriminate|split; [left; reflexivity|vm_compute; reflexivity]]].
  apply clean2; vm_compute; intuition discriminate.
Qed.

Definition ex_table : list drow := [(asc "a", [asc "1"; asc "x"]); (asc "b", [asc "2"; asc "y"]); (asc "a", [asc "3"; asc "z"])].
Lemma ex_clean : clean_table ex_table /\ mergeable 2 ex_table.
Proof.
  split.
  - intros k ls H. cbn in H. destruct H as [H | [H | [H | []]]]; injection H as <- <-; (split; [|apply clean2]); vm_compute; intuition discriminate.
  - split; [discriminate|]. intros k ls l H. cbn in H. destruct H as [H | [H | [H | []]]]; injection H as <- <-; (split; [reflexivity|]);
      intros [<- | [<- | []]]; vm_compute; intuition discriminate.
Qed.
Example C105_example : clean_table ex_table /\ mergeable 2 ex_table /\
  read_values (value_text (merge_all ex_table)) = Ok [(asc "a", [49; 30; 120; 31; 51; 30; 122]); (asc "b", [50; 30; 121])] /\
  read_counts (count_text (merge_all ex_table)) = Ok [(asc "a", 2%Z); (asc "b", 1%Z)] /\
  read_queries (query_text [asc "a"; []; asc "c"]) = Ok [asc "a"; asc "c"] /\ read_queries (query_text [asc "a"; asc "a"]) = Throw /\
  (do r <- save_result (asc "id") [asc "n"; asc "s"] (pairs_text (map (fun q => (q, packed (rows_with ex_table q))) (known ex_table [asc "c"; asc "a"]))); Ok r) =
    Ok (asc "id,n,s" ++ newline :: asc "a,1,x" ++ newline :: asc "a,3,z" ++ [newline], 2).
Proof. split; [apply ex_clean|]. split; [apply ex_clean|]. vm_compute. repeat split; reflexivity. Qed.

Print Assumptions C105_values.
Print Assumptions C105_counts.
Print Assumptions C105_queries.
Print Assumptions C105_result.
Print Assumptions C105_comma.
Print Assumptions C105_quotes_refuted.
Print Assumptions C105_line_refuted.
Print Assumptions C105_empty_query_refuted.
