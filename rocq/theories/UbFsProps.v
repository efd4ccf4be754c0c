(** C89: what unbalanced PSI does to the files around its cache directory. *)
From Coq Require Import List NArith Bool String Lia.
From Verif Require Import Base Text PhModel UbFsModel UbFsSpec UbFsProofs.
Import ListNotations.
Local Open Scope string_scope.
Local Open Scope list_scope.

(** Whatever happens, no file or directory outside the cache directory is changed or removed, and
    nothing is created there except directories above it.  For the server and the client. *)
Theorem C89_outside : forall content c cache f q, uf_cache c = Some cache -> ~ inside cache q ->
  kept f (fst (uf_build content c f)) cache q /\ kept f (fst (uf_server_init c f)) cache q /\ kept f (fst (uf_client content c f)) cache q.
Proof.
  intros content c cache f q C O. split; [|split].
  - unfold uf_build. rewrite C. destruct (uf_server_init c f) as [f1 bad] eqn:E. pose proof (init_kept _ _ _ _ _ q C E O) as K.
    destruct bad; [exact K|]. destruct (uf_gen content c cache f1) as [f2 b2] eqn:G. cbn [fst].
    eapply kept_trans; [exact K|]. apply kept_same. eapply gen_kept; eassumption.
  - destruct (uf_server_init c f) as [f1 bad] eqn:E. exact (init_kept _ _ _ _ _ q C E O).
  - unfold uf_client. rewrite C. cbn [fst].
    set (f1 := if fs_exists f cache then f else fs_mkdirs f cache).
    set (f2 := if fs_exists f1 (cache ++ ["server_cache"]) then fs_remove_all f1 cache else f1).
    set (f3 := if fs_exists f2 cache then f2 else fs_mkdirs f2 cache).
    assert (K1 : kept f f1 cache q) by (unfold f1; destruct (fs_exists f cache); [apply kept_same; reflexivity|apply kept_mkdirs]).
    assert (K2 : kept f1 f2 cache q) by (unfold f2; destruct (fs_exists f1 _); [apply kept_remove; exact O|apply kept_same; reflexivity]).
    assert (K3 : kept f2 f3 cache q) by (unfold f3; destruct (fs_exists f2 cache); [apply kept_same; reflexivity|apply kept_mkdirs]).
    eapply kept_trans; [exact K1|]. eapply kept_trans; [exact K2|]. eapply kept_trans; [exact K3|].
    apply kept_same. rewrite !write_outside by exact O. reflexivity.
Qed.
Print Assumptions C89_outside.

(** Building succeeds if the input and the key file exist outside the cache directory; afterwards the
    directory holds the four files of the cache and nothing else. *)
Theorem C89_build : forall content c cache f inp, uf_cache c = Some cache -> builds_cache (uf_mode c) ->
  ~ inside cache (uf_input c) -> fs_read f (uf_input c) = Some inp ->
  (forall k, uf_key c = Some k -> ~ inside cache k /\ exists b, fs_read f k = Some b /\ List.length b = 32) ->
  exists f', uf_build content c f = (f', false) /\
    forall rest, rest <> [] ->
      f' (cache ++ rest) =
      if existsb (fun name => path_eqb rest [name]) ["ub_psi_cache.bin"; "join_sorted_input.csv"; "join_sorted_input_key_info.csv"; "ub_psi_cache.meta"]
      then Some (File (content (hd "" rest))) else None.
Proof.
  intros content c cache f inp C M O HI HK. apply needs_input in M. unfold uf_build. rewrite C. unfold uf_server_init. rewrite C, M.
  assert (EI : fs_exists f (uf_input c) = true) by (unfold fs_read in HI; unfold fs_exists; destruct (f (uf_input c)); [reflexivity|discriminate]).
  rewrite EI. cbn [negb]. rewrite andb_false_r.
  assert (GONE : fs_exists (fs_remove_all f cache) cache = false) by (unfold fs_exists, fs_remove_all; rewrite under_refl; reflexivity).
  rewrite GONE. set (f1 := fs_mkdirs (fs_remove_all f cache) cache).
  assert (RD : forall q b, ~ inside cache q -> fs_read f q = Some b -> fs_read f1 q = Some b).
  { intros q b Q R. unfold fs_read in *. destruct (f q) as [n|] eqn:E; [|discriminate].
    unfold f1. rewrite (mkdirs_file _ _ _ n); [exact R|]. unfold fs_remove_all. rewrite (under_false _ _ Q). exact E. }
  unfold uf_gen.
  assert (KEY : match uf_key c with None => true | Some k => match fs_read f1 k with Some b => Nat.eqb (List.length b) 32 | None => false end end = true).
  { destruct (uf_key c) as [k|]; [|reflexivity]. destruct (HK k eq_refl) as (Q & b & R & L). rewrite (RD _ _ Q R), L. reflexivity. }
  rewrite KEY. cbn [negb].
  assert (RI : fs_read (fs_write f1 (cache ++ ["ub_psi_cache.bin"]) (content "ub_psi_cache.bin")) (uf_input c) = Some inp).
  { unfold fs_read. rewrite write_outside by exact O. exact (RD _ _ O HI). }
  rewrite RI. eexists. split; [reflexivity|]. intros rest NE.
  assert (B : f1 (cache ++ rest) = None) by (apply emptied; exact NE).
  assert (P : forall name, path_eqb (cache ++ rest) (cache ++ [name]) = path_eqb rest [name]).
  { intros name. destruct (path_eqb rest [name]) eqn:E.
    - apply path_eqb_eq in E. subst. apply path_eqb_eq. reflexivity.
    - destruct (path_eqb (cache ++ rest) (cache ++ [name])) eqn:E'; [|reflexivity]. apply path_eqb_eq, app_inv_head in E'. subst.
      rewrite (proj2 (path_eqb_eq [name] [name]) eq_refl) in E. discriminate. }
  unfold fs_write. rewrite !P. cbn [existsb].
  repeat match goal with |- context [path_eqb rest [?n]] => let E := fresh in destruct (path_eqb rest [n]) eqn:E; [apply path_eqb_eq in E; subst rest; cbn [orb hd]; try reflexivity|cbn [orb]] end.
  exact B.
Qed.
Print Assumptions C89_build.

(** The server's cache directory is emptied before the input and the key file are read.  When the
    input lies inside it or is missing, the run fails, and what was in the directory is gone, an earlier
    cache and the input included. *)
Theorem C89_input_lost : forall content c cache f, uf_cache c = Some cache -> builds_cache (uf_mode c) ->
  fs_exists f cache = true ->
  inside cache (uf_input c) /\ uf_input c <> cache ++ ["ub_psi_cache.bin"] \/ ~ inside cache (uf_input c) /\ fs_read f (uf_input c) = None ->
  exists f', uf_build content c f = (f', true) /\
    forall rest, rest <> [] -> rest <> ["ub_psi_cache.bin"] -> f' (cache ++ rest) = None.
Proof.
  intros content c cache f C M X D. apply needs_input in M. unfold uf_build. rewrite C. unfold uf_server_init. rewrite C, M, X. cbn [negb andb].
  assert (GONE : fs_exists (fs_remove_all f cache) cache = false) by (unfold fs_exists, fs_remove_all; rewrite under_refl; reflexivity).
  rewrite GONE. set (f1 := fs_mkdirs (fs_remove_all f cache) cache).
  assert (B : forall rest, rest <> [] -> f1 (cache ++ rest) = None) by (intros rest; apply emptied).
  unfold uf_gen. match goal with |- context [if ?b then (f1, true) else _] => destruct b end.
  { exists f1. split; [reflexivity|]. intros rest NE _. apply B. exact NE. }
  assert (NR : fs_read (fs_write f1 (cache ++ ["ub_psi_cache.bin"]) (content "ub_psi_cache.bin")) (uf_input c) = None).
  { destruct D as [((rest & E) & NB)|(O & R)].
    - rewrite E in *. unfold fs_read, fs_write.
      destruct (path_eqb (cache ++ rest) (cache ++ ["ub_psi_cache.bin"])) eqn:Q; [apply path_eqb_eq in Q; congruence|].
      destruct rest as [|x rest]; [|rewrite B by discriminate; reflexivity].
      rewrite app_nil_r. unfold f1, fs_mkdirs, fs_remove_all. rewrite under_refl. reflexivity.
    - unfold fs_read. rewrite write_outside by exact O. unfold f1, fs_mkdirs, fs_remove_all. rewrite (under_false _ _ O).
      unfold fs_read in R. destruct (under (uf_input c) cache); destruct (f (uf_input c)) as [[|b]|]; try discriminate; reflexivity. }
  rewrite NR. eexists. split; [reflexivity|]. intros rest NE NB. unfold fs_write.
  destruct (path_eqb (cache ++ rest) (cache ++ ["ub_psi_cache.bin"])) eqn:Q; [apply path_eqb_eq, app_inv_head in Q; congruence|]. apply B. exact NE.
Qed.
Print Assumptions C89_input_lost.

(** The same for a key file inside the directory. *)
Theorem C89_key_lost : forall content c cache f k, uf_cache c = Some cache -> builds_cache (uf_mode c) ->
  fs_exists f cache = true -> uf_key c = Some k -> inside cache k ->
  exists f', uf_build content c f = (f', true) /\ forall rest, rest <> [] -> f' (cache ++ rest) = None.
Proof.
  intros content c cache f k C M X K (rest & E). apply needs_input in M. unfold uf_build. rewrite C. unfold uf_server_init. rewrite C, M, X. cbn [negb andb].
  assert (GONE : fs_exists (fs_remove_all f cache) cache = false) by (unfold fs_exists, fs_remove_all; rewrite under_refl; reflexivity).
  rewrite GONE. set (f1 := fs_mkdirs (fs_remove_all f cache) cache).
  assert (B : forall rest, rest <> [] -> f1 (cache ++ rest) = None) by (intros r; apply emptied).
  unfold uf_gen. rewrite K.
  assert (NR : fs_read f1 k = None).
  { subst k. unfold fs_read. destruct rest as [|x rest]; [|rewrite B by discriminate; reflexivity].
    rewrite app_nil_r. unfold f1, fs_mkdirs, fs_remove_all. rewrite under_refl. reflexivity. }
  rewrite NR. cbn [negb]. exists f1. split; [reflexivity|exact B].
Qed.
Print Assumptions C89_key_lost.

(** The client: with an earlier server_cache in the directory, all else in it is removed; without
    one, all else in it stays. *)
Theorem C89_client : forall content c cache f, uf_cache c = Some cache -> fs_exists f cache = true ->
  exists f', uf_client content c f = (f', false) /\
    f' (cache ++ ["server_cache"]) = Some (File (content "server_cache")) /\
    f' (cache ++ ["server_cache.meta"]) = Some (File (content "server_cache.meta")) /\
    forall rest, rest <> [] -> rest <> ["server_cache"] -> rest <> ["server_cache.meta"] ->
      f' (cache ++ rest) = if fs_exists f (cache ++ ["server_cache"]) then None else f (cache ++ rest).
Proof.
  intros content c cache f C X. unfold uf_client. rewrite C, X. eexists. split; [reflexivity|].
  assert (P : forall a name, path_eqb (cache ++ a) (cache ++ [name]) = path_eqb a [name]).
  { intros a name. destruct (path_eqb a [name]) eqn:E.
    - apply path_eqb_eq in E. subst. apply path_eqb_eq. reflexivity.
    - destruct (path_eqb (cache ++ a) (cache ++ [name])) eqn:E'; [|reflexivity]. apply path_eqb_eq, app_inv_head in E'. subst.
      rewrite (proj2 (path_eqb_eq [name] [name]) eq_refl) in E. discriminate. }
  split; [unfold fs_write; rewrite !P; reflexivity|]. split; [unfold fs_write; rewrite !P; reflexivity|].
  intros rest N1 N2 N3. unfold fs_write. rewrite !P.
  destruct (path_eqb rest ["server_cache.meta"]) eqn:E3; [apply path_eqb_eq in E3; congruence|].
  destruct (path_eqb rest ["server_cache"]) eqn:E2; [apply path_eqb_eq in E2; congruence|].
  destruct (fs_exists f (cache ++ ["server_cache"])) eqn:S; [|rewrite X; reflexivity].
  assert (GONE : fs_exists (fs_remove_all f cache) cache = false) by (unfold fs_exists, fs_remove_all; rewrite under_refl; reflexivity).
  rewrite GONE. apply emptied. exact N1.
Qed.
Print Assumptions C89_client.

(** In the other modes the server takes its cache directory as it is: nothing in it is changed or
    removed.  In every mode the directory is there afterwards. *)
Theorem C89_reuse : forall c cache f f', uf_cache c = Some cache -> uf_server_init c f = (f', false) ->
  fs_exists f' cache = true /\
  (~ builds_cache (uf_mode c) -> forall rest n, f (cache ++ rest) = Some n -> f' (cache ++ rest) = Some n).
Proof.
  intros c cache f f' C E. unfold uf_server_init in E. rewrite C in E.
  destruct (negb (fs_exists f cache) && negb (fs_exists f (uf_input c))); [discriminate|].
  set (f1 := if uf_needs_input (uf_mode c) then fs_remove_all f cache else f) in E. injection E as E. subst f'. split.
  - destruct (fs_exists f1 cache) eqn:X; [exact X|]. unfold fs_exists, fs_mkdirs. rewrite under_refl. destruct (f1 cache); reflexivity.
  - intros NB rest n H. assert (U : uf_needs_input (uf_mode c) = false).
    { destruct (uf_needs_input (uf_mode c)) eqn:U; [|reflexivity]. destruct NB. now apply needs_input. }
    unfold f1. rewrite U. destruct (fs_exists f cache); [exact H|]. now apply mkdirs_file.
Qed.
Print Assumptions C89_reuse.

(** ** Cases *)
Definition u_content (name : string) : bytes := repeat 1%N (String.length name).
Definition u_fs (entries : list (path * node)) : fs :=
  fun q => option_map snd (find (fun e => path_eqb (fst e) q) entries).
Definition u_disk : fs := u_fs
  [(["d"], Dir); (["d"; "in.csv"], File [65%N]); (["d"; "cache"], Dir); (["d"; "cache"; "in.csv"], File [66%N]);
   (["d"; "cache"; "ub_psi_cache.meta"], File [9%N]); (["d"; "cache"; "notes"], Dir); (["d"; "cache"; "notes"; "a.txt"], File [67%N]); (["d"; "key"], File (repeat 5%N 32))].
Definition u_cfg (inp : path) (key : option path) : uf_config := mk_uf PhOffline (Some ["d"; "cache"]) inp key.
Definition u_look (r : uf_res) (ps : list path) : bool * list (option node) := (snd r, map (fst r) ps).
Example C89_example :
  u_look (uf_build u_content (u_cfg ["d"; "in.csv"] (Some ["d"; "key"])) u_disk)
    [["d"; "in.csv"]; ["d"; "cache"; "notes"; "a.txt"]; ["d"; "cache"; "in.csv"]; ["d"; "cache"]; ["d"; "cache"; "ub_psi_cache.meta"]]
  = (false, [Some (File [65%N]); None; None; Some Dir; Some (File (repeat 1%N 17))]) /\
  u_look (uf_build u_content (u_cfg ["d"; "cache"; "in.csv"] None) u_disk) [["d"; "cache"; "in.csv"]; ["d"; "cache"; "ub_psi_cache.meta"]] = (true, [None; None]) /\
  u_look (uf_build u_content (u_cfg ["d"; "typo.csv"] None) u_disk) [["d"; "in.csv"]; ["d"; "cache"; "ub_psi_cache.meta"]] = (true, [Some (File [65%N]); None]) /\
  u_look (uf_client u_content (u_cfg [] None) u_disk) [["d"; "cache"; "in.csv"]] = (false, [Some (File [66%N])]) /\
  u_look (let r := uf_client u_content (u_cfg [] None) u_disk in uf_client u_content (u_cfg [] None) (fst r)) [["d"; "cache"; "in.csv"]; ["d"; "in.csv"]] = (false, [None; Some (File [65%N])]) /\
  u_look (uf_server_init (mk_uf PhTransfer (Some ["d"; "cache"]) [] None) u_disk) [["d"; "cache"; "ub_psi_cache.meta"]; ["d"; "cache"; "notes"; "a.txt"]]
  = (false, [Some (File [9%N]); Some (File [67%N])]).
Proof. repeat split; vm_compute; reflexivity. Qed.

(** A run that fails does not leave the cache as it was: a mistyped input path costs the cache. *)
Theorem C89_failed_run_refuted : exists content c f f' q b, uf_mode c = PhOffline /\
  uf_build content c f = (f', true) /\ fs_read f q = Some b /\ f' q = None.
Proof.
  exists u_content, (u_cfg ["d"; "typo.csv"] None), u_disk.
  destruct (C89_input_lost u_content (u_cfg ["d"; "typo.csv"] None) ["d"; "cache"] u_disk eq_refl (or_intror (or_introl eq_refl)) eq_refl) as (f' & E & L).
  { right. split; [intros (r & Q); discriminate|reflexivity]. }
  exists f', (["d"; "cache"] ++ ["ub_psi_cache.meta"]), [9%N]. split; [reflexivity|]. split; [exact E|]. split; [reflexivity|]. apply L; discriminate.
Qed.
Print Assumptions C89_failed_run_refuted.
