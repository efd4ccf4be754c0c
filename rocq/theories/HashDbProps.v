(** C107: an index PIR server loaded from a hash table. *)
From Coq Require Import List Arith NArith ZArith Lia Bool.
From Verif Require Import Base StoreModel Text PirPackModel PirPackSpec PirPackProofs PirPackProofs2 PirPackProofs3 PirPackProps
  NttModel SpArithModel SpLoopModel SpRingModel SealPirModel SealPirSpec
  SealPirProofs3 SealPirProofs4 SealPirProofs8 SealPirProofs9 SealPirProps HashDbModel.
Import ListNotations.

(** Number of pieces of at most [p] bytes in a row of [len] bytes. *)
Definition pieces (len p : nat) : nat := (len + p - 1) / p.

(** A new SealPIR server made for any shape whose rows are cut into as many pieces takes over the shape of the table, and
    every row of the table comes back to a client with the parameters of the table in two dimensions. *)
Theorem C107_seal : forall encode decode fpow logt num size L P num0 size0 d0 P0 moduli last throws galois cadd cmul mod_switch encrypt decrypt t ratio invert (db : list bytes),
  sealpir_setup encode decode fpow logt num size 2 L P moduli last throws galois cadd cmul mod_switch encrypt decrypt t ratio invert ->
  length db = num -> (forall r, In r db -> length r = size /\ Forall is_byte r) -> 1 <= num ->
  set_pir_params fpow (2 ^ L) logt num0 size0 d0 = Ok P0 ->
  pieces size0 (logt * 2 ^ L / 8) = pieces size (logt * 2 ^ L / 8) ->
  exists stores, seal_from_hash encode fpow P0 (new_stores P0) (RawDb num size db) = Ok (P, stores)
    /\ forall rnd idx, idx < num ->
         unless throws (fun r => r = nth idx db []) (ask decode P galois cadd cmul mod_switch moduli last ratio encrypt decrypt t invert rnd stores idx).
Proof.
  intros encode decode fpow logt num size L P num0 size0 d0 P0 moduli last throws galois cadd cmul mod_switch encrypt decrypt t ratio invert db HS Hl Hr Hn H0 HP.
  destruct (C69_retrieves _ _ _ _ _ _ _ _ _ _ _ _ _ _ _ _ _ _ _ _ _ db HS Hl Hr Hn) as (stores & E & R).
  exists stores. split; [|exact R].
  destruct HS as (S1 & _ & _ & _ & S5 & _).
  destruct (set_params_ok _ _ _ _ _ _ _ S1 (proj1 S5)) as (A1 & A2 & A3 & A4 & _ & _ & _ & _ & A5 & A6 & A7 & _).
  destruct (set_params_ok _ _ _ _ _ _ _ H0 (proj1 S5)) as (B1 & B2 & B3 & B4 & _ & _ & _ & _ & B5 & B6 & B7 & _).
  assert (EP : sl_psize P0 = sl_psize P) by congruence.
  assert (EN : sl_pnum P0 = sl_pnum P).
  { rewrite A7, B7, A5, B5. exact HP. }
  unfold seal_from_hash, gen_from_raw in *. rewrite EP, EN. destruct (partition (RawDb num size db) (sl_psize P)) as [parts| | |]; try discriminate.
  cbn [bind] in *. destruct (sl_pnum P =? length parts); [|discriminate]. cbn [enforce] in *. cbn [rd_rows rd_len]. rewrite B1, B2, S1. cbn [bind].
  destruct (N.of_nat (sl_npt P) <? prod64 (sl_dims P))%N; [|discriminate]. cbn [enforce] in *.
  replace (new_stores P0) with (new_stores P) by (unfold new_stores; rewrite EN; reflexivity).
  match type of E with ?x = _ => match goal with |- context[bind ?y _] => replace y with x by reflexivity end end.
  rewrite E. cbn [bind]. unfold new_stores. rewrite skipn_all2 by (rewrite repeat_length; lia). rewrite app_nil_r. reflexivity.
Qed.
Print Assumptions C107_seal.

(** A table whose rows are cut into another number of pieces is refused. *)
Theorem C107_seal_pieces : forall encode fpow n logt num0 size0 d0 P0 old num size (db : list bytes),
  set_pir_params fpow n logt num0 size0 d0 = Ok P0 -> 1 <= logt ->
  length db = num -> (forall r, In r db -> length r = size) -> 1 <= size ->
  pieces size0 (logt * n / 8) <> pieces size (logt * n / 8) ->
  seal_from_hash encode fpow P0 old (RawDb num size db) = Throw.
Proof.
  intros encode fpow n logt num0 size0 d0 P0 old num size db H0 Hl Hn Hr Hs HP.
  destruct (set_params_ok _ _ _ _ _ _ _ H0 Hl) as (B1 & B2 & B3 & B4 & _ & _ & _ & _ & B5 & B6 & B7 & _).
  unfold seal_from_hash. assert (EL : exists parts, partition (RawDb num size db) (sl_psize P0) = Ok parts /\ length parts = pieces size (sl_psize P0)).
  { destruct (Nat.le_gt_cases size (sl_psize P0)) as [G|G].
    - exists [RawDb num size db]. split.
      + unfold partition. cbn [rd_len rd_rows rd_db]. rewrite (proj2 (Nat.leb_le _ _) G). unfold raw_make. rewrite forallb_len by exact Hr. reflexivity.
      + cbn [length]. unfold pieces. apply (Nat.div_unique _ _ 1 (size - 1)); lia.
    - eexists. split; [apply partition_ok; assumption|]. rewrite map_length, seq_length. reflexivity. }
  destruct EL as (parts & -> & EL). cbn [bind]. rewrite EL.
  destruct (Nat.eqb_spec (sl_pnum P0) (pieces size (sl_psize P0))) as [X|X]; [|reflexivity].
  exfalso. apply HP. rewrite <- B5, <- X, B7. reflexivity.
Qed.
Print Assumptions C107_seal_pieces.

(** Spiral: rows that fit into one plaintext replace whatever the server held; longer rows do on a new server.  Dumped and
    loaded, every row of the table comes back to a client with the shape of the table. *)
Theorem C107_spiral : forall pt_coeffs rows len (db : list bytes) v0 v pts old,
  1 <= pt_coeffs -> 1 <= len -> 1 <= rows -> length db = rows ->
  (forall r, In r db -> length r = len /\ Forall is_byte r) ->
  v0 <= 30 -> update_dims pt_coeffs 8 v0 rows len = Ok (v, pts) -> (N.of_nat pts <= 2 ^ 30)%N ->
  old = [] \/ len <= pt_coeffs ->
  exists pt_dbs single num parts,
    spiral_from_hash pt_coeffs 8 v0 old (RawDb rows len db) = Ok (v, (pt_dbs, single, num))
    /\ load_pts pt_coeffs v pt_dbs single num = Ok parts
    /\ forall i, i < rows -> retrieve pt_coeffs 8 rows len i parts = Ok (nth i db []).
Proof.
  intros pt_coeffs rows len db v0 v pts old H1 H2 H3 H4 H5 H6 H7 H8 HO.
  destruct (C40_row_retrieval_dump pt_coeffs rows len db v0 v pts H1 H2 H3 H4 H5 H6 H7 H8) as (pt_dbs & single & num & parts & E & EL & _ & R).
  exists pt_dbs, single, num, parts. split; [|split; [exact EL|exact R]].
  unfold spiral_from_hash. cbn [Nat.eqb enforce rd_rows rd_len]. rewrite H7. cbn [bind]. rewrite E. cbn [bind].
  destruct (Nat.leb_spec len (max_byte_len pt_coeffs 8)) as [G|G]; [reflexivity|].
  destruct HO as [-> | HO]; [reflexivity|]. exfalso. unfold max_byte_len in G.
  assert (X : pt_coeffs * 8 / 8 = pt_coeffs) by (apply Nat.div_mul; discriminate). rewrite X in G. lia.
Qed.
Print Assumptions C107_spiral.

(** A second table of rows longer than a plaintext is appended to what the server holds, and the dump cannot be loaded. *)
Theorem C107_spiral_second : forall pt_coeffs v0 old d v pt_dbs single num,
  pt_coeffs < rd_len d -> old <> [] ->
  spiral_from_hash pt_coeffs 8 v0 old d = Ok (v, (pt_dbs, single, num)) ->
  load_pts pt_coeffs v pt_dbs single num = Throw.
Proof.
  intros pt_coeffs v0 old d v pt_dbs single num HL HO E.
  assert (X : max_byte_len pt_coeffs 8 = pt_coeffs) by (unfold max_byte_len; apply Nat.div_mul; discriminate).
  unfold spiral_from_hash in E. cbn [Nat.eqb enforce] in E.
  destruct (update_dims pt_coeffs 8 v0 (rd_rows d) (rd_len d)) as [[v' q]| | |]; try discriminate. cbn [bind] in E.
  destruct (generate_raw pt_coeffs 8 (rd_rows d) (rd_len d) v' d) as [[[p s] n]| | |] eqn:EG; try discriminate. cbn [bind] in E.
  rewrite X in E. destruct (Nat.leb_spec (rd_len d) pt_coeffs) as [G|G]; [lia|]. injection E as <- <- <- <-.
  assert (LP : length p = n * s).
  { unfold generate_raw in EG. cbn [Nat.eqb enforce] in EG. rewrite X in EG. destruct (Nat.leb_spec (rd_len d) pt_coeffs) as [G'|G']; [lia|].
    destruct (partition d pt_coeffs) as [subs| | |]; try discriminate. cbn [bind] in EG.
    destruct (map_out _ subs) as [ps| | |] eqn:EM; try discriminate. cbn [bind] in EG.
    assert (LM : length ps = length subs).
    { clear - EM. revert ps EM. induction subs as [|x subs IH]; intros ps EM; cbn [map_out] in EM; [injection EM as <-; reflexivity|].
      destruct (raw_to_flat _ _ _ _ _ _) as [y| | |]; try discriminate. cbn [bind] in EM.
      destruct (map_out _ subs) as [r| | |]; try discriminate. cbn [bind] in EM. injection EM as <-. cbn [length]. rewrite (IH r eq_refl). reflexivity. }
    destruct ps as [|p0 ps]; [injection EG as <- <- <-; cbn; lia|].
    destruct (forallb _ (p0 :: ps)) eqn:EF; [|discriminate]. cbn [enforce] in EG. injection EG as <- <- <-.
    rewrite <- LM. rewrite forallb_forall in EF. clear - EF.
    assert (H : forall l : list (list N), (forall x, In x l -> (length x =? length p0) = true) -> length (concat l) = length l * length p0).
    { induction l as [|x l IH]; intros H; [reflexivity|]. cbn [concat length]. rewrite app_length, IH by (intros y I; apply H; right; exact I).
      specialize (H x (or_introl eq_refl)). apply Nat.eqb_eq in H. lia. }
    exact (H (p0 :: ps) EF). }
  unfold load_pts. rewrite app_length, LP. destruct old as [|o old]; [contradiction|].
  destruct (Nat.eqb_spec (length (o :: old) + n * s) (n * s)) as [Y|Y]; [cbn [length] in Y; lia|]. reflexivity.
Qed.
Print Assumptions C107_spiral_second.

Definition fpow107 (m d : nat) : nat := if d =? 1 then m else match m with 3 => 1 | 6 => 2 | _ => 0 end.
Definition rows107 : list bytes := [[1; 2; 3; 4; 5]; [0; 255; 16; 77; 7]; [9; 8; 7; 6; 250]; [1; 1; 1; 1; 1]; [3; 3; 3; 3; 3]; [4; 4; 4; 4; 4]]%N.
(** A server and a client made for [num0] rows of [size0] bytes in [d0] dimensions; the server is loaded with a hash table and the
    client asks with the parameters the server took over or with those it was made with. *)
Definition run107 (num0 size0 d0 idx : nat) (same : bool) : outcome bytes :=
  do P0 <- set_pir_params fpow107 8 4 num0 size0 d0;
  do (P, stores) <- seal_from_hash (fun v => v) fpow107 P0 (new_stores P0) (RawDb 6 5 rows107);
  let Q := if same then P else P0 in
  do q <- gen_index_query Q toy_encrypt 17 toy_invert (fun i j => i + j) idx;
  do r <- gen_response P toy_galois toy_add toy_mul toy_switch [17%N] [17%N] (fun _ => 2) stores q;
  decode_index_response toy_decode Q [17%N] (fun _ => 2) toy_decrypt r idx.
(** Made for 3 rows of 7 bytes in one dimension, loaded with 6 rows of 5 bytes. *)
Example C107_seal_example : pieces 7 (4 * 8 / 8) = pieces 5 (4 * 8 / 8) /\ run107 3 7 1 1 true = Ok [0; 255; 16; 77; 7]%N /\ run107 3 7 1 5 true = Ok [4; 4; 4; 4; 4]%N.
Proof. vm_compute. auto. Qed.
Example C107_seal_pieces_example : pieces 4 (4 * 8 / 8) <> pieces 5 (4 * 8 / 8) /\ run107 3 4 2 1 true = Throw.
Proof. vm_compute. split; [discriminate|reflexivity]. Qed.

(** "The client made with the same options as the server reads the rows of the table" is false for SealPIR: with another number of rows it
    gets other bytes without an error, with another number of dimensions the server reads past the query. *)
Theorem C107_client_refuted :
  exists fpow n logt num0 size d P0 P1 encode (db : list bytes) P stores P' stores' idx r
    decode galois cadd cmul mod_switch moduli last ratio encrypt decrypt t invert rnd,
  set_pir_params fpow n logt num0 size d = Ok P0 /\ set_pir_params fpow n logt num0 size 1 = Ok P1
  /\ (forall x, In x db -> length x = size /\ Forall is_byte x)
  /\ seal_from_hash encode fpow P0 (new_stores P0) (RawDb (length db) size db) = Ok (P, stores)
  /\ seal_from_hash encode fpow P1 (new_stores P1) (RawDb (length db) size db) = Ok (P', stores')
  /\ idx < num0 /\ idx < length db
  /\ ask decode P galois cadd cmul mod_switch moduli last ratio encrypt decrypt t invert rnd stores idx = Ok (nth idx db [])
  /\ (do q <- gen_index_query P0 encrypt t invert rnd idx;
      do a <- gen_response P galois cadd cmul mod_switch moduli last ratio stores q;
      decode_index_response decode P0 last ratio decrypt a idx) = Ok r
  /\ r <> nth idx db []
  /\ (do q <- gen_index_query P1 encrypt t invert rnd idx;
      gen_response P' galois cadd cmul mod_switch moduli last ratio stores' q) = UB.
Proof.
  remember (seal_from_hash (fun v => v) fpow107 (SealParams 8 4 3 5 1 3 4 2 [2; 2]) (new_stores (SealParams 8 4 3 5 1 3 4 2 [2; 2])) (RawDb 6 5 rows107)) as A eqn:EA.
  remember (seal_from_hash (fun v => v) fpow107 (SealParams 8 4 3 5 1 3 4 2 [4]) (new_stores (SealParams 8 4 3 5 1 3 4 2 [4])) (RawDb 6 5 rows107)) as B eqn:EB.
  vm_compute in EA. vm_compute in EB.
  exists fpow107, 8, 4, 3, 5, 2, (SealParams 8 4 3 5 1 3 4 2 [2; 2]), (SealParams 8 4 3 5 1 3 4 2 [4]), (fun v => v), rows107.
  match type of EA with _ = Ok (?p, ?s) => exists p, s end. match type of EB with _ = Ok (?p, ?s) => exists p, s end. subst A B.
  exists 2, [4; 4; 4; 4; 4]%N, toy_decode, toy_galois, toy_add, toy_mul, toy_switch, [17%N], [17%N], (fun _ => 2), toy_encrypt, toy_decrypt, 17%N, toy_invert, (fun i j => i + j).
  split; [vm_compute; reflexivity|]. split; [vm_compute; reflexivity|]. split.
  { intros x I. cbn [rows107 In] in I. repeat destruct I as [<- | I]; try contradiction; (split; [reflexivity|]); repeat constructor. }
  split; [vm_compute; reflexivity|]. split; [vm_compute; reflexivity|]. split; [lia|]. split; [cbn; lia|].
  split; [vm_compute; reflexivity|]. split; [vm_compute; reflexivity|]. split; [discriminate|]. vm_compute; reflexivity.
Qed.
Print Assumptions C107_client_refuted.

(** Plaintexts of 3 coefficients, rows of 5 bytes: two pieces; a new server, and the same table again. *)
Example C107_spiral_example : exists v p s n parts v2 p2 s2 n2,
  spiral_from_hash 3 8 2 [] (RawDb 3 5 [[1; 2; 3; 4; 255]; [250; 0; 17; 34; 51]; [9; 8; 7; 6; 5]]%N) = Ok (v, (p, s, n))
  /\ n = 2 /\ load_pts 3 v p s n = Ok parts /\ retrieve 3 8 3 5 1 parts = Ok [250; 0; 17; 34; 51]%N
  /\ spiral_from_hash 3 8 2 p (RawDb 3 5 [[1; 2; 3; 4; 255]; [250; 0; 17; 34; 51]; [9; 8; 7; 6; 5]]%N) = Ok (v2, (p2, s2, n2))
  /\ load_pts 3 v2 p2 s2 n2 = Throw.
Proof.
  do 9 eexists. split; [vm_compute; reflexivity|]. split; [reflexivity|]. split; [vm_compute; reflexivity|]. split; [vm_compute; reflexivity|].
  split; [vm_compute; reflexivity|]. vm_compute; reflexivity.
Qed.
