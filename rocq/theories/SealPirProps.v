(** C69: a row asked of a SealPIR server comes back unchanged. *)
From Coq Require Import List Arith NArith ZArith Lia Bool.
From Verif Require Import Base StoreModel Text PirPackModel NttModel SpArithModel SpLoopModel SpRingModel SealPirModel SealPirSpec
  SealPirProofs3 SealPirProofs4 SealPirProofs8 SealPirProofs9.
Import ListNotations.

(** What the parameters and SEAL must give: degree 2^L, the parameters accepted, the floating point root and the numbers of digits
    right, an odd plain modulus with room for logt bits, and noise of every dimension within what decryption bears. *)
Definition sealpir_setup (encode decode : list N -> list N) (fpow : nat -> nat -> nat) (logt num size d L : nat) (P : seal_params)
  (moduli last : list N) (throws : bool) (galois : cipher -> nat -> cipher) (cadd : cipher -> cipher -> cipher)
  (cmul : cipher -> list N -> outcome cipher) (mod_switch : cipher -> cipher) (encrypt : nat -> list N -> cipher) (decrypt : cipher -> list N)
  (t : N) (ratio : N -> nat) (invert : N -> N -> option N) : Prop :=
  set_pir_params fpow (2 ^ L) logt num size d = Ok P /\ is_root (sl_npt P) d (fpow (sl_npt P) d)
  /\ (N.of_nat (prodn (sl_dims P)) < 2 ^ 31)%N /\ (N.of_nat size < 2 ^ 29)%N
  /\ 1 <= logt <= 64 /\ (2 ^ N.of_nat logt <= t)%N /\ N.odd t = true /\ inverts t invert /\ batching (2 ^ L) t encode decode
  /\ Forall (fun q => (0 < q < 2 ^ 64)%N) moduli /\ last <> [] /\ Forall (fun q => (q < 2 ^ 64)%N /\ digits_for logt q (ratio q)) last
  /\ exists Enc e0 A E, seal_scheme (2 ^ L) t moduli last throws galois cadd cmul mod_switch encrypt decrypt Enc e0 A E /\ (0 <= A)%Z /\ (0 <= e0)%Z
     /\ Forall (fun ni => (level_noise (2 ^ L) t e0 A L ni <= E)%Z) (sl_dims P).

(** Query, response and decoding against the stores. *)
Definition ask decode P galois cadd cmul mod_switch moduli last ratio encrypt decrypt t invert rnd stores idx : outcome bytes :=
  do q <- gen_index_query P encrypt t invert rnd idx;
  do r <- gen_response P galois cadd cmul mod_switch moduli last ratio stores q;
  decode_index_response decode P last ratio decrypt r idx.

(** Every row of a database of [num] rows of [size] bytes comes back, whatever the randomness of the encryptions - or the product of
    a ciphertext with a plaintext threw, if the build of SEAL may. *)
Theorem C69_retrieves : forall encode decode fpow logt num size d L P moduli last throws galois cadd cmul mod_switch encrypt decrypt t ratio invert (db : list bytes),
  sealpir_setup encode decode fpow logt num size d L P moduli last throws galois cadd cmul mod_switch encrypt decrypt t ratio invert ->
  length db = num -> (forall r, In r db -> length r = size /\ Forall is_byte r) -> 1 <= num ->
  exists stores, gen_from_raw encode P (new_stores P) (RawDb num size db) = Ok stores
    /\ forall rnd idx, idx < num ->
         unless throws (fun r => r = nth idx db []) (ask decode P galois cadd cmul mod_switch moduli last ratio encrypt decrypt t invert rnd stores idx).
Proof.
  intros encode decode fpow logt num size d L P moduli last throws galois cadd cmul mod_switch encrypt decrypt t ratio invert db
    (S1 & S2 & S3 & S4 & S5 & S6 & S7 & S8 & S9 & S10 & S11 & S12 & Enc & e0 & A & E & S13 & S14 & S15 & S16) Hl Hr Hn.
  pose proof (row_ok encode decode fpow logt num size d P L moduli last throws galois cadd cmul mod_switch encrypt decrypt t Enc e0 A E ratio invert
    S1 S2 S3 S4 S5 S6 S7 S8 S9 S13 S10 S11 S12 S14 S15 S16 db Hl Hr) as R.
  destruct (R (fun _ _ => 0) 0 Hn) as (stores & _ & Es & _). exists stores. split; [exact Es|].
  intros rnd idx Hi. destruct (R rnd idx Hi) as (st & q & Est & _ & _ & Eq & U). assert (st = stores) by congruence. subst st. unfold ask. rewrite Eq. exact U.
Qed.
Print Assumptions C69_retrieves.

(** A second GenerateFromRawData does not replace the database: the answers stay those of the first. *)
Theorem C69_second_database : forall encode decode fpow logt num size d L P moduli last throws galois cadd cmul mod_switch encrypt decrypt t ratio invert (db db2 : list bytes),
  sealpir_setup encode decode fpow logt num size d L P moduli last throws galois cadd cmul mod_switch encrypt decrypt t ratio invert ->
  length db = num -> (forall r, In r db -> length r = size /\ Forall is_byte r) -> 1 <= num ->
  length db2 = num -> (forall r, In r db2 -> length r = size /\ Forall is_byte r) ->
  exists stores stores2, gen_from_raw encode P (new_stores P) (RawDb num size db) = Ok stores
    /\ gen_from_raw encode P stores (RawDb num size db2) = Ok stores2
    /\ forall rnd idx, idx < num ->
         unless throws (fun r => r = nth idx db []) (ask decode P galois cadd cmul mod_switch moduli last ratio encrypt decrypt t invert rnd stores2 idx).
Proof.
  intros encode decode fpow logt num size d L P moduli last throws galois cadd cmul mod_switch encrypt decrypt t ratio invert db db2
    (S1 & S2 & S3 & S4 & S5 & S6 & S7 & S8 & S9 & S10 & S11 & S12 & Enc & e0 & A & E & S13 & S14 & S15 & S16) Hl Hr Hn Hl2 Hr2.
  pose proof (row_ok encode decode fpow logt num size d P L moduli last throws galois cadd cmul mod_switch encrypt decrypt t Enc e0 A E ratio invert
    S1 S2 S3 S4 S5 S6 S7 S8 S9 S13 S10 S11 S12 S14 S15 S16) as R.
  destruct (R db Hl Hr (fun _ _ => 0) 0 Hn) as (stores & _ & Es & Ls & Lp & _). destruct (R db2 Hl2 Hr2 (fun _ _ => 0) 0 Hn) as (s2 & _ & Es2 & _).
  destruct (load_appends encode P _ stores s2 Es2 Ls) as (stores2 & E2 & L2 & N2). exists stores, stores2. split; [exact Es|]. split; [exact E2|].
  intros rnd idx Hi. destruct (R db Hl Hr rnd idx Hi) as (st & q & Est & _ & _ & Eq & U). assert (st = stores) by congruence. subst st. unfold ask. rewrite Eq. cbn [bind].
  destruct (set_params_ok _ _ _ _ _ _ _ S1 (proj1 S5)) as (_ & _ & _ & _ & _ & _ & _ & _ & _ & _ & _ & Edim & _ & _).
  destruct (get_dimensions_ok _ _ _ _ Edim S2 ltac:(lia)) as (_ & G2 & G3 & G4 & _).
  rewrite (response_app P galois cadd cmul mod_switch moduli last ratio stores stores2 q); [exact U| |exact G4|lia|exact Ls|exact L2|exact Lp|].
  - intros X. rewrite X in G2. cbn in G2. lia.
  - intros p Hp. exists (nth p s2 []). apply N2. exact Hp.
Qed.
Print Assumptions C69_second_database.

(** Degree 8, plain modulus 17, 4 bits per coefficient, and the scheme without secrets: three rows of five bytes in two partitions and two dimensions. *)
Definition ex_fpow (m _ : nat) : nat := if m =? 3 then 1 else 0.
Definition ex_rows (x : N) : list bytes := [[1; 2; 3; 4; 5]; [0; 255; 16; x; 7]; [9; 8; 7; 6; 250]]%N.
Lemma ex_rows_ok : forall x, (x < 256)%N -> forall r, In r (ex_rows x) -> length r = 5 /\ Forall is_byte r.
Proof. intros x Hx r [<-|[<-|[<-|[]]]]; (split; [reflexivity|]); repeat constructor; unfold is_byte; lia. Qed.
Example C69_example_setup : exists P, sl_pnum P = 2 /\ sl_dims P = [2; 2]
  /\ sealpir_setup (fun v => v) toy_decode ex_fpow 4 3 5 2 3 P [17%N] [17%N] false toy_galois toy_add toy_mul toy_switch toy_encrypt toy_decrypt 17 (fun _ => 2) toy_invert.
Proof.
  exists (SealParams 8 4 3 5 1 3 4 2 [2; 2]). split; [reflexivity|]. split; [reflexivity|].
  split; [reflexivity|]. split; [split; cbn; lia|]. split; [reflexivity|]. split; [reflexivity|]. split; [lia|]. split; [discriminate|]. split; [reflexivity|].
  split; [exact toy_inverts|]. split; [exact toy_batching|]. split; [repeat constructor; lia|]. split; [discriminate|].
  split; [constructor; [|constructor]; split; [reflexivity|]; split; [lia|]; split; [reflexivity|discriminate]|].
  exists toy_enc, 0%Z, 0%Z, 0%Z. split; [exact toy_scheme|]. split; [lia|]. split; [lia|]. repeat constructor; discriminate.
Qed.
Example C69_example : exists P stores, gen_from_raw (fun v => v) P (new_stores P) (RawDb 3 5 (ex_rows 77)) = Ok stores
  /\ ask toy_decode P toy_galois toy_add toy_mul toy_switch [17%N] [17%N] (fun _ => 2) toy_encrypt toy_decrypt 17 toy_invert (fun i j => i + j) stores 1
     = Ok [0; 255; 16; 77; 7]%N.
Proof.
  destruct C69_example_setup as (P & _ & _ & HS). exists P.
  destruct (C69_retrieves _ _ _ _ _ _ _ _ _ _ _ _ _ _ _ _ _ _ _ _ _ (ex_rows 77) HS eq_refl (ex_rows_ok 77 ltac:(lia)) ltac:(lia)) as (stores & Es & H).
  exists stores. split; [exact Es|]. destruct (H (fun i j => i + j) 1 ltac:(lia)) as [(r & Er & ->)|[X _]]; [exact Er|discriminate].
Qed.

(** "After a second GenerateFromRawData the rows are those of the second database" is false. *)
Theorem C69_reload_refuted : exists encode decode P moduli last galois cadd cmul mod_switch encrypt decrypt t ratio invert rnd db db2 stores stores2 idx r,
  gen_from_raw encode P (new_stores P) db = Ok stores /\ gen_from_raw encode P stores db2 = Ok stores2
  /\ ask decode P galois cadd cmul mod_switch moduli last ratio encrypt decrypt t invert rnd stores2 idx = Ok r
  /\ nth idx (rd_db db2) [] <> r.
Proof.
  destruct C69_example_setup as (P & _ & _ & HS).
  destruct (C69_second_database _ _ _ _ _ _ _ _ _ _ _ _ _ _ _ _ _ _ _ _ _ (ex_rows 77) (ex_rows 78) HS eq_refl (ex_rows_ok 77 ltac:(lia)) ltac:(lia) eq_refl (ex_rows_ok 78 ltac:(lia)))
    as (stores & stores2 & Es & Es2 & H).
  destruct (H (fun _ _ => 0) 1 ltac:(lia)) as [(r & Er & ->)|[X _]]; [|discriminate].
  do 14 eexists. exists (fun _ _ => 0). do 2 eexists. exists stores, stores2, 1. eexists. split; [exact Es|]. split; [exact Es2|]. split; [exact Er|]. discriminate.
Qed.
Print Assumptions C69_reload_refuted.

(** GetDimensions with the cube root of 64 rounded down to 3, as floor(pow(64, 1.0 / 3)) does in binary floating point: the
    dimensions have no room beyond the 64 plaintexts and GenerateFromRawData refuses every database. *)
Theorem C69_root_refuted : exists fpow n logt num size d P, fpow 64 3 = 3 /\ set_pir_params fpow n logt num size d = Ok P
  /\ forall encode old db, (forall o, gen_from_raw encode P old db <> Ok o).
Proof.
  exists (fun _ _ => 3), 8, 4, 64, 4, 3. eexists. split; [reflexivity|]. split; [reflexivity|].
  intros encode old db o. unfold gen_from_raw. destruct (partition db _) as [parts| | |]; cbn [bind]; try discriminate.
  unfold enforce. cbn [sl_pnum sl_npt sl_dims]. destruct (_ =? _); [|discriminate]. vm_compute. discriminate.
Qed.
Print Assumptions C69_root_refuted.
(** With the root right the same parameters have room. *)
Example C69_root_right : exists P, set_pir_params (fun _ _ => 4) 8 4 64 4 3 = Ok P /\ sl_npt P = 64 /\ sl_dims P = [5; 4; 4].
Proof. eexists. split; [reflexivity|]. split; reflexivity. Qed.

(** ComputeIndices multiplies the dimensions in an int: for 65536 by 65536 the product is 0 and it divides by zero, though 2^32
    plaintexts have 64 bit numbers. *)
Lemma indices_zero : forall d, N.of_nat d = 65536%N -> prod64 [d; d] = (2 ^ 32)%N /\ compute_indices 0 [d; d] = UB.
Proof.
  intros d Hd. unfold prod64, compute_indices, prod_int. cbn [fold_left indices_loop]. rewrite Hd. destruct d; [discriminate|]. cbn [Nat.eqb]. split; reflexivity.
Qed.
Theorem C69_indices_refuted : exists d, 1 <= d /\ prod64 [d; d] = (2 ^ 32)%N /\ compute_indices 0 [d; d] = UB.
Proof. exists (N.to_nat 65536). split; [lia|]. apply indices_zero. apply N2Nat.id. Qed.
Print Assumptions C69_indices_refuted.

(** Where multiply_plain refuses a transparent result, a server holding an all zero plaintext answers no query. *)
Definition strict_mul (c : cipher) (p : list N) : outcome cipher := if forallb (fun x => x =? 0)%N p then Throw else toy_mul c p.
Theorem C69_zero_refuted : exists P stores db, set_pir_params (fun _ _ => 1) 8 4 1 4 1 = Ok P /\ rd_db db = [[0; 0; 0; 0]%N]
  /\ gen_from_raw (fun v => v) P (new_stores P) db = Ok stores
  /\ ask toy_decode P toy_galois toy_add strict_mul toy_switch [17%N] [17%N] (fun _ => 2) toy_encrypt toy_decrypt 17 toy_invert (fun _ _ => 0) stores 0 = Throw.
Proof.
  eexists. eexists. exists (RawDb 1 4 [[0; 0; 0; 0]%N]). split; [reflexivity|]. split; [reflexivity|]. split; [reflexivity|].
  vm_compute. reflexivity.
Qed.
Print Assumptions C69_zero_refuted.
