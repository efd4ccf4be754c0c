(** Hashing to Curve25519 with Elligator 2: the claims. *)
From Coq Require Import List Arith NArith ZArith Lia.
From Verif Require Import Base Text EllPrime EllField EllModel EllSpec EllProofs1 EllProofs2 EllProofs3 EllProofs4 EllProofs5 EllExample.
Import ListNotations.
Local Open Scope Z_scope.

Lemma enc_os : forall x, reduced kP x -> i2os x 32 (be_bytes 32 x).
Proof. intros x H. split; [apply be_bytes_len|]. split; [apply be_bytes_byte|]. rewrite os2ip_be. apply be_bytes_32; exact H. Qed.

Lemma ok_inj : forall (a b : bytes), Ok a = Ok b -> a = b.
Proof. intros a b H. injection H. auto. Qed.

(** C70.  For every buffer, MapToCurveG2 and MapToCurveElligator2 both return the coordinates of the one point that the map of
    RFC 9380 6.7.1 assigns to the number in the buffer, 32 big endian octets each, and the point is on the curve. *)
Theorem C70_map_to_curve : forall inv ub, inverter kP inv -> (0 < length ub)%nat ->
  exists P xb yb, map_to_curve_g2 inv ub = Ok (xb, yb) /\ map_to_curve_elligator2 inv ub = Ok (xb, yb)
    /\ i2os (fst P) 32 xb /\ i2os (snd P) 32 yb /\ on_curve kP kJ P /\ check_point xb yb = true
    /\ elligator2 kP kJ (os2ip ub) P /\ forall Q, elligator2 kP kJ (os2ip ub) Q -> Q = P.
Proof.
  intros inv ub Hinv HL. destruct (g2_ok inv Hinv ub HL) as (x & y & E & S). destruct (ell2_ok inv Hinv ub) as (x' & y' & E' & S').
  pose proof (elligator2_unique _ _ _ S S') as X. injection X as <- <-. destruct (elligator2_red _ _ S) as (Rx & Ry); cbn [fst snd] in Rx, Ry.
  exists (x, y), (be_bytes 32 x), (be_bytes 32 y). split; [exact E|]. split; [exact E'|]. split; [apply enc_os; exact Rx|]. split; [apply enc_os; exact Ry|].
  pose proof (elligator2_on_curve _ _ S) as C. split; [exact C|]. split; [apply check_point_ok; rewrite !be_bytes_32 by assumption; exact C|].
  rewrite os2ip_be. split; [exact S|]. intros Q HQ. exact (elligator2_unique _ _ _ HQ S).
Qed.
(** The curve arithmetic that goes with it: on points of the curve with different first coordinates the additions return P + Q, on
    equal ones they throw; the doublings return P + P, with and without the second coordinate, and throw where there is none;
    clearing the cofactor returns 8 * P, and throws where one of the three doublings has no result. *)
Theorem C70_addition : forall inv P Q, inverter kP inv -> red2 P -> red2 Q -> on_curve kP kJ P -> on_curve kP kJ Q ->
  let px := be_bytes 32 (fst P) in let py := be_bytes 32 (snd P) in let qx := be_bytes 32 (fst Q) in let qy := be_bytes 32 (snd Q) in
  (fst P <> fst Q -> exists R, sums kP kJ P Q R /\ point_add inv px py qx qy = Ok (be_bytes 32 (fst R), be_bytes 32 (snd R))
      /\ point_add_x inv px py qx qy = Ok (be_bytes 32 (fst R)))
  /\ (fst P = fst Q -> point_add inv px py qx qy = Throw /\ point_add_x inv px py qx qy = Throw).
Proof.
  intros inv P Q Hinv RP RQ HP HQ. cbv zeta. split; intros N.
  - destruct (add_ok inv Hinv P Q RP RQ HP HQ N) as (R & A & B & C). exists R. split; [exact C|]. split; assumption.
  - exact (add_throw inv Hinv P Q RP RQ N).
Qed.
Theorem C70_clear_cofactor : forall inv P, inverter kP inv -> red2 P -> on_curve kP kJ P ->
  (exists R, times8 kP kJ P R /\ clear_cofactor inv (be_bytes 32 (fst P)) (be_bytes 32 (snd P)) = Ok (be_bytes 32 (fst R), be_bytes 32 (snd R))
      /\ clear_cofactor_projective inv (be_bytes 32 (fst P)) = Ok (be_bytes 32 (fst R)))
  \/ ((forall R, ~ times8 kP kJ P R) /\ clear_cofactor inv (be_bytes 32 (fst P)) (be_bytes 32 (snd P)) = Throw
      /\ clear_cofactor_projective inv (be_bytes 32 (fst P)) = Throw).
Proof.
  intros inv P Hinv RP HP. destruct (clear_cases inv Hinv P RP HP) as [(R & A & _ & B & C)|(A & B & C)]; [left; exists R; split; [exact A|split; assumption]|].
  right. split; [exact A|split; assumption].
Qed.
Theorem C70_doubling : forall inv P, inverter kP inv -> red2 P -> on_curve kP kJ P ->
  (exists R, sums kP kJ P P R /\ point_dbl inv (be_bytes 32 (fst P)) (be_bytes 32 (snd P)) = Ok (be_bytes 32 (fst R), be_bytes 32 (snd R))
      /\ point_dbl_projective inv (be_bytes 32 (fst P)) = Ok (be_bytes 32 (fst R)))
  \/ ((forall R, ~ sums kP kJ P P R) /\ point_dbl inv (be_bytes 32 (fst P)) (be_bytes 32 (snd P)) = Throw
      /\ point_dbl_projective inv (be_bytes 32 (fst P)) = Throw).
Proof.
  intros inv P Hinv RP HP. destruct (dbl_cases inv Hinv P RP HP) as [(R & A & _ & _ & B & C)|(A & B & C)]; [left; exists R; split; [exact A|split; assumption]|].
  right. split; [exact A|split; assumption].
Qed.
Print Assumptions C70_map_to_curve.
Print Assumptions C70_addition.
Print Assumptions C70_clear_cofactor.
Print Assumptions C70_doubling.

(** An inverter exists. *)
Example C70_inverter : exists inv, inverter kP inv.
Proof.
  exists (fun a => if p_dec a 0 then None else Some (pinv a mod kP)). intros a. destruct (p_dec a 0) as [E|E].
  - intros b H. apply one_nz. rewrite <- H, E. reflexivity.
  - split; [apply (mod_reduced kP kP_prime)|]. unfold pinv. rewrite (mod_cong kP kP_prime), Z.mul_comm. exact (finv_l kP kP_prime a E).
Qed.
(** Q1 of the first vector of RFC 9380 J.4.1, where g(x1) is not a square. *)
Example C70_ex : forall inv, inverter kP inv ->
  map_to_curve_g2 inv (be_bytes 32 0x1347edbec6a2b5d8c02e058819819bee177077c9d10a4ce165aab0fd0252261a)
  = Ok (be_bytes 32 0x3fa114783a505c0b2b2fbeef0102853c0b494e7757f2a089d0daae7ed9a0db2b, be_bytes 32 (snd rfc_Q1)).
Proof.
  intros inv Hinv. change 0x1347edbec6a2b5d8c02e058819819bee177077c9d10a4ce165aab0fd0252261a with rfc_u1.
  change 0x3fa114783a505c0b2b2fbeef0102853c0b494e7757f2a089d0daae7ed9a0db2b with (fst rfc_Q1).
  destruct (g2_ok inv Hinv (be_bytes 32 rfc_u1) ltac:(rewrite be_bytes_len; lia)) as (x & y & E & S).
  rewrite be_bytes_32 in S by num. pose proof (elligator2_unique _ _ _ S rfc_Q1_ok) as X. rewrite E, <- X. reflexivity.
Qed.

(** C71.  HashToCurveElligator2 with a tag of 16 to 255 bytes: Q0 and Q1 are the points of RFC 9380; if their first coordinates differ,
    the result is the first coordinate of 8 * (Q0 + Q1), 32 big endian octets, and an exception where that is the point at infinity;
    if they agree, an exception.  With a tag of any other length, an exception. *)
Theorem C71_hash_to_curve : forall sha inv msg dst, (forall m, length (sha m) = 64%nat) -> inverter kP inv -> (16 <= length dst <= 255)%nat ->
  exists Q0 Q1, h2c_points kP kJ sha msg dst Q0 Q1
    /\ (fst Q0 <> fst Q1 -> forall P, h2c kP kJ sha msg dst P -> exists b, hash_to_curve sha inv msg dst = Ok b /\ i2os (fst P) 32 b)
    /\ (fst Q0 <> fst Q1 -> (forall P, ~ h2c kP kJ sha msg dst P) -> hash_to_curve sha inv msg dst = Throw)
    /\ (fst Q0 = fst Q1 -> hash_to_curve sha inv msg dst = Throw).
Proof.
  intros sha inv msg dst HS Hinv HD. destruct (hash_cases sha HS inv Hinv msg dst HD) as (Q0 & Q1 & HQ & HC). exists Q0, Q1. split; [exact HQ|].
  destruct HC as [(N & P & HP & E)|[(N & HP & E)|(N & E)]].
  - split; [|split; [intros _ X; exfalso; exact (X _ HP)|intros X; contradiction]]. intros _ P' HP'. rewrite (h2c_unique sha _ _ _ _ HP' HP).
    eexists. split; [exact E|]. apply enc_os. destruct HP as (_ & _ & _ & _ & _ & (A & B & _ & _ & HR)). exact (proj1 (sums_red _ _ _ HR)).
  - split; [intros _ P' HP'; exfalso; exact (HP _ HP')|]. split; [intros _ _; exact E|intros X; contradiction].
  - split; [intros X; contradiction|]. split; [intros X; contradiction|intros _; exact E].
Qed.
(** Whatever comes back is the RFC's point, which is on the curve and unique; and with a bad tag nothing comes back. *)
Theorem C71_sound : forall sha inv msg dst b, (forall m, length (sha m) = 64%nat) -> inverter kP inv -> hash_to_curve sha inv msg dst = Ok b ->
  (16 <= length dst <= 255)%nat
  /\ exists P, h2c kP kJ sha msg dst P /\ i2os (fst P) 32 b /\ on_curve kP kJ P /\ forall P', h2c kP kJ sha msg dst P' -> P' = P.
Proof.
  intros sha inv msg dst b HS Hinv E. assert (HD : (16 <= length dst <= 255)%nat).
  { destruct (le_dec 16 (length dst)), (le_dec (length dst) 255); try lia; rewrite hash_reject in E by lia; discriminate. }
  split; [exact HD|]. destruct (hash_cases sha HS inv Hinv msg dst HD) as (Q0 & Q1 & HQ & [(N & P & HP & E')|[(N & HP & E')|(N & E')]]); rewrite E' in E; [|discriminate|discriminate].
  apply ok_inj in E. subst b. exists P. split; [exact HP|]. pose proof HP as (_ & _ & _ & _ & _ & (A & B & _ & _ & HR)).
  split; [apply enc_os; exact (proj1 (sums_red _ _ _ HR))|]. split; [exact (proj2 (proj2 (sums_on_curve _ _ _ HR)))|]. intros P' HP'. exact (h2c_unique sha _ _ _ _ HP' HP).
Qed.
(** hash_to_curve of the RFC is total; the code throws on two equal points, although they have a sum. *)
Theorem C71_total_refuted : exists sha msg dst P, (forall m, length (sha m) = 64%nat) /\ (16 <= length dst <= 255)%nat /\ h2c kP kJ sha msg dst P
  /\ forall inv, inverter kP inv -> hash_to_curve sha inv msg dst = Throw.
Proof.
  exists col_sha, [], col_dst, col_R16. split; [exact col_sha_len|]. assert (HD : (16 <= length col_dst <= 255)%nat) by (unfold col_dst; rewrite repeat_length; lia).
  split; [exact HD|]. split; [exact col_h2c|]. intros inv Hinv. destruct (C71_hash_to_curve col_sha inv [] col_dst col_sha_len Hinv HD) as (Q0 & Q1 & HQ & _ & _ & H).
  apply H. destruct (h2c_points_unique _ _ _ _ _ _ _ HQ col_points) as (-> & ->). reflexivity.
Qed.
(** The result is most significant octet first, but the cryptors hand it to X25519, which reads least significant octet first: the number
    it reads need not belong to a point of the curve at all (it does not for the empty message of RFC 9380 J.4.1). *)
Lemma rfc_result : forall inv, inverter kP inv -> hash_to_curve rfc_sha inv [] rfc_dst = Ok rfc_x.
Proof.
  intros inv Hinv. destruct (hash_cases rfc_sha rfc_sha_len inv Hinv [] rfc_dst ltac:(cbn; lia)) as (Q0 & Q1 & HQ & HC).
  destruct (h2c_points_unique _ _ _ _ _ _ _ HQ rfc_points) as (-> & ->).
  destruct HC as [(N & P & HP & E)|[(N & HP & E)|(N & E)]]; [|exfalso; exact (HP _ rfc_h2c)|exfalso; revert N; num].
  rewrite (h2c_unique rfc_sha _ _ _ _ HP rfc_h2c), rfc_x_bytes in E. exact E.
Qed.
Theorem C71_byte_order_refuted : exists sha msg dst b, (forall m, length (sha m) = 64%nat) /\ (16 <= length dst <= 255)%nat
  /\ (forall inv, inverter kP inv -> hash_to_curve sha inv msg dst = Ok b) /\ forall y, ~ on_curve kP kJ (x25519_u b, y).
Proof.
  exists rfc_sha, [], rfc_dst, rfc_x. split; [exact rfc_sha_len|]. split; [cbn; lia|]. split; [exact rfc_result|exact rfc_reversed].
Qed.
Print Assumptions C71_hash_to_curve.
Print Assumptions C71_sound.
Print Assumptions C71_total_refuted.
Print Assumptions C71_byte_order_refuted.

(** The first vector of RFC 9380 J.4.1: the empty message. *)
Example C71_ex : forall inv, inverter kP inv ->
  hash_to_curve rfc_sha inv [] rfc_dst = Ok (be_bytes 32 0x2de3780abb67e861289f5749d16d3e217ffa722192d16bbd9d1bfb9d112b98c0).
Proof. intros inv Hinv. rewrite (rfc_result inv Hinv), <- rfc_x_bytes. reflexivity. Qed.
