(** Concrete values: the first test vector of RFC 9380 J.4.1, and a hash function on which both points coincide. *)
From Coq Require Import List Arith NArith ZArith Znumtheory Lia Setoid Morphisms Ring Field.
From Verif Require Import Base Text EllPrime EllField EllModel EllSpec EllProofs1 EllProofs2 EllProofs3 EllProofs4 EllProofs5.
Import ListNotations.
Local Open Scope Z_scope.

Definition rfc_dst : bytes := [81; 85; 85; 88; 45; 86; 48; 49; 45; 67; 83; 48; 50; 45; 119; 105; 116; 104; 45; 99; 117; 114; 118; 101; 50; 53; 53; 49;
  57; 95; 88; 77; 68; 58; 83; 72; 65; 45; 53; 49; 50; 95; 69; 76; 76; 50; 95; 82; 79; 95]%N.
Definition rfc_h0 : bytes := [227; 199; 240; 81; 110; 174; 117; 211; 103; 168; 217; 27; 114; 227; 190; 234; 205; 99; 71; 18; 79; 166; 127; 17; 110;
  23; 217; 151; 148; 182; 171; 96; 16; 71; 199; 47; 171; 87; 251; 20; 122; 200; 184; 83; 206; 7; 107; 225; 228; 184; 9; 182; 201; 180; 172; 225; 148;
  12; 121; 18; 58; 252; 95; 33]%N.
Definition rfc_h1 : bytes := [52; 133; 180; 114; 173; 217; 0; 118; 60; 158; 82; 229; 45; 11; 171; 196; 128; 95; 232; 167; 184; 254; 240; 161; 108; 16;
  94; 108; 173; 245; 166; 108; 63; 90; 156; 219; 184; 92; 152; 51; 92; 123; 102; 212; 207; 168; 219; 63; 163; 219; 81; 189; 54; 217; 28; 13; 139; 4;
  32; 22; 160; 4; 211; 2]%N.
Definition rfc_h2 : bytes := [147; 71; 237; 190; 198; 162; 181; 216; 192; 46; 5; 136; 25; 129; 155; 213; 196; 226; 85; 179; 172; 208; 34; 222; 195;
  13; 237; 161; 65; 154; 211; 187; 118; 254; 149; 74; 123; 131; 240; 28; 163; 43; 53; 141; 174; 28; 206; 2; 125; 67; 45; 137; 101; 84; 158; 174; 138;
  235; 75; 227; 70; 202; 149; 144]%N.
Definition rfc_u0 : Z := 169456198099833221064084444905468731279105130379095918422278533570636307050.
Definition rfc_u1 : Z := 8721031121874151690030808017548426494027279283631764909251781665258751534618.
Definition rfc_i0 : Z := 15661772502436221256837470353203903203194034857855706652657575665073299488363.
Definition rfc_i1 : Z := 35167127990064518551061936924293633243095019274686416897003116591038876117786.
Definition rfc_b1 : Z := 20543281516702469213879150213888525469900911104127558818207149908433537155002.
Definition rfc_Q0 : Z * Z := (24744465722254461523091165963593768681348622016216901654379004979682940571544,
  49227212404275927713943534296632489913883055524308285562680645505278000994365).
Definition rfc_Q1 : Z * Z := (28780313114436809130264718984952960318091729435912923361708514573272502819627,
  53713907261662436841599903323259276962985301512392680508880030085188381769620).
Definition rfc_l : Z := 44637002728266356839867858484371547798252361445145079646593100861241791189306.
Definition rfc_R : Z * Z := (2141802568870125223585981958196984525841035025656094792970104169158934059698,
  51307443252093038189163118123978903433598980570449733874195764125124014849851).
Definition rfc_l2 : Z := 8410576448424004815242760396888045616481788332574174438662875338666228867714.
Definition rfc_R2 : Z * Z := (55109455032352803815066113517869320390993938207826015193773437803155776970252,
  12441673572121091806034381356703668305883131384458053802455324269267316482286).
Definition rfc_l4 : Z := 11024940083168755116743421571310417288484423466540251369598396400020576669037.
Definition rfc_R4 : Z * Z := (10147999836392971371534984351447449388795308101368581940139398950014839377850,
  26154759150647025301622242964519289048474695962195708152894401889902129931836).
Definition rfc_l8 : Z := 1010396121711301971834354622102273722767511099531630549360295916749092710248.
Definition rfc_R8 : Z * Z := (20755980968848905962648296223990034442845239978893603531157795489810611935424,
  26852118219728031323091995148190119438110435709034478870970585906135281625208).
Definition rfc_x : bytes := [45; 227; 120; 10; 187; 103; 232; 97; 40; 159; 87; 73; 209; 109; 62; 33; 127; 250; 114; 33; 146; 209; 107; 189; 157; 27;
  251; 157; 17; 43; 152; 192]%N.
Definition col_c : N := 2%N.
Definition col_u : Z := 908173248920127022929968509872062022480005604773617456086790737963296640590.
Definition col_i : Z := 52072785051953238084790501043623933090885885099739275216475241100767398453292.
Definition col_Q : Z * Z := (5659213025170898448461661794579212475784566448948301274949846176190958345333,
  14652127022042020351472299492888315455589279149449627305437865163392795726523).
Definition col_l2 : Z := 20283257988204578372381198353866911030058521034692437825316347034508678648924.
Definition col_R2 : Z * Z := (50254538796153891404779766752889761012194201297907690049176459395535799532823,
  22149919827191831101680373813264612578591217060409758953962813492608052078883).
Definition col_l4 : Z := 1976180187375048864748581681807168657525127822436846437615646429779182179754.
Definition col_R4 : Z * Z := (3689607497230822400745420462056628330615081947437794596886993261692694957830,
  29037946521208073058850813518070815840873331541202170553875749935288672426515).
Definition col_l8 : Z := 36077803008566931441257613290771949867295139572571964166642194985079214209111.
Definition col_R8 : Z * Z := (52423080438984636931441482639319702539667496529413107446949474168263184995504,
  37674065326156796976517366252299621635351611908636131910639172511748469989341).
Definition col_l16 : Z := 55299757312091849405743439026090462681306847324853798826363948948306176625114.
Definition col_R16 : Z * Z := (35811214569120265902546274309026891925688127288203864461102840878456760327144,
  47550376063132866189757017436410964595321681654993050580999036253878873118811).

(** SHA-512 on the three strings that are hashed for the empty message. *)
Definition rfc_sha (m : bytes) : bytes :=
  let d := rfc_dst ++ [50%N] in
  if list_eq_dec N.eq_dec m (repeat 0%N 128 ++ [0; 96; 0]%N ++ d) then rfc_h0
  else if list_eq_dec N.eq_dec m (rfc_h0 ++ [1%N] ++ d) then rfc_h1
  else if list_eq_dec N.eq_dec m (xor_os rfc_h0 rfc_h1 ++ [2%N] ++ d) then rfc_h2
  else repeat 0%N 64.
Definition col_sha (_ : bytes) : bytes := repeat col_c 64.

Lemma rfc_sha_len : forall m, length (rfc_sha m) = 64%nat.
Proof. intros m. unfold rfc_sha. cbv zeta. repeat (destruct (list_eq_dec _ _ _); [reflexivity|]). reflexivity. Qed.
Lemma col_sha_len : forall m, length (col_sha m) = 64%nat.
Proof. intros m. apply repeat_length. Qed.

Ltac num := vm_compute; (reflexivity || discriminate || (split; [discriminate|reflexivity])).
Ltac numc := apply by_mod; num.
Lemma inv_nz : forall u i, (1 + 2 * u ^ 2) * i == 1 -> ~ - kJ * i == 0.
Proof.
  intros u i H X. destruct (p_mul_zero _ _ X) as [Y|Y].
  - apply kJ_nz. transitivity (- - kJ); [ring|]. rewrite Y. ring.
  - apply one_nz. rewrite <- H, Y. ring.
Qed.
Lemma elli_sq : forall u i x y, reduced kP x -> reduced kP y -> (1 + 2 * u ^ 2) * i == 1 -> x == - kJ * i -> y ^ 2 == g kJ x -> Z.odd y = true ->
  elligator2 kP kJ u (x, y).
Proof.
  intros u i x y Rx Ry Hi Hx Hy O. split; [exact Rx|]. split; [exact Ry|]. exists i, x. split; [right; exact Hi|].
  split; [left; split; [exact (inv_nz u i Hi)|exact Hx]|]. left. split; [exists y; exact Hy|]. split; [reflexivity|]. split; assumption.
Qed.
Lemma elli_nsq : forall u i b x y, reduced kP x -> reduced kP y -> (1 + 2 * u ^ 2) * i == 1 -> ~ b == 0 -> g kJ (- kJ * i) == 2 * b ^ 2 ->
  x == kJ * i - kJ -> y ^ 2 == g kJ x -> Z.even y = true -> elligator2 kP kJ u (x, y).
Proof.
  intros u i b x y Rx Ry Hi Hb Hg Hx Hy O. split; [exact Rx|]. split; [exact Ry|]. exists i, (- kJ * i). split; [right; exact Hi|].
  assert (E : - (- kJ * i) - kJ == x) by (rewrite Hx; ring).
  split; [left; split; [exact (inv_nz u i Hi)|reflexivity]|]. right. split; [intros (a & Ha); rewrite Hg in Ha; exact (two_times a b Hb Ha)|].
  split; [symmetry; exact E|]. split; [rewrite Hy; symmetry; apply g_cong; exact E|exact O].
Qed.

Lemma rfc_Q0_ok : elligator2 kP kJ rfc_u0 rfc_Q0.
Proof. apply (elli_sq rfc_u0 rfc_i0); [num|num|numc|numc|numc|num]. Qed.
Lemma rfc_Q1_ok : elligator2 kP kJ rfc_u1 rfc_Q1.
Proof. apply (elli_nsq rfc_u1 rfc_i1 rfc_b1); [num|num|numc|apply nz_by_mod; num|numc|numc|numc|num]. Qed.
Lemma rfc_expanded : expanded rfc_sha [] rfc_dst 96 (firstn 96 (rfc_h1 ++ rfc_h2)).
Proof. exists 2%nat. split; [lia|]. split; [lia|]. vm_compute. reflexivity. Qed.
Lemma rfc_points : h2c_points kP kJ rfc_sha [] rfc_dst rfc_Q0 rfc_Q1.
Proof.
  exists (firstn 96 (rfc_h1 ++ rfc_h2)). split; [exact rfc_expanded|].
  replace (os2ip (firstn 48 (firstn 96 (rfc_h1 ++ rfc_h2))) mod kP) with rfc_u0 by num.
  replace (os2ip (skipn 48 (firstn 96 (rfc_h1 ++ rfc_h2))) mod kP) with rfc_u1 by num.
  split; [exact rfc_Q0_ok|exact rfc_Q1_ok].
Qed.
Lemma rfc_sum : sums kP kJ rfc_Q0 rfc_Q1 rfc_R.
Proof. apply (chord_sum (fst rfc_Q0) (snd rfc_Q0) (fst rfc_Q1) (snd rfc_Q1) rfc_l); [numc|numc|apply nz_by_mod; num|numc|numc|numc|num|num]. Qed.
Ltac tan P l := apply (tangent_sum (fst P) (snd P) l); [numc|numc|numc|numc|num|num].
Lemma rfc_8 : times8 kP kJ rfc_R rfc_R8.
Proof. exists rfc_R2, rfc_R4. split; [tan rfc_R rfc_l2|]. split; [tan rfc_R2 rfc_l4|tan rfc_R4 rfc_l8]. Qed.
Theorem rfc_h2c : h2c kP kJ rfc_sha [] rfc_dst rfc_R8.
Proof. exists rfc_Q0, rfc_Q1, rfc_R. split; [exact rfc_points|]. split; [exact rfc_sum|exact rfc_8]. Qed.

Definition col_dst : bytes := repeat 1%N 16.
Lemma col_points : h2c_points kP kJ col_sha [] col_dst col_Q col_Q.
Proof.
  exists (repeat col_c 96). split; [exists 2%nat; split; [lia|]; split; [lia|vm_compute; reflexivity]|].
  replace (os2ip (firstn 48 (repeat col_c 96)) mod kP) with col_u by num. replace (os2ip (skipn 48 (repeat col_c 96)) mod kP) with col_u by num.
  assert (H : elligator2 kP kJ col_u col_Q) by (apply (elli_sq col_u col_i); [num|num|numc|numc|numc|num]). split; exact H.
Qed.
Theorem col_h2c : h2c kP kJ col_sha [] col_dst col_R16.
Proof.
  exists col_Q, col_Q, col_R2. split; [exact col_points|]. split; [tan col_Q col_l2|]. exists col_R4, col_R8.
  split; [tan col_R2 col_l4|]. split; [tan col_R4 col_l8|tan col_R8 col_l16].
Qed.
(** The octets of the vector, read least significant first: the right-hand side is twice a square, so no point is above it. *)
Definition rfc_nb : Z := 57086775096560739221435094022930428867067631185116331130724624894767931649858.
Lemma rfc_reversed : forall y, ~ on_curve kP kJ (x25519_u rfc_x, y).
Proof.
  intros y H. unfold on_curve in H; cbn [fst snd] in H. assert (E : g kJ (x25519_u rfc_x) == 2 * rfc_nb ^ 2) by numc.
  rewrite E in H. apply (two_times y rfc_nb); [apply nz_by_mod; num|exact H].
Qed.
Lemma rfc_x_bytes : be_bytes 32 (fst rfc_R8) = rfc_x.
Proof. vm_compute. reflexivity. Qed.
