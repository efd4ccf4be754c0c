(** What C69 assumes of SEAL and asks of SealPIR: polynomials modulo X^n + 1, plaintexts, and the relation
    "this ciphertext encrypts that message with this much noise" as an abstract parameter. *)
From Coq Require Import List Arith NArith ZArith.
From Verif Require Import Base SpDecodeSpec SpRingSpec.
Import ListNotations.
Local Open Scope Z_scope.

(** The polynomial with these coefficients. *)
Definition lpoly (l : list N) : nat -> Z := fun z => Z.of_N (nth z l 0%N).
Definition zpoly : nat -> Z := fun _ => 0.
Definition cpoly (c : Z) : nat -> Z := fun z => match z with O => c | _ => 0 end.
(** X^s for s below 2n. *)
Definition xpow (n s : nat) : nat -> Z := fun z => if Nat.eqb z (s mod n) then (if (s <? n)%nat then 1 else -1) else 0.
(** The polynomial at X^g, for odd g: coefficient i moves to X^(i g). *)
Definition substituted (n : nat) (q : Z) (g : nat) (a b : nat -> Z) : Prop :=
  forall i, (i < n)%nat -> eqm q (b ((i * g) mod n)%nat) (if Nat.even ((i * g) / n) then a i else - a i).

(** A plaintext: at most n coefficients below t. *)
Definition plain (n : nat) (t : N) (p : list N) : Prop := (length p <= n)%nat /\ Forall (fun x => (x < t)%N) p.
(** A plaintext for the message m modulo t. *)
Definition plain_of (n : nat) (t : N) (p : list N) (m : nat -> Z) : Prop := plain n t p /\ peq n (Z.of_N t) (lpoly p) m.
Definition weight (p : list N) : Z := fold_right (fun x a => Z.of_N x + a) 0 p.

(** The words of modulus j. *)
Definition residue (n j : nat) (d : list N) : list N := firstn n (skipn (j * n) d).
(** Two polynomials, every word at most its modulus. *)
Definition in_form (n : nat) (qs : list N) (c : list (list N)) : Prop :=
  length c = 2%nat /\ Forall (fun d => length d = (length qs * n)%nat) c
  /\ forall d j, In d c -> (j < length qs)%nat -> Forall (fun x => (x <= nth j qs 0)%N) (residue n j d).
(** Every word of c' is, modulo its modulus, the coefficient of X^s times the polynomial of c. *)
Definition rotated (n : nat) (qs : list N) (s : nat) (c c' : list (list N)) : Prop :=
  forall i j, (i < 2)%nat -> (j < length qs)%nat ->
    peq n (Z.of_N (nth j qs 0%N)) (lpoly (residue n j (nth i c' []))) (negacyclic n (xpow n s) (lpoly (residue n j (nth i c [])))).

(** r is the number of digits of logt bits that hold every number below q. *)
Definition digits_for (logt : nat) (q : N) (r : nat) : Prop :=
  (1 <= r)%nat /\ (2 ^ N.of_nat (logt * (r - 1)) < q)%N /\ (q <= 2 ^ N.of_nat (logt * r))%N.

(** [r] is the integer part of the d-th root of m. *)
Definition is_root (m d r : nat) : Prop := (r ^ d <= m)%nat /\ (m < (r + 1) ^ d)%nat.

(** The product of the dimensions. *)
Definition prodn (l : list nat) : nat := fold_right Nat.mul 1%nat l.

(** A result, unless multiplication by a plaintext threw and is allowed to. *)
Definition unless (throws : bool) {A : Type} (Q : A -> Prop) (o : outcome A) : Prop :=
  (exists x, o = Ok x /\ Q x) \/ (throws = true /\ o = Throw).

(** BFV as SEAL implements it.  [Enc e c m]: c encrypts m with noise at most e.  Fresh noise is [e0], an operation adds at
    most [A], and noise up to [E] does not disturb decryption or modulus switching. *)
Record seal_scheme (n : nat) (t : N) (moduli last : list N) (throws : bool)
  (galois : list (list N) -> nat -> list (list N)) (cadd : list (list N) -> list (list N) -> list (list N))
  (cmul : list (list N) -> list N -> outcome (list (list N))) (mod_switch : list (list N) -> list (list N))
  (encrypt : nat -> list N -> list (list N)) (decrypt : list (list N) -> list N)
  (Enc : Z -> list (list N) -> (nat -> Z) -> Prop) (e0 A E : Z) : Prop := {
  ss_form : forall e c m, Enc e c m -> in_form n moduli c;
  ss_weaken : forall e e' c m m', Enc e c m -> e <= e' -> peq n (Z.of_N t) m m' -> Enc e' c m';
  ss_encrypt : forall r p, plain n t p -> Enc e0 (encrypt r p) (lpoly p);
  ss_add : forall e1 e2 c1 c2 m1 m2, Enc e1 c1 m1 -> Enc e2 c2 m2 -> Enc (e1 + e2 + A) (cadd c1 c2) (fun z => m1 z + m2 z);
  ss_galois : forall e c m g m', Enc e c m -> Nat.odd g = true -> (g < 2 * n)%nat -> substituted n (Z.of_N t) g m m' ->
    Enc (e + A) (galois c g) m';
  ss_rotate : forall e c c' m s, Enc e c m -> (s < 2 * n)%nat -> in_form n moduli c' -> rotated n moduli s c c' ->
    Enc e c' (negacyclic n (xpow n s) m);
  ss_plain : forall e c m p, Enc e c m -> plain n t p ->
    unless throws (fun c' => Enc (weight p * e + A) c' (negacyclic n m (lpoly p))) (cmul c p);
  ss_decrypt : forall e c m, Enc e c m -> e <= E -> plain_of n t (decrypt c) m;
  ss_switch : forall e c m, Enc e c m -> e <= E -> in_form n last (mod_switch c)
    /\ (forall d j, In d (mod_switch c) -> (j < length last)%nat -> Forall (fun x => (x < nth j last 0)%N) (residue n j d))
    /\ plain_of n t (decrypt (mod_switch c)) m }.

(** BatchEncoder. *)
Definition batching (n : nat) (t : N) (encode decode : list N -> list N) : Prop :=
  forall v, length v = n -> Forall (fun x => (x < t)%N) v ->
    plain n t (encode v) /\ forall p, plain n t p -> (forall z, lpoly p z = lpoly (encode v) z) -> decode p = v.

(** Noise after k rounds of expansion, and of a sum of [ni] products with plaintexts. *)
Definition round_noise (e0 A : Z) (k : nat) : Z := 2 ^ Z.of_nat k * e0 + (2 ^ Z.of_nat k - 1) * (2 * A).
Definition level_noise (n : nat) (t : N) (e0 A : Z) (k ni : nat) : Z :=
  Z.of_nat ni * (Z.of_nat n * Z.of_N t * round_noise e0 A k + 2 * A).

(** try_invert_uint_mod. *)
Definition inverts (t : N) (invert : N -> N -> option N) : Prop :=
  forall a, Z.gcd (Z.of_N a) (Z.of_N t) = 1 -> exists v, invert a t = Some v /\ (v < t)%N /\ eqm (Z.of_N t) (Z.of_N a * Z.of_N v) 1.
