(** Model of the calibration of differential privacy: psi/legacy/dp_psi/dp_psi_utils.{h,cc}
    (ComputePSubKeep h 30-33, ComputeEpsilon2 26-54, ComputeDelta1 56-62, ComputeEpsilon1 64-77, Phi,
    caseA and caseB 79-91, DoublingTrick 93-102, BinarySearch 104-117, CalibrateAnalyticGaussianMechanism
    119-171).

    Simplified: real numbers for doubles, so nothing is said about rounding; a loop that runs out of
    fuel is [Diverge], and a loop that never stops is one that does so for any fuel.  The root of a
    negative number is a NaN, here [None], as is a division by zero under a root; a comparison with
    it is false.  [Phi] is the normal distribution function (std::erf). *)
From Coq Require Import Reals Bool.
From Verif Require Import Base.
Local Open Scope R_scope.

Definition rltb (x y : R) : bool := if Rlt_dec x y then true else false.
Definition rleb (x y : R) : bool := if Rle_dec x y then true else false.

(** kEpsilonPsi and kErrorRate (h 23-24). *)
Definition k_epsilon : R := 4.
Definition k_rate : R := 1 / 1000000000000.
(** ComputePSubKeep. *)
Definition sub_keep (e2 : R) : R := exp e2 / (1 + exp e2).
Definition delta1 (n : nat) : R := 1 / (10 * INR n).
(** ComputeEpsilon1. *)
Definition sampled (n : nat) (e2 : R) : R :=
  INR n * sub_keep e2 - sqrt (2 * INR n * sub_keep e2 * ln (2 / delta1 n)).
Definition epsilon1_value (n : nat) (e2 : R) : R :=
  sqrt (32 * ln (4 / delta1 n) / sampled n e2) * (1 - (INR n * sub_keep e2 - sampled n e2) / INR n).
Definition epsilon1 (n : nat) (e2 : R) : option R :=
  if rltb 0 (sampled n e2) then Some (epsilon1_value n e2) else None.
(** The loop of ComputeEpsilon2 (36-51). *)
Fixpoint epsilon2_loop (fuel n : nat) (epsilon lo hi : R) : outcome R :=
  match fuel with
  | O => Diverge
  | S k =>
    let mid := lo + (hi - lo) / 2 in
    match epsilon1 n mid with
    | None => Ok mid
    | Some e1 =>
      let err := epsilon - e1 - mid in
      if rltb k_rate (Rabs err)
      then if rltb 0 err then epsilon2_loop k n epsilon mid hi else epsilon2_loop k n epsilon lo mid
      else Ok mid
    end
  end.
Definition epsilon2 (fuel n : nat) (epsilon : R) : outcome R := epsilon2_loop fuel n epsilon (5 / 2) k_epsilon.

(** DoublingTrick and BinarySearch. *)
Fixpoint doubling (fuel : nat) (stop : R -> bool) (lo hi : R) : outcome (R * R) :=
  match fuel with
  | O => Diverge
  | S k => if stop hi then Ok (lo, hi) else doubling k stop hi (2 * hi)
  end.
Fixpoint binary (fuel : nat) (stop left : R -> bool) (lo hi : R) : outcome R :=
  match fuel with
  | O => Diverge
  | S k =>
    let mid := lo + (hi - lo) / 2 in
    if stop mid then Ok mid
    else if left mid then binary k stop left lo mid else binary k stop left mid hi
  end.

Section Gauss.
Variable Phi : R -> R.
Definition case_a (epsilon s : R) : R := Phi (sqrt (epsilon * s)) - exp epsilon * Phi (- sqrt (epsilon * (s + 2))).
Definition case_b (epsilon s : R) : R := Phi (- sqrt (epsilon * s)) - exp epsilon * Phi (- sqrt (epsilon * (s + 2))).
(** CalibrateAnalyticGaussianMechanism up to alpha (121-165), then sigma. *)
Definition alpha (fuel : nat) (epsilon delta tol : R) : outcome R :=
  let thr := case_a epsilon 0 in
  if rltb (Rabs (delta - thr)) (1 / 100000) then Ok 1
  else if rltb thr delta then
    do p <- doubling fuel (fun s => rleb delta (case_a epsilon s)) 0 1;
    do s <- binary fuel (fun s => rleb (Rabs (case_a epsilon s - delta)) tol)
              (fun s => rltb delta (case_a epsilon s)) (fst p) (snd p);
    Ok (sqrt (1 + s / 2) - sqrt (s / 2))
  else
    do p <- doubling fuel (fun s => rleb (case_b epsilon s) delta) 0 1;
    do s <- binary fuel (fun s => rleb (Rabs (case_b epsilon s - delta)) tol)
              (fun s => rltb (case_b epsilon s) delta) (fst p) (snd p);
    Ok (sqrt (1 + s / 2) + sqrt (s / 2)).
Definition sigma (fuel : nat) (epsilon delta gs tol : R) : outcome R :=
  do a <- alpha fuel epsilon delta tol; Ok (a * gs / sqrt (2 * epsilon)).
End Gauss.
