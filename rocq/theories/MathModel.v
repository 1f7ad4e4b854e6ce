(** Model of xolotl/util/include/xolotl/util/MathUtils.h *)
From Verif Require Export Sums.

(** MathUtils.h:169-179 [firstOrderSum]. [double] idealised as [R]. *)
Definition firstOrderSum (alpha beta mean : R) : R :=
  if Rgt_dec alpha beta then 0
  else (beta * (beta + 1)) / 2 - (alpha * (alpha - 1)) / 2 - (beta - alpha + 1) * mean.

(** MathUtils.h:186-202 [secondOrderSum]. *)
Definition secondOrderSum (alpha beta mean : R) : R :=
  if Rgt_dec alpha beta then 0
  else
    let t0 := (beta * (beta + 1) * (2 * beta + 1)) / 6 in
    let t1 := t0 - (alpha * (alpha - 1) * (2 * alpha - 1)) / 6 in
    let t2 := t1 - 2 * mean * ((beta * (beta + 1)) / 2 - (alpha * (alpha - 1)) / 2) in
    t2 + mean * mean * (beta - alpha + 1).

(** MathUtils.h:209-226 [secondOrderOffsetSum]. *)
Definition secondOrderOffsetSum (alpha beta mean1 mean2 offset : R) : R :=
  if Rgt_dec alpha beta then 0
  else
    let t0 := (beta * (beta + 1) * (2 * beta + 1)) / 6 in
    let t1 := t0 - (alpha * (alpha - 1) * (2 * alpha - 1)) / 6 in
    let t2 := t1 + (offset - mean1 - mean2) *
                   ((beta * (beta + 1)) / 2 - (alpha * (alpha - 1)) / 2) in
    t2 + mean1 * (mean2 - offset) * (beta - alpha + 1).

(** MathUtils.h:110-119, the loop [for (n = 1; n < degree; n++)] of
    [legendrePolynomial]; state (Pn2, Pn1, Pn), [k] remaining iterations. *)
Fixpoint legendreLoop (x : R) (n k : nat) (Pn2 Pn1 Pn : R) : R :=
  match k with
  | O => Pn
  | S k' =>
    let Pn' := ((2 * INR n + 1) * x * Pn1 - INR n * Pn2) / (INR n + 1) in
    legendreLoop x (S n) k' Pn1 Pn' Pn'
  end.

(** MathUtils.h:98-122 [legendrePolynomial], for degree >= 0 (a negative
    [int] degree, for which the loop does not run and 0 is returned, is not
    modelled). *)
Definition legendrePolynomial (x : R) (degree : nat) : R :=
  match degree with
  | O => 1
  | S O => x
  | S d => legendreLoop x 1 d 1 x 0
  end.

(** MathUtils.h:149-161 [computeNthOrderLegendre]: the loop over the
    coefficients with a running degree. *)
Fixpoint nthLegendreLoop (x : R) (cs : list R) (deg : nat) (value : R) : R :=
  match cs with
  | [] => value
  | c :: t => nthLegendreLoop x t (S deg) (value + c * legendrePolynomial x deg)
  end.
Definition computeNthOrderLegendre (x : R) (cs : list R) : R :=
  nthLegendreLoop x cs 0 0.
