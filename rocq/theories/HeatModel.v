(** Model of core/src/temperature/HeatEquationHandler.cpp: computeTemperature (248-356)
    and computePartialsForTemperature (358-481). Stencil values as in StencilModel:
    0 middle, 1 left, 2 right, 3/4 the second and 5/6 the third direction.
    Simplified: the early return when the heat flux is zero (254-257, 363-366) is not
    modelled; the heat flux of the current time is the parameter [heat]; [alpha] stands
    for getLocalHeatAlpha(xi). *)
From Coq Require Export Reals List Lia Lra.
From Verif Require Export Partial.
Export ListNotations.
Set Implicit Arguments.
Open Scope R_scope.

(** getLocalHeatBeta 175-184, getLocalHeatGamma 193-200, getDBeta 208-216,
    getDDBeta 218-224, getDGamma 239-246 *)
Definition hbeta (t : R) : R := (-2.4e-12 * t * t * t * t - 3.67e-10 * t * t * t + 4.65e-5 * t * t - 0.131 * t + 207.0) * 1.0e-9.
Definition capacity (t : R) : R := -4.01e-6 * t * t + 3.61e-2 * t + 119.0.
Definition density : R := 19.25e-24.
Definition hgamma (t : R) : R := 1.0 / (density * capacity t).
Definition dBeta (t : R) : R := (-9.6e-12 * t * t * t - 11.01e-10 * t * t + 9.3e-5 * t - 0.131) * 1.0e-9.
Definition ddBeta (t : R) : R := (-28.8e-12 * t * t - 22.02e-10 * t + 9.3e-5) * 1.0e-9.
Definition dGamma (t : R) : R := - (3.61e-2 - 8.02e-6 * t) / (density * capacity t * capacity t).
(** getBulkHeatFlux 21-29, getBulkHeatFluxDerivative 31-36 *)
Definition bulkFlux (t : R) : R := (-8.7993 + 0.0845 * (t - 273.0)) * 1.0e-12.
Definition dBulk (t : R) : R := 0.0845 * 1.0e-12.

(** Where the point lies; [Interface]: xi is not the surface but the interface location
    falls into its cell (the test of line 425 which computeTemperature does not have);
    it may also be the bulk end. Lines 298, 307-308, 336 and 425, 438-439. *)
Inductive place := Surface | Interior | BulkPortion (por : R) | BulkFlux.
Record hp := Hp { hhl : R; hhr : R; alpha : R; dAlpha : R; heat : R; hs : nat -> R; hdim : nat;
                  where_ : place; atInterface : bool }.
(** getDAlpha returns 0 (line 229): [dAlpha] stays a parameter. Lines 350-354. *)
Definition extra (p : hp) (t : nat -> R) : R :=
  Rsum (seq 1 (hdim p - 1)) (fun d => alpha p * hbeta (t 0%nat) * hgamma (t 0%nat) * hs p d * (t (2 * d + 1)%nat + t (2 * d + 2)%nat - 2 * t 0%nat)).
(** lines 298-348 *)
Definition along (p : hp) (t : nat -> R) : R :=
  let b := hbeta (t 0%nat) in let g := hgamma (t 0%nat) in let db := dBeta (t 0%nat) in
  let a := alpha p in let da := dAlpha p in let l := hhl p in let r := hhr p in let h := heat p in
  match where_ p with
  | Surface =>
      (2 * h * g / l + 2 * a * b * g * (t 2%nat - t 0%nat) / (l * r)) + (- h * da * g / a + h * h * g * db / (a * b * b))
  | BulkPortion por =>
      2 * a * b * g * (1 - por) * (t 1%nat - t 0%nat) / (l * (l + r)) +
      (da * b * g * (1 + (r * por) / l) * (t 1%nat - t 0%nat) / (l + r) +
       a * db * g * (1 + (r * por) / l) * (1 + (r * por) / l) * (t 1%nat - t 0%nat) * (t 1%nat - t 0%nat) / ((l + r) * (l + r)))
  | BulkFlux =>
      let q := bulkFlux (t 0%nat) in
      (- (2 * q * g / r) + 2 * a * b * g * (t 1%nat - t 0%nat) / (l * r)) +
      (- q * da * g / a + q * q * g * db / (a * b * b))
  | Interior =>
      2 * a * b * g * (t 1%nat + (l / r) * t 2%nat - (1 + l / r) * t 0%nat) / (l * (l + r)) +
      (da * b * g * (t 2%nat - t 1%nat) / (l + r) + a * db * g * (t 2%nat - t 1%nat) * (t 2%nat - t 1%nat) / ((l + r) * (l + r)))
  end.
Definition tempRate (p : hp) (t : nat -> R) : R := along p t + extra p t.

(** computePartialsForTemperature: the entry for stencil point [k]. *)
(** lines 394-419 *)
Definition interior (p : hp) (t : nat -> R) (k : nat) : R :=
  let b := hbeta (t 0%nat) in let g := hgamma (t 0%nat) in let db := dBeta (t 0%nat) in
  let dg := dGamma (t 0%nat) in let ddb := ddBeta (t 0%nat) in
  let a := alpha p in let da := dAlpha p in let l := hhl p in let r := hhr p in
  match k with
  | 0%nat =>
     -2 * a * b * g / (l * r) + a * (ddb * g + dg * db) * (t 2%nat - t 1%nat) * (t 2%nat - t 1%nat) / ((l + r) * (l + r)) +
     2 * a * (db * g + b * dg) * (t 1%nat + (l / r) * t 2%nat - (1 + l / r) * t 0%nat) / ((l + r) * l) +
     da * (db * g + dg * b) * (t 2%nat - t 1%nat) / (l + r) - Rsum (seq 1 (hdim p - 1)) (fun d => 2 * a * b * g * hs p d)
  | 1%nat => 2 * a * b * g / (l * (l + r)) - b * da * g / (l + r) + 2 * a * db * g * (t 1%nat - t 2%nat) / ((l + r) * (l + r))
  | 2%nat => 2 * a * b * g / (r * (l + r)) + b * da * g / (l + r) + 2 * a * db * g * (t 2%nat - t 1%nat) / ((l + r) * (l + r))
  | _ => if Nat.ltb k (2 * hdim p + 1) then a * b * g * hs p (Nat.div (k - 1) 2) else 0
  end.
(** lines 426-436; entries 3 and up keep their values of 417-418 *)
Definition surfaceVal (p : hp) (t : nat -> R) (k : nat) : R :=
  let b := hbeta (t 0%nat) in let g := hgamma (t 0%nat) in let db := dBeta (t 0%nat) in
  let dg := dGamma (t 0%nat) in let ddb := ddBeta (t 0%nat) in
  let a := alpha p in let da := dAlpha p in let l := hhl p in let r := hhr p in let h := heat p in
  match k with
  | 0%nat => 2 * h * dg / l - 2 * a * b * g / (l * r) + 2 * a * (db * g + dg * b) * (t 2%nat - t 0%nat) / (l * r) -
     h * dg * da / a + h * h * (g * ddb + dg * db) / (a * b * b) - 2 * h * h * g * db * db * (a * b * b * b)
  | 1%nat => 0
  | 2%nat => 2 * a * b * g / (l * r)
  | _ => interior p t k
  end.
(** lines 440-458 *)
Definition bulkPortionVal (p : hp) (por : R) (t : nat -> R) (k : nat) : R :=
  let b := hbeta (t 0%nat) in let g := hgamma (t 0%nat) in let db := dBeta (t 0%nat) in
  let a := alpha p in let da := dAlpha p in let l := hhl p in let r := hhr p in
  let w := 1 + (r * por) / l in
  match k with
  | 0%nat => -2 * a * b * g * (1 - por) / (l * (l + r)) + da * b * g * w / (l + r) +
     2 * a * db * g * w * w * (t 0%nat - t 1%nat) / ((l + r) * (l + r))
  | 1%nat => 2 * a * b * g * (1 - por) / (l * (l + r)) - da * b * g * w / (l + r) -
     2 * a * db * g * w * w * (t 0%nat - t 1%nat) / ((l + r) * (l + r))
  | 2%nat => 0
  | _ => interior p t k
  end.
(** lines 461-476 *)
Definition bulkFluxVal (p : hp) (t : nat -> R) (k : nat) : R :=
  let b := hbeta (t 0%nat) in let g := hgamma (t 0%nat) in let db := dBeta (t 0%nat) in
  let dg := dGamma (t 0%nat) in let ddb := ddBeta (t 0%nat) in let q := bulkFlux (t 0%nat) in let dq := dBulk (t 0%nat) in
  let a := alpha p in let da := dAlpha p in let l := hhl p in let r := hhr p in
  match k with
  | 0%nat => -2 * q * dg / r - 2 * a * b * g / (l * r) + 2 * a * (db * g + dg * b) * (t 1%nat - t 0%nat) / (l * r) -
     q * da * dg / a + q * q * (g * ddb + dg * db) / (a * b * b) - 2 * q * q * g * db * db * (a * b * b * b) -
     dq * g * da / a - 2 * dq * g / r + 2 * q * dq * g * db / (a * b * b)
  | 1%nat => 2 * a * b * g / (l * r)
  | 2%nat => 0
  | _ => interior p t k
  end.
(** lines 421-478 *)
Definition tempVal (p : hp) (t : nat -> R) (k : nat) : R :=
  if match where_ p with Surface => true | _ => atInterface p end then surfaceVal p t k
  else match where_ p with
  | BulkPortion por => bulkPortionVal p por t k
  | BulkFlux => bulkFluxVal p t k
  | _ => interior p t k
  end.
