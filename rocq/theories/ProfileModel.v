(** Model of the tabulated time profiles: core/src/temperature/ProfileHandler.cpp:62-94
    (getTemperature), core/src/flux/FluxHandler.cpp:168-201 (getProfileAmplitude) and
    core/src/temperature/HeatEquationHandler.cpp:500-525 (getHeatFlux, table part): the
    three functions have the same text. *)
From Coq Require Export Reals List Lia Lra.
From Verif Require Export Sums.
Export ListNotations.
Set Implicit Arguments.
Open Scope R_scope.

(** Floating-point division; [None] for a zero divisor (infinity or NaN). *)
Definition rdiv (a b : R) : option R := if Req_EM_T b 0 then None else Some (a / b).
(** The for loop; the vectors time and temp are walked together. *)
Fixpoint loop (tm vs : list R) (t : R) : option R :=
  match tm, vs with
  | ta :: ((tb :: _) as tm'), va :: ((vb :: _) as vs') =>
      if Rlt_dec t ta then loop tm' vs' t
      else if Rlt_dec tb t then loop tm' vs' t
      else match rdiv ((vb - va) * (t - ta)) (tb - ta) with None => None | Some q => Some (va + q) end
  | _ :: _ :: _, _ => None        (* value read past the end *)
  | _, _ => Some 0
  end.
(** [None]: out-of-bounds read (empty vectors or vectors of different lengths). *)
Definition lookup (tm vs : list R) (t : R) : option R :=
  match tm with
  | [] => None
  | t0 :: _ =>
      if Rle_dec t t0 then nth_error vs 0
      else if Rle_dec (last tm 0) t then nth_error vs (length tm - 1)
      else loop tm vs t
  end.
