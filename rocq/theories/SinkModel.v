(** Sinks: which clusters get a sink reaction, with which rate, and the flux and derivative of the NE sinks. The flux of
    the others is in SmallModel. A cluster is mobile when its diffusion factor is not 0. *)
From Verif Require Export MobilityModel.
From Verif Require SmallModel.
Set Implicit Arguments.
Open Scope R_scope.

Definition mobile (factor : R) : bool := if Req_EM_T factor 0 then false else true.
(** The number of sink reactions of a cluster. *)
Definition count (b : bool) : nat := if b then 1%nat else 0%nat.
(** PSIReactionNetwork.tpp:426-439, 708-726: only reached by mobile clusters. *)
Definition psiSinks (r : region) : nat :=
  if mobile (psiDiffusion r) then (count (onI (lo r)) + count (isSimplex r && onV (lo r) && (aV (lo r) =? 1)%Z))%nat else 0%nat.
(** FeReactionNetwork.tpp:24-38, 169-190 *)
Definition feSinks (r : reg3) : nat :=
  let he := ib (rG r) in let v := ib (rV r) in let i := ib (rI r) in
  if mobile (feDiffusion r) then (count (simplex3 r && on3 i he v) + count (simplex3 r && on3 v he i && (v <? 5)%Z))%nat else 0%nat.
(** NEReactionNetwork.tpp:401-411, 485-502; the factor comes from the reaction file. *)
Definition neSinks (factor : R) (r : reg3) : nat :=
  let xe := ib (rG r) in let v := ib (rV r) in let i := ib (rI r) in
  if mobile factor then (count (simplex3 r && on3 i xe v) + count (simplex3 r && on3 v xe i && (v <? 3)%Z))%nat else 0%nat.
(** AlloyReactionNetwork.tpp:28-30, 650-672 *)
Definition alloySinks (a : R) (r : list iv) : nat :=
  if mobile (alloyDiffusion a r)
  then (count (simplex r && alloyOn 3 r) + count (simplex r && alloyOn 0 r) + count (simplex r && alloyOn 4 r))%nat else 0%nat.
(** ZrReactionNetwork.tpp:28-30, 320-337 *)
Definition zrSinks (r : list iv) : nat :=
  if mobile (zrDiffusion r) then (count (simplex r && zrOnI r) + count (simplex r && zrOnV r))%nat else 0%nat.

(** PSIReaction.tpp:224-238 *)
Definition psiStrength : R := 1.0 / (PI * 50000.0 * 50000.0).
Definition psiSinkRate (dc : R) : R := SmallModel.sinkComputeRate 1.0 psiStrength dc.
(** FeReaction.tpp:151-171 *)
Definition feBias (r : reg3) : R := if simplex3 r && on3 (ib (rI r)) (ib (rG r)) (ib (rV r)) then 1.05 else 1.0.
(** FeReaction.tpp:173-187; [a] is the lattice parameter. *)
Definition feStrength (a radius : R) : R :=
  let r0 := a * 0.75 * sqrt 3.0 in
  let rho := 0.0003 in
  -4.0 * PI * rho / ln (PI * rho * (radius + r0) * (radius + r0)).
Definition feSinkRate (a impurity : R) (r : reg3) (dc : R) : R := SmallModel.sinkComputeRate (feBias r) (feStrength a (feRadius a impurity r)) dc.
(** AlloyReaction.tpp:192-219, Constants.h:92 *)
Definition alloyBias (r : list iv) : R := if simplex r && alloyOn 3 r then 1.2 else 1.0.
Definition alloySinkRate (r : list iv) (dc : R) : R := SmallModel.sinkComputeRate (alloyBias r) 1.0e-5 dc.
(** ZrReaction.tpp:291-327, Constants.h:95-96; [p] is the anisotropy ratio. *)
Definition zrASink : R := 7.25e-8.
Definition zrCSink : R := 2.25e-8.
Definition zrSinkRate (r : list iv) (dc p : R) : R :=
  if zrOnV r then dc * 1.0 * (zrCSink * p + zrASink / (p * p))
  else if zrOnI r then
    if (ib (axis 2 r) <? 9)%Z then dc * 1.1 * (zrCSink * p + zrASink / (p * p))
    else if (ib (axis 2 r) =? 9)%Z then dc * 1.1 * zrASink else 1.0
  else 1.0.
(** The rate of a sink at a grid point: the diffusion coefficient and the ratio are those of zrUpdate. *)
Definition zrSinkRateAt (r : list iv) (T : R) : option R :=
  match zrUpdate (zrDiffusion r) r T with Some (dc, Some p) => Some (zrSinkRate r dc p) | _ => None end.

(** NEReaction.tpp:1044-1064 *)
Definition neBias (r : reg3) : R := if simplex3 r && on3 (ib (rI r)) (ib (rG r)) (ib (rV r)) then 1.1 else 1.0.
(** NEReaction.tpp:1075-1096 and 1098-1127; [k] is constantRates(map(cluster), fileClusterNumber, 0). *)
Definition neSinkFlux (r : reg3) (k omega dG0 T c : R) : R := 100.0 * neBias r * k * (exp (dG0 / (kB * T)) / omega - c).
Definition neSinkPartial (r : reg3) (k : R) : R := - (k * 100.0 * neBias r).
