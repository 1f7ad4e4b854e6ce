(** How fast two clusters find each other in zirconium and in the alloys: the capture radii of the loops, the anisotropy which is taken, and the rates which are shared between two products.

    Modelled code: ZrReactionNetwork.cpp:133-222 (initializeExtraClusterData), ZrReaction.tpp:115-190 (ZrProductionReaction and ZrDissociationReaction::getRateForProduction),
    AlloyReaction.tpp:63-135 (AlloyProductionReaction and AlloyDissociationReaction::getRateForProduction), AlloyReactionNetwork.tpp:86-119, 316-345 (vac + vac, int + int) without grouping.
    The rates themselves (zr::getRate, alloy::getRate) are in EnergyModel, the diffusion coefficients, the anisotropy and the reaction radii in MobilityModel. *)
From Coq Require Export Reals List Bool ZArith.
From Verif Require Export MobilityModel.
Export ListNotations.
Open Scope R_scope.

(** ** Zirconium *)
(** ZrReactionNetwork.cpp:145-222: the radii for the capture of interstitials and of vacancies. Both are 0 before (a Kokkos view). [transition]: the basal transition size. *)
Definition captureV (n : Z) : R * R := if (n <? 1000)%Z then (2.8 * Rpower (IZR n) 0.15 / 10, 2.0 * Rpower (IZR n) 0.3 / 10) else (0.79, 1.59).
Definition captureB (transition n : Z) : R * R :=
  if (n <? 1000)%Z then ((if (n <? transition)%Z then 1.1 else 5.2 * Rpower (IZR n) 0.06 / 10), 1.55 * Rpower (IZR n) 0.28 / 10) else (0.787, 1.072).
Definition captureI (n : Z) : R * R := if (n <? 1000)%Z then (4.5 * Rpower (IZR n) 0.205 / 10, 6.0 * Rpower (IZR n) 0.08 / 10) else (1.85, 1.04).
Definition capture (transition : Z) (r : list iv) : R * R :=
  let first := if zrOnV r then captureV (ib (axis 0 r)) else (0, 0) in
  if zrOnB r then captureB transition (ib (axis 1 r)) else if zrOnI r then captureI (ib (axis 2 r)) else first.

(** ZrReaction.tpp:39-60: what zr::getRate sees of a cluster. *)
Definition zrSeen (transition : Z) (r : list iv) : zr :=
  Zr (zrOnV r) (zrOnB r) (if zrOnV r then ib (axis 0 r) else if zrOnB r then ib (axis 1 r) else ib (axis 2 r)) (zrRadius transition r) (fst (capture transition r)) (snd (capture transition r)).
(** The anisotropy ratio of a cluster; 0 before it is written (ZrTraits.h:154-161). *)
Definition anisotropyRatio (r : list iv) (T : R) : R := match zrUpdate (zrDiffusion r) r T with Some (_, Some p) => p | _ => 0 end.
(** ZrReaction.tpp:127-136 (production), 165-174 (dissociation): the ratio of the first of the two which moves. *)
Definition ratioOf (r0 r1 : list iv) (T dc0 dc1 : R) : R := if Rlt_dec 0 dc0 then anisotropyRatio r0 T else if Rlt_dec 0 dc1 then anisotropyRatio r1 T else 0.
(** ZrReaction.tpp:117-152, 156-190. [None]: a table is read outside of its bounds, or the power -2 of 0 for two clusters which do not move, one of which is a loop. *)
Definition zrPair (transition : Z) (r0 r1 : list iv) (T : R) : option R :=
  match zrCoefficient r0 T, zrCoefficient r1 T with
  | Some dc0, Some dc1 =>
      let p := ratioOf r0 r1 T dc0 dc1 in
      let x0 := zrSeen transition r0 in
      let x1 := zrSeen transition r1 in
      if ((9 <? zSize x0) || (9 <? zSize x1))%Z%bool then (if Req_EM_T p 0 then None else Some (zrRate x0 x1 p dc0 dc1 transition)) else Some (zrRate x0 x1 p dc0 dc1 transition)
  | _, _ => None
  end.

(** ** Alloys. The axes: V, Void, Faulted, I, Perfect, Frank. *)
(** AlloyReaction.tpp:78-95 (production; the product) and 116-133 (dissociation; the reactant): [k]: the axis of the compound. *)
Definition alloyShare (r0 r1 compound : list iv) : R :=
  if alloyOn 3 r0 && alloyOn 3 r1 && negb (alloyOn 3 compound) then 0.5
  else if alloyOn 0 r0 && alloyOn 0 r1 && negb (alloyOn 0 compound) then 0.5
  else 1.
(** AlloyReaction.tpp:65-76, 103-114 *)
Definition alloySphereLike (r : list iv) : bool := alloyOn 0 r || alloyOn 1 r || alloyOn 3 r.
Definition alloyPair (a : R) (r0 r1 compound : list iv) (T : R) : R :=
  alloyRate (alloySphereLike r0) (alloySphereLike r1) (alloyOn 3 r0) (alloyOn 3 r1) (alloyRadius a r0) (alloyRadius a r1)
    (coefficient (alloyDiffusion a r0) (alloyMigration r0) T) (coefficient (alloyDiffusion a r1) (alloyMigration r1) T) * alloyShare r0 r1 compound.
Definition alloySole (k : nat) (n : Z) : list iv := map (fun j => if (j =? k)%nat then Iv n (n + 1) else Iv 0 1) (seq 0 6).
(** AlloyReactionNetwork.tpp:86-119, 316-345: the compounds looked for, in order; those which exist in a network without groups (AlloyClusterGenerator.tpp:92-163). *)
Definition compounds (maxV maxI maxSize maxVoid : Z) (vacancies : bool) (n : Z) : list (list iv) :=
  filter (alloySelect maxV maxI maxSize maxVoid) (map (fun k => alloySole k n) (if vacancies then [0; 1; 2] else [3; 5; 4])%nat).
