(** Migration energies, diffusion factors, diffusion coefficients and reaction radii of the clusters, as the
    cluster generators of the networks give them (core/network/impl/XClusterGenerator.tpp), and the update of the diffusion
    coefficients. pow(x, 1.0 / 3.0) and cbrt are the real cube root, core::pi is PI. *)
From Verif Require Export Sums EnergyModel SelectModel.
Set Implicit Arguments.
Open Scope R_scope.

(** The mean over the sizes of an interval, as all the loops over a group compute it. *)
Definition mean (f : Z -> R) (b e : Z) : R := Rsum (zlist b (e - 1)) f / IZR (e - b).
Definition root3 (x : R) : R := if Rlt_dec 0 x then Rpower x (1 / 3) else 0.

(** *** PSI *)
(** PSIClusterGenerator.tpp:556-561 *)
Definition psiIMigration : list R := [0.0; 0.01; 0.02; 0.03; 0.04; 0.05].
Definition psiHeMigration : list R := [0.0; 0.13; 0.20; 0.25; 0.20; 0.12; 0.3; 0.4].
(** lines 577, 611 *)
Definition psiIEnergy (j : Z) : R := Rmin (IZR j) 15.0 * 0.1.
(** lines 569-618, getMigrationEnergy. A vacancy amount on the V axis is at least 1. *)
Definition psiMigration (r : region) : energy :=
  let c := lo r in
  if isSimplex r then
    if onI c then Fin (if (aI c <? 6)%Z then nth (Z.to_nat (aI c)) psiIMigration 0 else psiIEnergy (aI c))
    else if onHe c && (aHe c <? 8)%Z then Fin (nth (Z.to_nat (aHe c)) psiHeMigration 0)
    else if onD c && (aD c =? 1)%Z then Fin 0.38
    else if onT c && (aT c =? 1)%Z then Fin 0.38
    else if onV c && (aV c <=? 1)%Z then Fin 1.30
    else Inf
  else if onI c then Fin (mean psiIEnergy (aI c) (aI (hi r))) else Inf.
(** lines 629-641 *)
Definition psiIDiffusion : list R := [0.0; 8.8e+10; 8.0e+10; 3.9e+10; 2.0e+10; 1.0e+10].
Definition psiHeDiffusion : list R := [0.0; 2.9e+10; 3.2e+10; 2.3e+10; 1.7e+10; 5.0e+09; 1.0e+09; 5.0e+08].
Definition psiIFactor (j : Z) : R := nth 1 psiIDiffusion 0 / IZR j.
(** lines 643-691, getDiffusionFactor *)
Definition psiDiffusion (r : region) : R :=
  let c := lo r in
  if isSimplex r then
    if onI c then (if (aI c <? 6)%Z then nth (Z.to_nat (aI c)) psiIDiffusion 0 else psiIFactor (aI c))
    else if onHe c && (aHe c <? 8)%Z then nth (Z.to_nat (aHe c)) psiHeDiffusion 0
    else if onD c && (aD c =? 1)%Z then 2.83e+11
    else if onT c && (aT c =? 1)%Z then 2.31e+11
    else if onV c && (aV c =? 1)%Z then 1.8e+12
    else 0
  else if onI c then mean psiIFactor (aI c) (aI (hi r)) else 0.

(** *** Fe. A region has the intervals of He, V and I. *)
Definition simplex3 (r : reg3) : bool := ((ie (rG r) =? ib (rG r) + 1) && (ie (rV r) =? ib (rV r) + 1) && (ie (rI r) =? ib (rI r) + 1))%Z.
Definition on3 (x y z : Z) : bool := (negb (x =? 0) && (y =? 0) && (z =? 0))%Z.
(** FeClusterGenerator.tpp:148-176, getMigrationEnergy *)
Definition feMigration (r : reg3) : energy :=
  let he := ib (rG r) in let v := ib (rV r) in let i := ib (rI r) in
  if simplex3 r then
    if on3 i he v then (if (i =? 1)%Z then Fin 0.34 else Inf)
    else if on3 he v i then (if (he <? 4)%Z then Fin (nth (Z.to_nat he) [0.0; 0.06; 0.06; 0.06] 0) else Inf)
    else if on3 v he i then (if (v <? 5)%Z then Fin (nth (Z.to_nat v) [0.0; 0.67; 0.62; 0.37; 0.48] 0) else Inf)
    else Inf
  else Inf.
(** FeClusterGenerator.tpp:187-218, getDiffusionFactor *)
Definition feDiffusion (r : reg3) : R :=
  let he := ib (rG r) in let v := ib (rV r) in let i := ib (rI r) in
  if simplex3 r then
    if on3 i he v then (if (i =? 1)%Z then 1.0e+11 else 0)
    else if on3 he v i then (if (he <? 4)%Z then nth (Z.to_nat he) [0.0; 1.0e+11; 5.0e+10; 3.3e+10] 0 else 0)
    else if on3 v he i then (if (v <? 5)%Z then nth (Z.to_nat v) [0.0; 1.0e+11; 5.0e+10; 3.3e+10; 2.5e+10] 0 else 0)
    else 0
  else 0.

(** *** Zr. A region has the intervals of V, Basal and I; the origin decides. *)
Definition zrOnV (r : list iv) : bool := on3 (ib (axis 0 r)) (ib (axis 1 r)) (ib (axis 2 r)).
Definition zrOnB (r : list iv) : bool := on3 (ib (axis 1 r)) (ib (axis 0 r)) (ib (axis 2 r)).
Definition zrOnI (r : list iv) : bool := on3 (ib (axis 2 r)) (ib (axis 0 r)) (ib (axis 1 r)).
(** ZrClusterGenerator.tpp:119-136, getMigrationEnergy *)
Definition zrMigration (r : list iv) : energy :=
  if zrOnV r && (ib (axis 0 r) <=? 6)%Z then Fin (-1)
  else if zrOnI r && (ib (axis 2 r) <=? 3)%Z then Fin (-1)
  else if zrOnI r && (ib (axis 2 r) =? 9)%Z then Fin 0.10
  else Inf.
(** ZrClusterGenerator.tpp:145-163, getDiffusionFactor *)
Definition zrDiffusion (r : list iv) : R :=
  if zrOnV r && (ib (axis 0 r) <=? 6)%Z then 1
  else if zrOnI r && (ib (axis 2 r) <=? 3)%Z then 1
  else if zrOnI r && (ib (axis 2 r) =? 9)%Z then 0
  else 0.

(** *** Alloy. A region has the intervals of V, Void, Faulted, I, Perfect and Frank. *)
Definition alloyOn (k : nat) (r : list iv) : bool :=
  (negb (ib (axis k r) =? 0)%Z && forallb (fun j => (j =? k)%nat || (ib (axis j r) =? 0)%Z) (seq 0 6))%bool.
(** AlloyClusterGenerator.tpp:222-234, getMigrationEnergy *)
Definition alloyMigration (r : list iv) : energy :=
  if alloyOn 4 r then Fin 0.5 else if alloyOn 0 r then Fin 1.3 else if alloyOn 3 r then Fin 0.5 else Inf.
(** AlloyClusterGenerator.tpp:248-254, 259-265, 268-274; pow(n, -1.0) *)
Definition alloyJump (a : R) (n : Z) : R := 9.6e12 * 1.0 * (a / sqrt 2) * (a / sqrt 2) * (/ IZR n) / 6.0.
(** AlloyClusterGenerator.tpp:243-276, getDiffusionFactor *)
Definition alloyDiffusion (a : R) (r : list iv) : R :=
  if alloyOn 4 r then (if (ib (axis 4 r) <? 70)%Z then alloyJump a (ib (axis 4 r)) else 0)
  else if alloyOn 0 r then alloyJump a (ib (axis 0 r))
  else if alloyOn 3 r then alloyJump a (ib (axis 3 r))
  else 0.

(** *** The diffusion coefficient at a grid point. It is 0 at first (a Kokkos view), and only updated for a diffusion
    factor which is not (nearly) 0: detail/impl/ClusterData.tpp:172-189, util::equal with epsilon = 2^-52. *)
Definition updated (factor new : R) : R := if Rlt_dec (Rabs (0 - factor)) (/ 4503599627370496) then 0 else new.
(** ReactionNetwork.tpp:1676-1687 *)
Definition coefficient (factor : R) (E : energy) (T : R) : R := updated factor (factor * boltzmann E T).

(** ZrReactionNetwork.tpp:363-383 *)
Definition zrIMigrationA : list R := [0.0; 0.17; 0.23; 0.49; 0.75; 0.87].
Definition zrIMigrationC : list R := [0.0; 0.30; 0.54; 0.93; 1.2; 1.6].
Definition zrIDiffusionA : list R := [0.0; 2.4e+11; 3.2e+11; 4.9e+12; 5.1e+13; 4.3e+13].
Definition zrIDiffusionC : list R := [0.0; 6.8e+11; 2.6e+12; 6.8e+13; 4.2e+14; 5.5e+15].
Definition zrVMigrationA : list R := [0.0; 0.59; 0.58; 0.94; 0.16; 0.81; 0.25].
Definition zrVMigrationC : list R := [0.0; 0.67; 0.41; 1.12; 0.58; 0.29; 0.18].
Definition zrVDiffusionA : list R := [0.0; 1.6e+12; 2.7e+12; 4.9e+13; 2.5e+10; 2e+13; 3.2e+10].
Definition zrVDiffusionC : list R := [0.0; 2.2e+12; 2.3e+11; 1.27e+15; 4.5e+11; 5.7e+11; 9.1e+9].
(** lines 394-397, 411-414: the diffusivity along one direction; [None]: the table is read outside. *)
Definition zrAlong (D E : list R) (n : Z) (T : R) : option R :=
  match nth_error D (Z.to_nat n), nth_error E (Z.to_nat n) with
  | Some d, Some e => Some (d * exp (e * (-1 / (kB * T))))
  | _, _ => None
  end.
(** lines 385-433: the coefficient and the anisotropy ratio (when it is written). *)
Definition zrUpdate (factor : R) (r : list iv) (T : R) : option (R * option R) :=
  let three D E D' E' n :=
    match zrAlong D E n T, zrAlong D' E' n T with
    | Some Da, Some Dc => Some (Rpower (Da * Da * Dc) (1 / 3), Some (Rpower (Dc / Da) (1 / 6)))
    | _, _ => None
    end in
  let one := Some (factor * boltzmann (zrMigration r) T, None) in
  match zrMigration r with
  | Fin m =>
      if Rlt_dec m 0 then
        if zrOnI r then three zrIDiffusionA zrIMigrationA zrIDiffusionC zrIMigrationC (ib (axis 2 r))
        else if zrOnV r then three zrVDiffusionA zrVMigrationA zrVDiffusionC zrVMigrationC (ib (axis 0 r))
        else one
      else one
  | Inf => one
  end.
Definition zrCoefficient (r : list iv) (T : R) : option R :=
  match zrUpdate (zrDiffusion r) r T with Some (d, _) => Some (updated (zrDiffusion r) d) | None => None end.
(** NEReactionNetwork.tpp:527-572: a migration energy which is not positive means that the diffusivity is given. *)
Definition neCoefficient (factor : R) (E : energy) (T : R) : R :=
  updated factor (match E with
                  | Fin e => if Rlt_dec 0 e then factor * boltzmann E T else factor
                  | Inf => factor * boltzmann E T
                  end).

(** *** Reaction radii *)
Section RADIUS.
Variables a bias impurity hydrogen : R.   (* latticeParameter, interstitialBias, impurityRadius, _hydrogenRadiusFactor *)
(** PSIClusterGenerator.tpp:706-718 and 761-772 *)
Definition psiIRadius (n : Z) : R :=
  bias * (sqrt 3 / 4) * a + root3 ((3 / (8 * PI)) * a ^ 3 * IZR n) - root3 ((3 / (8 * PI)) * a ^ 3).
(** lines 719-728 (and 730-752, before the factor) *)
Definition psiHeRadius (n : Z) : R :=
  impurity + root3 ((3 / (4 * PI)) * (1 / 10) * a ^ 3 * IZR n) - root3 ((3 / (4 * PI)) * (1 / 10) * a ^ 3).
(** lines 754-760 and 778-786 *)
Definition psiVRadius (n : Z) : R :=
  (sqrt 3 / 4) * a + root3 ((3 * a ^ 3 * IZR n) / (8 * PI)) - root3 ((3 * a ^ 3) / (8 * PI)).
(** lines 703-792, getReactionRadius *)
Definition psiRadius (r : region) : R :=
  let c := lo r in
  if isSimplex r then
    if onI c then psiIRadius (aI c)
    else if onHe c then psiHeRadius (aHe c)
    else if onD c then psiHeRadius (aD c) * hydrogen
    else if onT c then psiHeRadius (aT c) * hydrogen
    else psiVRadius (aV c)
  else if onI c then mean psiIRadius (aI c) (aI (hi r)) else mean psiVRadius (aV c) (aV (hi r)).

(** FeClusterGenerator.tpp:249-252, 257-260 *)
Definition feVRadius (n : Z) : R := a * root3 ((3 * IZR n) / PI) * 0.5.
(** FeClusterGenerator.tpp:227-266, getReactionRadius *)
Definition feRadius (r : reg3) : R :=
  let he := ib (rG r) in let v := ib (rV r) in let i := ib (rI r) in
  if simplex3 r then
    if on3 i he v then a * root3 (3 / PI) * 0.5
    else if on3 he v i then psiHeRadius he
    else feVRadius v
  else mean feVRadius v (ie (rV r)).

(** NEClusterGenerator.tpp:160-194, getReactionRadius *)
Definition neVRadius (n : Z) : R :=
  let omega := 0.25 * a * a * a in
  a * sqrt 2 / 2 + root3 ((3 * omega * IZR n) / (4 * PI)) - root3 ((3 * omega) / (4 * PI)).
Definition neRadius (r : reg3) : R :=
  let xe := ib (rG r) in let v := ib (rV r) in let i := ib (rI r) in
  if simplex3 r then
    if on3 i xe v then a / 2 else if on3 xe v i then impurity else if on3 v xe i then a * sqrt 2 / 2 else neVRadius v
  else mean neVRadius v (ie (rV r)).

(** AlloyClusterGenerator.tpp:286-331, getReactionRadius; Constants.h:87-89 *)
Definition alloyPrefactor : R := 0.25 * a * a / PI.
Definition alloyLoop (burgers : R) (n : Z) : R := sqrt ((IZR n * alloyPrefactor) / burgers).
Definition alloySphere (n : Z) : R := root3 (0.75 * alloyPrefactor * a * IZR n).
Definition alloyRadius (r : list iv) : R :=
  let m f k := mean f (ib (axis k r)) (ie (axis k r)) in
  if alloyOn 4 r then m (alloyLoop 0.5) 4%nat
  else if alloyOn 5 r then m (alloyLoop 0.333) 5%nat
  else if alloyOn 2 r then m (alloyLoop 0.333) 2%nat
  else if alloyOn 1 r then m alloySphere 1%nat
  else if alloyOn 0 r then m alloySphere 0%nat
  else if alloyOn 3 r then m alloySphere 3%nat
  else 0.
End RADIUS.

(** ZrClusterGenerator.tpp:172-217, getReactionRadius; [origin] decides between the laws. *)
Definition zrPoint (origin j : Z) : R := if (origin <? 10)%Z then root3 (5.586e-3 * IZR j) else 0.163076 * sqrt (IZR j).
Definition zrBasalPoint (transition origin j : Z) : R :=
  if (origin <? transition)%Z then
    let Sb := sqrt 3 / 2 * 3.232 * 3.232 * IZR j in
    let Sp := 3.232 / 2 * sqrt (3 * 3.232 * 3.232 + 4 * 5.17 * 5.17) * IZR j in
    sqrt ((Sb + Sp) / (4 * PI)) / 10
  else 0.169587 * sqrt (IZR j).
Definition zrRadius (transition : Z) (r : list iv) : R :=
  let m f k := mean (f (ib (axis k r))) (ib (axis k r)) (ie (axis k r)) in
  if zrOnV r then m zrPoint 0%nat
  else if zrOnB r then m (zrBasalPoint transition) 1%nat
  else if zrOnI r then m zrPoint 2%nat
  else 0.
