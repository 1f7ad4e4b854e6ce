(** Rates and binding energies of dissociation reactions, the helium-per-vacancy bound and the
    selection of PSI clusters.
    Doubles are real numbers; +infinity (util::infinity) is [Inf]. *)
From Coq Require Export Reals List ZArith Lia Lra Bool.
From Verif Require Export GenModel.
Export ListNotations.
Set Implicit Arguments.
Open Scope R_scope.

(** *** The helium-per-vacancy bound: psi::getMaxHePerV, PSIClusterGenerator.h:13-35 *)
Definition maxHePerV : list Z := [0; 9; 14; 18; 20; 27; 30; 35; 40; 45; 50; 55; 60; 65; 70; 75; 80; 85; 90; 95; 98; 100; 101;
  103; 105; 107; 109; 110; 112; 116]%Z.
(** Conversion of a double to AmountType: truncation; [None]: the value does not fit, undefined
    behaviour. *)
Definition toAmount (x : R) : option Z :=
  if Rle_dec x (-1) then None else if Rlt_dec x 4294967296 then Some (Z.max 0 (Int_part x)) else None.
(** PSIClusterGenerator.h:29-34. The product ratio * amtV is exact here. *)
Definition getMaxHePerV (amtV : Z) (ratio : R) : option Z :=
  if (amtV <? 30)%Z then Some (nth (Z.to_nat amtV) maxHePerV 0%Z)
  else match toAmount (ratio * IZR amtV) with
       | Some h => Some (Z.max h (u32 (nth 29 maxHePerV 0 + amtV - 30 + 1)))%Z
       | None => None
       end.

(** *** PSI compositions (network with He, D, T, V, I) and regions *)
Record comp := Comp { aHe : Z; aD : Z; aT : Z; aV : Z; aI : Z }.
(** A region: its origin and its upper limit point, one past the last composition. *)
Record region := Region { lo : comp; hi : comp }.
(** Composition::isOnAxis: that amount is positive and the others are 0. *)
Definition onHe c := (negb (aHe c =? 0) && (aD c =? 0) && (aT c =? 0) && (aV c =? 0) && (aI c =? 0))%Z.
Definition onD c := ((aHe c =? 0) && negb (aD c =? 0) && (aT c =? 0) && (aV c =? 0) && (aI c =? 0))%Z.
Definition onT c := ((aHe c =? 0) && (aD c =? 0) && negb (aT c =? 0) && (aV c =? 0) && (aI c =? 0))%Z.
Definition onV c := ((aHe c =? 0) && (aD c =? 0) && (aT c =? 0) && negb (aV c =? 0) && (aI c =? 0))%Z.
Definition onI c := ((aHe c =? 0) && (aD c =? 0) && (aT c =? 0) && (aV c =? 0) && negb (aI c =? 0))%Z.
Definition isSimplex r := ((aHe (hi r) =? aHe (lo r) + 1) && (aD (hi r) =? aD (lo r) + 1) && (aT (hi r) =? aT (lo r) + 1) &&
  (aV (hi r) =? aV (lo r) + 1) && (aI (hi r) =? aI (lo r) + 1))%Z.
Definition single c : region := Region c (Comp (aHe c + 1) (aD c + 1) (aT c + 1) (aV c + 1) (aI c + 1)).

(** PSIClusterGenerator.tpp:304-484: select. [None]: undefined behaviour in getMaxHePerV. The factors
    2.0 / 3.0 and 0.5 are exact. *)
Section SELECT.
Variables maxHe maxD maxT maxV maxPureV maxI : Z.
Variable hevRatio : R.
Open Scope Z_scope.
Definition ends c (he d t v i : Z -> bool) : bool := he (aHe c) && d (aD c) && t (aT c) && v (aV c) && i (aI c).
Definition any (_ : Z) := true.
Definition one (x : Z) := x =? 1.
(** lines 313-406: everything before the edge *)
Definition selectAxes (r : region) : bool :=
  negb (ends (hi r) one one one one one) &&
  negb ((0 <? aI (lo r)) && negb (onI (lo r))) &&
  negb (maxI <? aI (lo r)) &&
  negb ((maxHe <? aHe (lo r)) && ends (hi r) any one one one one) &&
  negb ((maxD <? aD (lo r)) && ends (hi r) one any one one one) &&
  negb ((maxT <? aT (lo r)) && ends (hi r) one one any one one) &&
  negb ((0 <? aV (lo r)) && negb (onV (lo r)) && (maxHe =? 0) && (maxD =? 0) && (maxT =? 0)) &&
  negb (maxPureV <? aV (lo r)) &&
  negb ((maxV <? aV (lo r)) && negb (onV (lo r))) &&
  (negb (aV (hi r) =? 1) ||
   negb ((maxHe <? aHe (lo r)) || (maxD <? aD (lo r)) || ((0 <? aHe (lo r)) && (0 <? aD (lo r))) ||
         (maxT <? aT (lo r)) || ((0 <? aHe (lo r)) && (0 <? aT (lo r))) || ((0 <? aD (lo r)) && (0 <? aT (lo r))))).
(** lines 415-460 (DT networks) *)
Definition selectEdge (r : region) : option bool :=
  if 1 <? aV (hi r) then
    let hiV := Z.min (aV (hi r) - 1) maxV in
    match getMaxHePerV maxV hevRatio, getMaxHePerV hiV hevRatio with
    | Some top, Some edge =>
        let hiHe := Z.min (aHe (hi r) - 1) top in
        let loH := u32 (aD (lo r) + aT (lo r)) in
        Some (negb ((maxV <? aV (lo r)) && negb (onV (lo r))) &&
              negb (edge <? aHe (lo r)) &&
              negb (2 * edge <? 3 * aD (lo r)) &&
              negb (2 * edge <? 3 * aT (lo r)) &&
              (if aHe (lo r) =? 0 then negb (u32 (6 * hiV) <? loH) else negb (4 * hiHe + 3 <? 6 * loH)))
    | _, _ => None
    end
  else Some true.
Definition select (r : region) : option bool :=
  if selectAxes r then selectEdge r else Some false.
End SELECT.

(** *** Energies *)
Inductive energy := Fin (x : R) | Inf.
(** E1 + E2 - E, and util::max(be, -5.0). *)
Definition eplus a b := match a, b with Fin x, Fin y => Fin (x + y) | _, _ => Inf end.
Definition eminus a (y : R) := match a with Fin x => Fin (x - y) | Inf => Inf end.
Definition emax a (y : R) := match a with Fin x => Fin (Rmax x y) | Inf => Inf end.

(** PSIReaction.tpp:75-122 *)
Definition beTableV1 : list (list R) := [
  [0.0; 1.38; 1.34; 1.08; 1.04; 0.92; 0.71]; [0.0; 1.00; 0.95; 0.90; 0.88; 0.80; 0.60]; [0.0; 0.96; 0.92; 0.85; 0.84; 0.83; 0.50];
  [0.0; 0.86; 0.81; 0.69; 0.64; 0.65; 0.50]; [0.0; 0.83; 0.80; 0.65; 0.60; 0.60; 0.55]; [0.0; 0.83; 0.80; 0.60; 0.50; 0.50; 0.50];
  [0.0; 0.80; 0.70; 0.60; 0.50; 0.50; 0.50]; [0.0; 0.80; 0.75; 0.65; 0.55; 0.55; 0.45]; [0.0; 0.80; 0.80; 0.70; 0.65; 0.60; 0.55];
  [0.0; 0.80; 0.80; 0.75; 0.70; 0.65; 0.60]].
Definition beTableV2 : list (list R) := [
  [0.0; 1.60; 1.60; 1.39; 1.30; 1.15; 1.15; 1.05; 1.05; 0.85; 0.80; 0.70]; [0.0; 1.42; 1.45; 1.35; 1.04; 1.00; 1.00; 1.00; 1.00; 0.8; 0.75; 0.70];
  [0.0; 1.18; 1.15; 1.15; 1.21; 1.00; 1.00; 1.00; 0.95; 0.80; 0.75; 0.70]; [0.0; 1.25; 1.16; 1.04; 1.05; 0.95; 1.00; 0.95; 0.95; 0.75; 0.75; 0.70];
  [0.0; 1.15; 1.11; 1.04; 1.04; 0.95; 1.00; 0.95; 0.95; 0.75; 0.70; 0.70]; [0.0; 1.15; 1.10; 1.04; 1.04; 0.95; 0.95; 0.95; 0.95; 0.75; 0.70; 0.70];
  [0.0; 1.15; 1.10; 1.04; 1.04; 0.95; 0.95; 0.95; 0.90; 0.75; 0.70; 0.65]; [0.0; 1.10; 1.05; 1.00; 1.00; 0.95; 0.95; 0.95; 0.90; 0.70; 0.70; 0.65];
  [0.0; 1.10; 1.05; 1.00; 1.00; 0.95; 0.95; 0.90; 0.90; 0.70; 0.70; 0.65]; [0.0; 1.10; 1.05; 1.00; 1.00; 0.90; 0.90; 0.90; 0.90; 0.70; 0.70; 0.65];
  [0.0; 1.05; 1.00; 0.95; 0.95; 0.90; 0.90; 0.90; 0.85; 0.70; 0.65; 0.65]; [0.0; 1.00; 1.00; 0.95; 0.95; 0.90; 0.90; 0.90; 0.85; 0.70; 0.65; 0.65];
  [0.0; 1.00; 0.95; 0.95; 0.90; 0.90; 0.90; 0.85; 0.85; 0.65; 0.65; 0.60]; [0.0; 0.95; 0.95; 0.90; 0.90; 0.90; 0.90; 0.85; 0.85; 0.65; 0.65; 0.60];
  [0.0; 0.95; 0.95; 0.90; 0.90; 0.85; 0.85; 0.85; 0.75; 0.65; 0.65; 0.60]].
(** [None]: outside the array, undefined behaviour. *)
Definition lookup (t : list (list R)) (i j : Z) : option R :=
  match nth_error t (Z.to_nat i) with Some row => nth_error row (Z.to_nat j) | None => None end.

Record cluster := Cluster { reg : region; formation : energy }.
Section BINDING.
(** getHeVFormationEnergy (PSIClusterGenerator.tpp:798-), a fit: any function of the composition. *)
Variable heV : comp -> R.
Definition withV c v := Comp (aHe c) (aD c) (aT c) v (aI c).
(** PSIReaction.tpp:137-155 *)
Definition useTable (cl prod1 prod2 : cluster) : bool :=
  isSimplex (reg cl) &&
  ((isSimplex (reg prod1) && (onD (lo (reg prod1)) || onT (lo (reg prod1)))) ||
   (isSimplex (reg prod2) && (onD (lo (reg prod2)) || onT (lo (reg prod2))))).
(** PSIReaction.tpp:157-168 *)
Definition tableEnergy (cl prod1 prod2 : cluster) : option R :=
  let c := lo (reg cl) in
  if useTable cl prod1 prod2 then
    let h := u32 (aD c + aT c) in
    if (aV c =? 1)%Z then lookup beTableV1 (aHe c) h else if (aV c =? 2)%Z then lookup beTableV2 (aHe c) h else Some 0
  else Some 0.
(** PSIReaction.tpp:175-182 *)
Definition minV (he : Z) : Z :=
  fold_left (fun m i => match getMaxHePerV i 4.0 with Some b => if (b <? he)%Z then i else m | None => m end) (map Z.of_nat (seq 1 30)) 1%Z.
Definition lowerV (he : Z) : Z := Z.max 16 (minV he + 2).
(** PSIReaction.tpp:183-211 *)
Definition isSpecial (cl prod1 prod2 : cluster) : bool :=
  let c := lo (reg cl) in
  (onV (lo (reg prod1)) || onV (lo (reg prod2))) && ((lowerV (aHe c) <=? aV c) && (aV c <=? 31))%Z.
Definition special (c : comp) : R :=
  let l := lowerV (aHe c) in
  let fe3 := heV (Comp 0 0 0 1 0) in
  let be1 := heV (withV c (l - 1)) + fe3 - heV (withV c l) in
  let be2 := heV (withV c 30) + fe3 - heV (withV c 31) in
  if (u32 (31 - l) <? 4)%Z then be2 else be1 + IZR (aV c - l) * (be2 - be1) / IZR (31 - l).
(** PSIReaction.tpp:128-219. [None]: a table is read outside its bounds, or infinity minus infinity (not a number). *)
Definition bindingEnergy (cl prod1 prod2 : cluster) : option energy :=
  match tableEnergy cl prod1 prod2 with
  | None => None
  | Some be =>
      if Req_EM_T be 0 then
        if isSpecial cl prod1 prod2 then Some (emax (Fin (special (lo (reg cl)))) (-5))
        else match formation cl with
             | Fin e => Some (emax (eminus (eplus (formation prod1) (formation prod2)) e) (-5))
             | Inf => match eplus (formation prod1) (formation prod2) with Fin _ => Some (Fin (-5)) | Inf => None end
             end
      else Some (emax (Fin be) (-5))
  end.
End BINDING.

(** *** Rates *)
Definition kB : R := 8.61733240000000000E-5.   (* Constants.h:19 *)
(** psi::getRate, PSIReaction.tpp:17-28; fe::getRate, FeReaction.tpp:14-25 *)
Definition getRate (r0 r1 dc0 dc1 : R) : R := 4 * PI * (r0 + r1) * (dc0 + dc1).
(** DissociationReaction::computeRate, Reaction.tpp:2342-2358. *)
Definition boltzmann (E : energy) (T : R) : R := match E with Fin x => exp (- x / (kB * T)) | Inf => 0 end.
Definition computeRate (omega T kPlus : R) (E : energy) : R := (1 / omega) * kPlus * boltzmann E T.

(** alloy::getRate, AlloyReaction.tpp:14-60. [sphere]: on the V, Void or I axis; [isI]: on the I axis. *)
Definition alloyCore : R := 0.36.
Definition alloyRate (sphere0 sphere1 isI0 isI1 : bool) (r0 r1 dc0 dc1 : R) : R :=
  let zs := 4 * PI * (r0 + r1 + alloyCore) in
  if sphere0 && sphere1 then zs * (dc0 + dc1)
  else
    let '(rl, rs) :=
      if negb sphere0 && negb sphere1 then (if Rlt_dec r0 r1 then (r1, r0) else (r0, r1))
      else (if sphere0 then (r1, r0) else (r0, r1)) in
    let p := 1 / (1 + Rsqr (rl / (rs + alloyCore))) in
    let zl := 4 * PI * PI * rl / ln (1 + 8 * rl / (rs + alloyCore)) in
    (dc0 + dc1) * (p * zs + (1 - p) * zl) * (if isI0 || isI1 then 1.2 else 1).

(** zr::getRate, ZrReaction.tpp:14-113. A cluster: whether on the V axis, on the Basal axis, its size, radius,
    and capture radii of dislocations (for interstitials, for vacancies). *)
Record zr := Zr { zV : bool; zBasal : bool; zSize : Z; zR : R; zRdI : R; zRdV : R }.
Definition zrCore : R := 0.645.
Definition rd (loop other : zr) : R := if zV other then zRdV loop else zRdI loop.
Definition loopRate (loop other : zr) (p dc : R) (transition : Z) : R :=
  let a := / (1 + Rsqr (zR loop / (3 * (zR other + rd loop other)))) in
  let alpha := if negb (zV loop) && zBasal loop && (zSize loop <? transition)%Z then 1 else a in
  let sph := 4 * PI * (zR loop + zR other + rd loop other) in
  let tor := (4 * PI * PI * zR loop) / ln (1 + 8 * zR loop / (zR other + rd loop other)) in
  let Pl := if zV loop then 0.78 * / Rsqr p + 0.66 * p - 0.44 else if zBasal loop then p else 0.70 * / Rsqr p + 0.78 * p - 0.47 in
  ((1 - alpha) * tor * Pl + alpha * sph) * dc.
Definition zrRate (x0 x1 : zr) (p dc0 dc1 : R) (transition : Z) : R :=
  if (9 <? zSize x0)%Z then loopRate x0 x1 p (dc0 + dc1) transition
  else if (9 <? zSize x1)%Z then loopRate x1 x0 p (dc0 + dc1) transition
  else 4 * PI * (zR x0 + zR x1 + zrCore) * (dc0 + dc1).

(** NEProductionReaction::computeRate (NEReaction.tpp:46-87) and NEDissociationReaction::computeRate (NEReaction.tpp:778-825): k0
    and k1 are constantRates(.,.,0) and (.,.,1) when both clusters are in the reaction file. *)
Definition zFactor : R := 100.
Definition neProduction (file : option (R * R)) (dG0 T r0 r1 dc0 dc1 : R) : R :=
  let rate := match file with
              | Some (k0, k1) => if Rlt_dec 0 dG0 then k1 * exp (- dG0 / (kB * T)) else k0
              | None => -1
              end in
  if Rlt_dec 0 rate then rate * 4 * PI * r0 * zFactor else getRate r0 r1 dc0 dc1 * zFactor.
Definition neDissociation (file : option (R * R)) (omega dG0 T r0 r1 dc0 dc1 be : R) : R :=
  let rate := match file with
              | Some (k0, k1) => if Rlt_dec 0 dG0 then k1 else k0 * exp (dG0 / (kB * T))
              | None => -1
              end in
  if Rlt_dec 0 rate then (1 / omega) * rate * 4 * PI * r0 * zFactor
  else (1 / omega) * (getRate r0 r1 dc0 dc1 * zFactor) * exp (- be / (kB * T)).
(** NEProductionReaction::computeFlux, NEReaction.tpp:101-124: creation of both reactants of a recombination without product. *)
Definition neCreation (omega k0 dG0 T r0 : R) : R :=
  (1 / (omega * omega)) * k0 * exp (dG0 / kB * T) * 4 * PI * r0 * zFactor.
