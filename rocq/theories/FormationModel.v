(** Formation energies of the PSI and Alloy clusters (core/network/impl/XClusterGenerator.tpp), and the Legendre fit
    (util/MathUtils.h). *)
From Verif Require Export Sums EnergyModel SelectModel.
From Verif Require Import MobilityModel.
Set Implicit Arguments.
Open Scope R_scope.

(** MathUtils.h:99-122, legendrePolynomial; [legendreSteps]: the loop, [left] turns remaining *)
Fixpoint legendreSteps (x : R) (left n : nat) (Pn2 Pn1 : R) : R :=
  match left with
  | O => Pn1
  | S l => legendreSteps x l (S n) Pn1 (((2 * INR n + 1) * x * Pn1 - INR n * Pn2) / (INR n + 1))
  end.
Definition legendre (x : R) (degree : nat) : R := match degree with O => 1 | S l => legendreSteps x l 1 1 x end.
(** MathUtils.h:149-161, computeNthOrderLegendre *)
Definition computeLegendre (x : R) (coeffs : list R) : R :=
  snd (fold_left (fun '(d, value) c => (S d, value + c * legendre x d)) coeffs (0%nat, 0)).

(** PSIClusterGenerator.tpp:804, 809-834 *)
Definition vFormation : list R := [3.6; 7.25].
Definition fitLow : list (list R) :=
  [[253.35; 435.36; 336.50; 198.92; 95.154; 21.544]; [493.29; 1061.3; 1023.9; 662.92; 294.24; 66.962];
   [410.40; 994.89; 1044.6; 689.41; 286.52; 60.712]; [152.99; 353.16; 356.10; 225.75; 87.077; 15.640]].
Definition fitHigh : list (list R) :=
  [[-847.90; -3346.9; -4510.3; -3094.7; -971.18; -83.770]; [-1589.3; -4894.6; -6001.8; -4057.5; -1376.4; -161.91];
   [834.91; 1981.8; 1885.7; 1027.1; 296.69; 29.902]; [1547.2; 3532.3; 3383.6; 1969.2; 695.17; 119.23]].
(** lines 841-843, 850-853 *)
Definition heV1 : list R := [0.0; 5.14166; 8.20919; 11.5304; 14.8829; 18.6971; 22.2847; 26.3631; 30.1049; 34.0081;
  38.2069; 42.4217; 46.7378; 51.1551; 55.6738].
Definition heV2 : list R := [0.0; 7.10098; 8.39913; 9.41133; 11.8748; 14.8296; 17.7259; 20.7747; 23.7993; 26.7984;
  30.0626; 33.0385; 36.5173; 39.9406; 43.48; 46.8537; 50.4484; 54.0879; 57.7939].
(** lines 868-898: the fit, for more than two vacancies *)
Definition fit (he v : Z) : R :=
  let x := 2 * (IZR he / (9 * IZR v)) - 1 in
  let '(y, cs) := if (v <=? 27)%Z then (2 * ((IZR v - 1) / 26) - 1, fitLow) else (2 * ((IZR v - 1) / 451) - 1, fitHigh) in
  computeLegendre y (map (computeLegendre x) cs).
(** lines 798-915, getHeVFormationEnergy. [None]: minus infinity. It is called with at least one vacancy. *)
Definition heVFormation (c : comp) : option R :=
  if ((aHe c =? 0) && (aV c <? 3))%Z then Some (if (aV c =? 1)%Z then nth 0 vFormation 0 else nth 1 vFormation 0)
  else if (2 <? aV c)%Z then Some (fit (aHe c) (aV c))
  else if ((aV c =? 1) && (aHe c <? 15) || (aV c =? 2) && (aHe c <? 19))%Z%bool
       then Some (if (aV c =? 1)%Z then nth (Z.to_nat (aHe c)) heV1 0 else nth (Z.to_nat (aHe c)) heV2 0)
       else None.

(** lines 495-499 *)
Definition iFormation : list R := [0.0; 10.0; 18.5; 27.0; 35.0; 42.5; 48.0].
Definition heFormation : list R := [0.0; 6.15; 11.44; 16.35; 21.0; 26.1; 30.24; 34.93; 38.80].
(** lines 488-545, getFormationEnergy. [None]: minus infinity. *)
Definition psiFormation (groupingMin : Z) (r : region) : option energy :=
  if (groupingMin <=? aV (hi r))%Z then Some (Fin 0)
  else if isSimplex r then
    let c := lo r in
    if onI c then Some (Fin (if (aI c <? 7)%Z then nth (Z.to_nat (aI c)) iFormation 0 else nth 6 iFormation 0 + IZR (aI c + 1 - 7)))
    else if onHe c then (if (aHe c <? 9)%Z then Some (Fin (nth (Z.to_nat (aHe c)) heFormation 0)) else Some Inf)
    else if onD c then Some Inf
    else if onT c then Some Inf
    else match heVFormation c with Some e => Some (Fin e) | None => None end
  else Some (Fin 0).

(** AlloyClusterGenerator.tpp:172-215, getFormationEnergy: a + b (n^(2/3) - 1), averaged over a group *)
Definition alloyEnergy (e1 s : R) (n : Z) : R := e1 + s * (Rpower (IZR n) (2 / 3) - 1).
Definition alloyFormation (r : list iv) : R :=
  let m f k := mean f (ib (axis k r)) (ie (axis k r)) in
  if alloyOn 4 r then m (alloyEnergy 3.4 2.0) 4%nat
  else if alloyOn 5 r then m (alloyEnergy 3.4 2.0) 5%nat
  else if alloyOn 2 r then m (alloyEnergy 1.9 2.0) 2%nat
  else if alloyOn 1 r then m (alloyEnergy 1.9 3.4) 1%nat
  else if alloyOn 0 r then m (alloyEnergy 1.9 3.4) 0%nat
  else if alloyOn 3 r then m (alloyEnergy 3.4 3.5) 3%nat
  else 0.
