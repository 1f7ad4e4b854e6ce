(** Binding energies of the dissociation reactions of the Alloy, Fe, Zr and NE networks
    (core/network/impl/XReaction.tpp), the emission condition of the Fe and Zr generators, and sinks.
    Doubles are real numbers. The sums of two amounts do not wrap. *)
From Verif Require Export EnergyModel SelectModel MobilityModel.
Set Implicit Arguments.
Open Scope R_scope.

(** (lo + hi - 1) / 2, the mean amount of a region on an axis *)
Definition meanAmount (i : iv) : R := IZR (ib i + ie i - 1) / 2.
(** pow(x, y) for y > 0. [None]: a negative base, not a number. *)
Definition fpow (x y : R) : option R :=
  if Rlt_dec x 0 then None else if Rlt_dec 0 x then Some (Rpower x y) else Some 0.
(** pow(x, y) for y > 0 where the base is the size of a cluster, or that size minus one *)
Definition spow (x y : R) : R := if Rlt_dec 0 x then Rpower x y else 0.

(** *** Alloy: AlloyReaction.tpp:137-190 *)
Definition alloyStep (n : R) : R := root3 (n * n) - root3 ((n - 1) * (n - 1)).
Definition alloyBinding (cl prod1 prod2 : list iv) : R :=
  let v := alloyOn 0 prod1 || alloyOn 0 prod2 in
  let be :=
    if alloyOn 1 cl then (if v then 1.9 - 3.1 * alloyStep (meanAmount (axis 1 cl)) else 5.0)
    else if alloyOn 2 cl then (if v then 1.9 - 3.2 * alloyStep (meanAmount (axis 2 cl)) else 5.0)
    else if alloyOn 0 cl then (if v then 1.9 - 3.1 * alloyStep (meanAmount (axis 0 cl)) else 5.0)
    else 5.0 in
  Rmin 5.0 (Rmax be 0.1).

(** *** Fe: FeReaction.tpp:60-147 *)
Definition heTrapTable : list R := [0.0; 4.31; 2.90; 2.02; 1.09; 0.58; 0.13; -0.25; -0.59].
Definition onGas (r : reg3) : bool := on3 (ib (rG r)) (ib (rV r)) (ib (rI r)).
Definition onVac (r : reg3) : bool := on3 (ib (rV r)) (ib (rG r)) (ib (rI r)).
Definition onInt (r : reg3) : bool := on3 (ib (rI r)) (ib (rG r)) (ib (rV r)).
(** lines 98-101, 109-112, 134-136; [None]: not a number *)
Definition feStep (v : R) : option R :=
  match fpow v (2 / 3), fpow (v - 1) (2 / 3) with Some a, Some b => Some (a - b) | _, _ => None end.
(** lines 109-113, 134-136 *)
Definition feVEnergy (he v : R) : option R :=
  match feStep v with Some d => Some (1.73 - 2.59 * d + 2.5 * ln (1 + he / v)) | None => None end.
(** lines 118-122, 139-141 *)
Definition feIEnergy (he v : R) : option R :=
  match feStep v with Some d => Some (4.88 + 2.59 * d - 2.5 * ln (1 + he / v)) | None => None end.
(** lines 107-123, 133-142: with vacancies *)
Definition feMixed (v i : bool) (amtHe amtV : R) : option R :=
  if i then feIEnergy amtHe amtV else if v then feVEnergy amtHe amtV else Some 5.0.
(** [None]: not a number, or the table is read outside. *)
Definition feBinding (cl prod1 prod2 : reg3) : option R :=
  let v := onVac prod1 || onVac prod2 in
  let i := onInt prod1 || onInt prod2 in
  let be :=
    if simplex3 cl && simplex3 prod1 && simplex3 prod2 then
      let he := ib (rG cl) in
      if onGas cl then
        if i then nth_error heTrapTable (Z.to_nat he)
        else if onGas prod1 || onGas prod2 then Some (if (he =? 2)%Z then 0.5 else 1.0) else Some 5.0
      else if onVac cl then match feStep (IZR (ib (rV cl))) with Some d => Some (1.73 - 2.59 * d) | None => None end
      else if onInt cl then Some 5.0
      else feMixed v i (IZR he) (IZR (ib (rV cl)))
    else feMixed v i (meanAmount (rG cl)) (meanAmount (rV cl)) in
  match be with Some b => Some (Rmin 5.0 (Rmax b (-5.0))) | None => None end.
(** FeReactionNetwork.tpp:148-163: whether the product of two clusters in the general case may dissociate into them *)
Definition feEmits (r1 r2 : reg3) : bool :=
  let small r := (onGas r && (ib (rG r) =? 1) || onVac r && (ib (rV r) =? 1) || onInt r && (ib (rI r) =? 1))%Z%bool in
  (small r1 || small r2) && negb (onGas r1 && onGas r2 && (ib (rG r1) =? 1)%Z && (ib (rG r2) =? 1)%Z).

(** *** Zr: ZrReaction.tpp:193-290. A region has the intervals of V, Basal and I. *)
Definition zrPow (a p n : R) : R := a * (spow n p - spow (n - 1) p).
(** lines 226-228 *)
Definition zrE1 (n : R) : R := 0.11 * n + 1.741 * sqrt n * ln (4.588 * sqrt n).
(** lines 232-235 *)
Definition zrE2 (n : R) : R := 2 * 3.14 * 1.1 * 1.69 * 0.25 * sqrt n * ln (1.69 * sqrt n / 0.23).
(** lines 219-237 *)
Definition zrVEnergy (n : R) : R :=
  if Rlt_dec n 18 then 2.03 - zrPow 1.9 0.84 n
  else if Rlt_dec n 66 then 2.03 - zrPow 3.4 0.70 n
  else if Rlt_dec n 925 then 2.03 - (zrE1 n - zrE1 (n - 1))
  else 2.03 - (zrE2 n - zrE2 (n - 1)).
(** lines 252-273 *)
Definition zrLoop (c n : R) : R := sqrt n * ln (c * sqrt n).
Definition zrPyramid (n : R) : R := 5.352 * sqrt n + 0.122 * n + 0.154 * n - 5.3.
Definition zrBEnergy (transition : Z) (n : R) : R :=
  if Rlt_dec n (IZR transition) then 1.762 + (zrPyramid (n - 1) - zrPyramid n)
  else if Rlt_dec n 200 then 2.03 + 2.87 * (zrLoop 1.50 (n - 1) - zrLoop 1.50 n) - 9.08 * 0.0171
  else 2.03 + 3.02 * (zrLoop 1.64 (n - 1) - zrLoop 1.64 n) - 9.08 * 0.00918.
(** lines 279-283 *)
Definition zrIEnergy (n : R) : R :=
  if Rlt_dec n 7 then 2.94 - zrPow 2.8 0.81 n else 2.94 - zrPow 4.6 0.66 n.
Definition zrBinding (transition : Z) (cl prod1 prod2 : list iv) : R :=
  let be :=
    if zrOnV cl then (if zrOnV prod1 || zrOnV prod2 then zrVEnergy (meanAmount (axis 0 cl)) else 5.0)
    else if zrOnB cl then (if zrOnB prod1 || zrOnB prod2 then zrBEnergy transition (meanAmount (axis 1 cl)) else 5.0)
    else if zrOnI cl then (if zrOnI prod1 || zrOnI prod2 then zrIEnergy (meanAmount (axis 2 cl)) else 5.0)
    else 5.0 in
  Rmax 0.1 be.

(** *** NE: NEReaction.tpp:680-759 *)
Definition fitParams : list R := [0.022098470861651; -0.328234592987279; 1.9501944029492; -5.85771773178376; 9.18869701523602;
  -7.09118822290571; 3.37190513184659; -1.03326651166341].
(** lines 723-727, 744-748, 753-757: for (i = 0; i < 8; i++) { be += (i + k) * fitParams[7 - i] * power; power *= x; } *)
Definition neSum (k : nat) (x power : R) : R :=
  fst (fold_left (fun '(be, p) i => (be + INR (i + k) * nth (7 - i) fitParams 0 * p, p * x)) (seq 0 8) (0, power)).
Definition neMinus (k : nat) (x power : R) : R :=
  fst (fold_left (fun '(be, p) i => (be - INR (i + k) * nth (7 - i) fitParams 0 * p, p * x)) (seq 0 8) (0, power)).
Section NE.
Variables iFormation vFormation v2Formation xeFormation : R.
Definition neBinding (cl prod1 prod2 : reg3) : R :=
  let amtXe := meanAmount (rG cl) in
  let amtV := meanAmount (rV cl) in
  if Req_EM_T amtV 0 then 5.0
  else
    let x := amtXe / amtV in
    let two r := onVac r && (ib (rV r) =? 2)%Z in
    let be :=
      if onGas prod1 || onGas prod2 then neMinus 2 x x + xeFormation
      else if onInt prod1 || onInt prod2 then neMinus 1 x (x * x) + iFormation
      else if onVac prod1 || onVac prod2 then
        (if two prod1 || two prod2 then neSum 1 x (x * x) * 2.0 + v2Formation else neSum 1 x (x * x) + vFormation)
      else 5.0 in
    Rmin 5.0 (Rmax be (-1.0)).
End NE.
