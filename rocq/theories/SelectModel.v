(** Which clusters a network is made of: the selection and refinement tests of the cluster generators. The lattice of
    compositions is cut into regions (leaves) by the external library plsm: a region is cut further along the axes
    flagged by [refine] as long as it is longer than one there, and it becomes a cluster when [select] accepts it.
    plsm itself is not modelled. Comparisons of doubles are exact comparisons of the same real numbers, written over
    the integers: n < max (w + 1.0, b * 1e-2) is n < w + 1 or 100 n < b. *)
From Coq Require Import ZArith Reals List Bool.
From Verif Require Import GenModel EnergyModel.
Import ListNotations.
Open Scope Z_scope.

(** *** PSI: PSIClusterGenerator.tpp:47-302 *)
Record flags := Fl { fHe : bool; fD : bool; fT : bool; fV : bool; fI : bool }.
Definition lenHe r := aHe (hi r) - aHe (lo r).
Definition lenD r := aD (hi r) - aD (lo r).
Definition lenT r := aT (hi r) - aT (lo r).
Definition lenV r := aV (hi r) - aV (lo r).
Definition lenI r := aI (hi r) - aI (lo r).
(** n < max (w + 1, b / k) *)
Definition short (n w b k : Z) : bool := (n <? w + 1) || (k * n <? b).
Definition isZero (x : Z) := x =? 0.
Section REFINE.
Variables maxHe maxD maxT maxV maxPureV maxI groupingMin widthA widthB : Z.
Variables hasD hasT : bool.
Variable hevRatio : R.
Definition allTrue := Fl true true true true true.
Definition setI b f := Fl (fHe f) (fD f) (fT f) (fV f) b.
Definition setV b f := Fl (fHe f) (fD f) (fT f) b (fI f).
Definition setT b f := Fl (fHe f) (fD f) b (fV f) (fI f).
Definition setD b f := Fl (fHe f) b (fT f) (fV f) (fI f).
Definition setHe b f := Fl b (fD f) (fT f) (fV f) (fI f).
Definition onlyIf (b : bool) (g : flags -> flags) (f : flags) : flags := if b then g f else f.
Definition noImpurity := isZero maxHe && isZero maxD && isZero maxT.
Definition zeroBut c (he d t v i : bool) : bool :=
  (he || isZero (aHe c)) && (d || isZero (aD c)) && (t || isZero (aT c)) && (v || isZero (aV c)) && (i || isZero (aI c)).
(** lines 74-88: interstitials. [Some f]: the function returns true with these flags. *)
Definition refineI r : option flags :=
  if 0 <? aI (lo r) then
    if (aI (lo r) <? groupingMin) && zeroBut (lo r) false false false false true then Some allTrue
    else if maxI <? aI (hi r) then Some allTrue
    else if short (lenI r) widthB (aI (lo r)) 100 then Some (setI false allTrue) else None
  else None.
(** lines 91-120: vacancies *)
Definition refineV r : option flags :=
  if (0 <? aV (lo r)) && noImpurity then
    if (aV (lo r) <? groupingMin) && zeroBut (lo r) false false false true false then Some allTrue
    else if maxPureV <? aV (hi r) then Some allTrue
    else if short (lenV r) widthB (aV (lo r)) 100 then Some (setV false allTrue) else None
  else if (0 <? aV (lo r)) && (maxV <? maxPureV) then
    if (aV (lo r) <=? maxV) && zeroBut (lo r) false false false true false then Some allTrue
    else if short (lenV r) widthB (aV (lo r)) 100 && zeroBut (lo r) false false false true false then Some (setV false allTrue)
    else None
  else None.
(** lines 121-152: the small and the pure ones *)
Definition refineSmall r : bool :=
  ((1 <? aV (hi r)) && zeroBut (lo r) false false false true false) ||
  (aV (lo r) <? groupingMin) || noImpurity ||
  ((1 <? aHe (hi r)) && zeroBut (lo r) true false false false false) ||
  (hasD && (1 <? aD (hi r)) && zeroBut (lo r) false true false false false) ||
  (hasT && (1 <? aT (hi r)) && zeroBut (lo r) false false true false false).
(** lines 161-217: around the edge. [bHi], [bLo]: getMaxHePerV at hi V - 1 and at lo V - 1. *)
Definition refineEdge r (bHi bLo : Z) : flags :=
  let hiH := aD (hi r) + aT (hi r) - 2 in
  onlyIf (hasT && isZero (aT (lo r))) (setT true)
  (onlyIf (hasD && isZero (aD (lo r))) (setD true)
  (onlyIf (hasD && hasT && (4 * aHe (lo r) + 3 <? 6 * hiH)) (fun f => setT true (setD true f))
  (onlyIf (hasT && (3 * aT (lo r) <=? 2 * bHi) && (2 * bLo <=? 3 * (aT (hi r) - 1)) && (0 <? maxT)) (setT true)
  (onlyIf (hasT && short (lenT r) widthA (aT (lo r) * aT (lo r)) 10) (setT false)
  (onlyIf (hasD && (3 * aD (lo r) <=? 2 * bHi) && (2 * bLo <=? 3 * (aD (hi r) - 1)) && (0 <? maxD)) (setD true)
  (onlyIf (hasD && short (lenD r) widthA (aD (lo r) * aD (lo r)) 10) (setD false) allTrue)))))).
(** lines 219-301: the rest *)
Definition refineRest r : flags :=
  let hiH := (if hasD then aD (hi r) - 1 else 0) + (if hasT then aT (hi r) - 1 else 0) in
  onlyIf (hasT && isZero (aT (lo r))) (setT true)
  (onlyIf (hasD && isZero (aD (lo r))) (setD true)
  (onlyIf (isZero (aHe (lo r))) (setHe true)
  (onlyIf (isZero (aV (lo r))) (setV true)
  (onlyIf (maxV <? aV (hi r)) (setV true)
  (onlyIf (maxPureV + 1 <? aV (hi r)) (setV true)
  (onlyIf (isZero (aHe (lo r)) && (6 * (aV (hi r) - 1) <? hiH)) (fun f => onlyIf hasT (setT true) (onlyIf hasD (setD true) f))
  (onlyIf (hasT && short (lenT r) widthA (aT (lo r) * aT (lo r)) 2) (setT false)
  (onlyIf (hasD && short (lenD r) widthA (aD (lo r) * aD (lo r)) 2) (setD false)
  (onlyIf (short (lenHe r) widthA (aHe (lo r) * aHe (lo r)) 2) (setHe false)
  (onlyIf (lenV r <? widthB + 1) (setV false) allTrue)))))))))).
(** The whole function. The flag of I is never cleared after line 88, hence [axis] is not 0 and the value returned is
    always true. [None]: undefined conversion in getMaxHePerV. *)
Definition refine (r : region) : option flags :=
  match refineI r with Some f => Some f | None =>
  match refineV r with Some f => Some f | None =>
  if refineSmall r then Some allTrue
  else if (1 <? aV (hi r)) && (aV (lo r) <=? maxV) then
    match getMaxHePerV (u32 (aV (hi r) - 1)) hevRatio, getMaxHePerV (u32 (aV (lo r) - 1)) hevRatio with
    | Some bHi, Some bLo =>
        if (aHe (lo r) <=? bHi) && (bLo <=? aHe (hi r) - 1) then Some (refineEdge r bHi bLo) else Some (refineRest r)
    | _, _ => None
    end
  else Some (refineRest r)
  end end.
End REFINE.

(** *** Three species: NE and Fe *)
Record iv := Iv { ib : Z; ie : Z }.
Definition len (i : iv) : Z := ie i - ib i.
(** The gas (Xe, He), V and I intervals. *)
Record reg3 := Reg3 { rG : iv; rV : iv; rI : iv }.
(** NEClusterGenerator.tpp:81-124 *)
Definition neSelect (maxXe maxV : Z) (r : reg3) : bool :=
  if (ie (rG r) =? 1) && (ie (rV r) =? 1) && (ie (rI r) =? 1) then false
  else if (0 <? ib (rI r)) && ((0 <? ib (rG r)) || (0 <? ib (rV r))) then false
  else if (1 <? ib (rG r)) && (ie (rV r) =? 1) && (ie (rI r) =? 1) then false
  else if maxXe <? ib (rG r) then false
  else if (2 <? ib (rV r)) && (ie (rG r) =? 1) && (ie (rI r) =? 1) then false
  else if maxV <? ib (rV r) then false
  else if (ib (rG r) =? 1) && (9 <? ie (rV r)) && (ie (rI r) =? 1) then false
  else true.
(** NEClusterGenerator.tpp:14-79: the flags of Xe, V and I; all false when the function returns false. *)
Definition neRefine (maxXe maxV groupingMin widthXe widthV : Z) (r : reg3) : bool * bool * bool :=
  if 0 <? ib (rI r) then (true, true, true)
  else if (1 <? ie (rV r)) && (ib (rV r) <? 3) && (ib (rG r) =? 0) && (ib (rI r) =? 0) then (true, true, true)
  else if (1 <? ie (rG r)) && (ib (rG r) <? 2) && (ib (rV r) =? 0) && (ib (rI r) =? 0) then (true, true, true)
  else if (ib (rG r) <? groupingMin) && (ib (rV r) <? groupingMin) then (true, true, true)
  else if (maxXe + 1 <? ie (rG r)) && (maxV + 1 <? ie (rV r)) then (true, true, true)
  else
    let g := negb (short (len (rG r)) widthXe (ib (rG r)) 10) || (ib (rG r) =? 0) || (maxXe + 1 <? ie (rG r)) in
    let v := negb (short (len (rV r)) widthV (ib (rV r)) 10) || (ib (rV r) =? 0) || (maxV + 1 <? ie (rV r)) in
    if negb g && negb v then (false, false, false) else (g, v, true).
(** FeClusterGenerator.tpp:106-139 *)
Definition feSelect (maxHe maxV : Z) (r : reg3) : bool :=
  if (ie (rG r) =? 1) && (ie (rV r) =? 1) && (ie (rI r) =? 1) then false
  else if (0 <? ib (rI r)) && ((0 <? ib (rG r)) || (0 <? ib (rV r))) then false
  else if (8 <? ib (rG r)) && (ie (rV r) =? 1) && (ie (rI r) =? 1) then false
  else if maxHe <? ib (rG r) then false
  else if (10 <? ib (rV r)) && (ie (rG r) =? 1) && (ie (rI r) =? 1) then false
  else if maxV <? ib (rV r) then false
  else true.

(** *** One-axis clusters: Zr (V, Basal, I) and Alloy (V, Void, Faulted, I, Perfect, Frank): a region is the list of its
    intervals *)
Definition nAxis (r : list iv) : nat := length (filter (fun i => 0 <? ib i) r).
Definition simplex (r : list iv) : bool := forallb (fun i => ie i =? ib i + 1) r.
Definition axis (k : nat) (r : list iv) : iv := nth k r (Iv 0 1).
(** ZrClusterGenerator.tpp:65-101 *)
Definition zrSelect (maxV maxB maxI : Z) (r : list iv) : bool :=
  if (1 <? nAxis r)%nat then false
  else if simplex r && (negb (nAxis r =? 1)%nat || (maxI <? ib (axis 2 r)) || (maxV <? ib (axis 0 r)) || (maxB <? ib (axis 1 r))) then false
  else negb ((maxV <? ib (axis 0 r)) || (maxB <? ib (axis 1 r)) || (maxI <? ib (axis 2 r))).
(** AlloyClusterGenerator.tpp:92-163 *)
Definition alloySelect (maxV maxI maxSize maxVoid : Z) (r : list iv) : bool :=
  let bV := ib (axis 0 r) in let bVoid := ib (axis 1 r) in let bFaulted := ib (axis 2 r) in
  let bI := ib (axis 3 r) in let bPerfect := ib (axis 4 r) in let bFrank := ib (axis 5 r) in
  if (1 <? nAxis r)%nat then false
  else if simplex r && (negb (nAxis r =? 1)%nat || (maxI <? bI) || (maxV <? bV) ||
      ((0 <? bPerfect) && (bPerfect <? maxI)) || ((0 <? bPerfect) && (maxSize <? bPerfect)) ||
      ((0 <? bFrank) && (bFrank <=? maxI)) || ((0 <? bFrank) && (maxSize <? bFrank)) ||
      ((0 <? bFaulted) && (bFaulted <=? maxV)) || ((0 <? bFaulted) && (maxSize <? bFaulted)) ||
      ((0 <? bVoid) && (bVoid <=? maxV)) || ((0 <? bVoid) && (maxVoid <? bVoid))) then false
  else if (bV =? 0) && (bI =? 0) && (ie (axis 1 r) - 1 <=? maxV) && (ie (axis 2 r) - 1 <=? maxV) &&
      (ie (axis 4 r) - 1 <=? maxI) && (ie (axis 5 r) - 1 <=? maxI) then false
  else negb ((maxVoid <? bVoid) || (maxSize <? bFaulted) || (maxSize <? bPerfect) || (maxSize <? bFrank)).
(** AlloyClusterGenerator.tpp:14-88: flags in the order of the axes. *)
Definition clear (k : nat) (f : list bool) : list bool := firstn k f ++ false :: skipn (S k) f.
Definition alloyRefine (maxSize maxVoid groupingMin width : Z) (r : list iv) : list bool :=
  let all := repeat true 6 in
  if (1 <? nAxis r)%nat then repeat false 6
  else if (nAxis r =? 0)%nat then all
  else if (0 <? ib (axis 0 r)) || (0 <? ib (axis 3 r)) then all
  else if forallb (fun k => ib (axis k r) <? groupingMin) [1; 2; 5; 4]%nat then all
  else if ((maxVoid <? ie (axis 1 r)) && (0 <? maxVoid)) || ((maxSize <? ie (axis 2 r)) && (0 <? maxSize)) ||
      ((maxSize <? ie (axis 5 r)) && (0 <? maxSize)) || ((maxSize <? ie (axis 4 r)) && (0 <? maxSize)) then all
  else fold_left (fun f k => if (0 <? ib (axis k r)) && short (len (axis k r)) width (ib (axis k r)) 20 then clear k f else f) [1; 2; 5; 4]%nat all.
