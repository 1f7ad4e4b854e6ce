(** How far the cells of the composition lattice are cut: the refinement tests of the Fe and Zr cluster generators (those of
    the PSI, NE and Alloy ones are in SelectModel.v). *)
From Coq Require Import ZArith Reals List Bool.
From Verif Require Import SelectModel MobilityModel.
Import ListNotations.
Open Scope Z_scope.

(** *** Fe: FeClusterGenerator.tpp:12-102 *)
(** lines 48-58: near the line where an interstitial is emitted with 1.5 eV. Without vacancies the quotient is infinite or not
    a number, and the comparison fails. *)
Definition feNear (he v : R) : bool :=
  (if Req_EM_T v 0 then false
   else let ibe := 4.88 + 2.59 * (root3 (v * v) - root3 ((v - 1.0) * (v - 1.0))) - 2.5 * ln (1.0 + he / v) in
        if Rlt_dec (Rabs (ibe - 1.5)) 1.5 then true else false)%R.
(** lines 50-53, 59, 70: 0.5 (lo + hi - 1) for both, the third power of the distance from the origin times 1e-6 or 1e-4 *)
Definition feScale (r : reg3) : R :=
  (let he := 0.5 * IZR (ib (rG r) + ie (rG r) - 1) in let v := 0.5 * IZR (ib (rV r) + ie (rV r) - 1) in
   let amt := sqrt (he * he + v * v) in
   if feNear he v then amt * amt * amt * 1.0e-6 else amt * amt * amt * 1.0e-4)%R.
(** length < max (width + 1.0, comp) *)
Definition feShort (n w : Z) (comp : R) : bool := if Rlt_dec (IZR n) (Rmax (IZR w + 1.0) comp) then true else false.
(** The flags of He, V and I; the last component: what the function returns *)
Definition feRefine (maxHe maxV groupingMin widthHe widthV : Z) (r : reg3) : (bool * bool * bool) * bool :=
  let all := ((true, true, true), true) in
  if 0 <? ib (rI r) then all
  else if (1 <? ie (rV r)) && (ib (rV r) <? 11) && (ib (rG r) =? 0) && (ib (rI r) =? 0) then all
  else if (1 <? ie (rG r)) && (ib (rG r) <? 9) && (ib (rV r) =? 0) && (ib (rI r) =? 0) then all
  else if (ib (rG r) <? groupingMin) && (ib (rV r) <? groupingMin) then all
  else if (maxHe + 1 <? ie (rG r)) && (maxV + 1 <? ie (rV r)) then all
  else
    let g := negb (feShort (len (rG r)) widthHe (feScale r)) || (ib (rG r) =? 0) || (maxHe + 1 <? ie (rG r)) in
    let v := negb (feShort (len (rV r)) widthV (feScale r)) || (ib (rV r) =? 0) || (maxV + 1 <? ie (rV r)) in
    ((g, v, true), negb (negb g && negb v)).

(** *** Zr: ZrClusterGenerator.tpp:12-64. Flags of V, Basal and I *)
Definition zrRefine (maxV maxB maxI groupingMin width : Z) (r : list iv) : list bool * bool :=
  let limit k := nth k [maxV; maxB; maxI] 0 in
  let all := repeat true 3 in
  if (1 <? nAxis r)%nat then (repeat false 3, false)
  else if forallb (fun k => ib (axis k r) <? groupingMin) [0; 1; 2]%nat then (all, true)
  else if forallb (fun k => limit k <? ie (axis k r)) [0; 1; 2]%nat then (all, true)
  else if existsb (fun k => (limit k <? ie (axis k r)) && (0 <? limit k)) [0; 1; 2]%nat then (all, true)
  else (fold_left (fun f k => if (0 <? ib (axis k r)) && short (len (axis k r)) width (ib (axis k r)) 50 then clear k f else f) [0; 1; 2]%nat all, true).
