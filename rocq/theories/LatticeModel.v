(** The sizes of the lattice of compositions asked of plsm by the network handlers. Options are non-negative; amounts are
    unsigned 32-bit, pow is exact. *)
From Coq Require Import ZArith List Bool.
From Verif Require Import GenModel.
Import ListNotations.
Open Scope Z_scope.

(** The loop [while (max + 1 > pow(width, i)) ++i;] from [i] on, for at most [fuel] rounds (PSINetworkHandler.cpp:72-101, 109-113;
    NENetworkHandler.cpp:33-42, FeNetworkHandler.cpp:33-42, ZrNetworkHandler.cpp:28-62, AlloyNetworkHandler.cpp:27-36). [None]: still running. *)
Fixpoint rounds (fuel : nat) (width max i : Z) : option Z :=
  match fuel with
  | O => None
  | S n => if width ^ i <? max + 1 then rounds n width max (i + 1) else Some i
  end.
(** 33 rounds are enough for 32-bit amounts unless the loop never ends (c59_least, c59_endless_refuted). [None]: endless, or
    the conversion of the double to an amount is undefined. *)
Definition adapt (width max : Z) : option Z :=
  match rounds 34 width max 0 with
  | Some i => if width ^ i - 1 <? 4294967296 then Some (width ^ i - 1) else None
  | None => None
  end.

(** generatePSIReactionNetwork, PSINetworkHandler.cpp:26-121: the largest amounts on the lattice and the number of levels inserted for
    pure vacancies. [b]: getMaxHePerV (maxV, ratio); 2.0 / 3.0 * b truncated is exact. *)
Record lattice := Lattice { lHe : Z; lD : Z; lT : Z; lV : Z; lI : Z; levels : Z }.
Definition psiLattice (maxImpurity maxD maxT maxV maxPureV maxI gMin wA wB b : Z) : option lattice :=
  let '(he, wHe) := if maxImpurity <=? 0 then (0, 1) else (b, wA) in
  let '(d, wD) := if maxD <=? 0 then (0, 1) else (2 * b / 3, wA) in
  let '(t, wT) := if maxT <=? 0 then (0, 1) else (2 * b / 3, wA) in
  let '(he, d, t) := if maxPureV <=? 0 then (maxImpurity, maxD, maxT) else (he, d, t) in
  let grouped :=
    if maxPureV <? gMin then Some (he, d, t, maxPureV, 0)
    else match adapt wHe he, adapt wD d, adapt wT t, adapt wB maxPureV, rounds 34 wB maxPureV 0, rounds 34 wB maxV 0 with
         | Some he', Some d', Some t', Some v', Some i, Some j => Some (he', d', t', v', u32 (i - j))
         | _, _, _, _, _, _ => None
         end in
  match grouped, (if maxI <=? gMin then Some maxI else adapt wB maxI) with
  | Some (he', d', t', v', k), Some i' =>
      if (gMin <? i') && (gMin <=? v') && (maxImpurity =? 0) then Some (Lattice 0 0 0 v' i' 0)
      else Some (Lattice he' d' t' v' i' k)
  | _, _ => None
  end.
(** An axis: the largest amount and the subdivision ratio. *)
Definition axis_ := (Z * Z)%type.
(** NENetworkHandler.cpp:20-47, FeNetworkHandler.cpp:20-47: gas, vacancies, interstitials *)
Definition gasLattice (maxG maxV maxI gMin wA wB : Z) : option (list axis_) :=
  if maxV <? gMin then Some [(maxG, maxG + 1); (maxV, maxV + 1); (maxI, maxI + 1)]
  else match adapt wA maxG, adapt wB maxV with Some g, Some v => Some [(g, wA); (v, wB); (maxI, maxI + 1)] | _, _ => None end.
(** ZrNetworkHandler.cpp:20-67: vacancies, basal, interstitials. The loops run twice over V and I (lines 28-42 and 53-62). *)
Definition zrOne (max : Z) : option axis_ :=
  if 0 <? max then match adapt 2 max with Some m => Some (m, 2) | None => None end else Some (max, 1).
Definition again (x : option axis_) : option axis_ :=
  match x with Some (m, k) => match adapt 2 m with Some m' => Some (m', k) | None => None end | None => None end.
Definition zrLattice (maxV maxB maxI : Z) : option (list axis_) :=
  match again (zrOne maxV), zrOne maxB, again (zrOne maxI) with Some v, Some b, Some i => Some [v; b; i] | _, _, _ => None end.
(** AlloyNetworkHandler.cpp:20-46: vacancies, voids, faulted, interstitials, perfect, Frank *)
Definition alloyLattice (maxV maxI maxSize maxVoid w : Z) : option (list axis_) :=
  match adapt w maxSize, adapt w maxVoid with
  | Some s, Some v =>
      let loopV := if maxV =? 0 then 0 else s in let loopI := if maxI =? 0 then 0 else s in
      let wV := if maxV =? 0 then 1 else w in let wI := if maxI =? 0 then 1 else w in
      Some [(maxV, maxV + 1); (v, wV); (loopV, wV); (maxI, maxI + 1); (loopI, wI); (loopI, wI)]
  | _, _ => None
  end.
