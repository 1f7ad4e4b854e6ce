(** Model of the grid loops of the one-dimensional solver handler
    (solver/src/handler/PetscSolver1DHandler.cpp). Indices of grid points are global. *)
From Coq Require Export ZArith.
From Verif Require Export StencilModel.
Set Implicit Arguments.
Open Scope R_scope.
Open Scope bool_scope.

Section ROW.
Variable grid : nat -> R.
Variable nX : nat.
(** lines 955-968 (and 1270-1283); the same text with temperatureGrid in 832-847 *)
Definition hxLeft (xi : nat) : R :=
  if (1 <=? xi)%nat then (grid (xi + 1)%nat - grid (xi - 1)%nat) / 2 else grid (xi + 1)%nat - grid xi.
Definition hxRight (xi : nat) : R :=
  if (xi <? nX)%nat then (grid (xi + 2)%nat - grid xi) / 2 else grid (xi + 1)%nat - grid xi.
(** The width of the cell, with which the monitors weigh the concentrations
    (lines 792-794; solver/src/monitor/PetscMonitor1D.cpp). *)
Definition cellWidth (xi : nat) : R := grid (xi + 1)%nat - grid xi.
(** lines 1004-1005: gridPosition[0] *)
Definition position (xi : nat) : R := (grid xi + grid (xi + 1)%nat) / 2 - grid 1%nat.

Variables leftOffset rightOffset : nat.
Variable gb : list nat.                       (* x indices of gbVector *)
(** lines 878-890, 970-983, 1240-1258: empty region or free-surface grain boundary *)
Definition skipped (xi : nat) : bool :=
  (xi <? leftOffset)%nat || (nX - 1 - rightOffset <? xi)%nat || existsb (Nat.eqb xi) gb.

(** lines 948-953: middle, left, right. [ghost]: the value beyond the last point. *)
Definition around (c : nat -> R) (xi : nat) (k : nat) : R :=
  match k with 0%nat => c xi | 1%nat => c (xi - 1)%nat | 2%nat => c (xi + 1)%nat | _ => 0 end.
(** lines 998-1001 for one diffusing cluster; [D xi]: its diffusion coefficient at point
    [xi] (the network stores it at xi + 1 - localXS), [m]: the mask at point [xi]. *)
Definition diffAt (D m c : nat -> R) (xi : nat) : R :=
  diff1 (Loc (hxLeft xi) (hxRight xi) 0 0 (D (xi - 1)%nat) (D xi) (D (xi + 1)%nat)) (around m xi) (around c xi).
(** lines 970-986 and 998-1001 *)
Definition diffRate (D m c : nat -> R) (xi : nat) : R :=
  if skipped xi || (xi =? 0)%nat then 0 else diffAt D m c xi.
(** lines 1003-1010 for one advecting cluster and the handler of the surface *)
Definition advAt (loc_ A : R) (D T m c : nat -> R) (xi : nat) : R :=
  advS (Adv (position xi) loc_ (hxLeft xi) (hxRight xi) A (D xi) (T xi) (D (xi + 1)%nat) (T (xi + 1)%nat)) (around m xi) (around c xi).

(** ** Calls of computeTemperature for a locally owned point: lines 817-851 and 876-918
    (the Jacobian: 1111-1123 and 1147-1172). *)
Variable isRobin : bool.
Definition heatCondition (xi : nat) : bool := (xi =? 0)%nat || ((xi =? nX - 1)%nat && isRobin).
Definition tempCalls (xi : nat) : nat :=
  ((if heatCondition xi then 1 else 0) + (if skipped xi then 0 else 1))%nat.
Definition tempUpdate (rate : nat -> R) (xi : nat) : R := INR (tempCalls xi) * rate xi.

(** ** The announced coordinates (lines 193-251) and the values (1236-1327). *)
Definition label : Type := ((Z * nat) * (Z * nat))%type.
Record advHandler := AdvHandler { ents : list (nat * nat); offset : nat -> Z; onsink : nat -> bool }.
Variables (soretEnts difEnts nwEnts : list (nat * nat)) (handlers : list advHandler) (dof : nat).
Definition lab (i : Z) (comp : nat * nat) (i' : Z) : label := ((i, fst comp), (i', snd comp)).
Definition triple (xi : nat) (comp : nat * nat) : list label :=
  let i := Z.of_nat xi in [lab i comp i; lab i comp (i - 1); lab i comp (i + 1)].
Definition advPair (h : advHandler) (xi : nat) (comp : nat * nat) : list label :=
  let i := Z.of_nat xi in
  if onsink h xi then [lab i comp (i - offset h xi); lab i comp (i + offset h xi)]
  else [lab i comp i; lab i comp (i + offset h xi)].
(** lines 165-168 and 1051-1054 *)
Definition nAdvec : nat := fold_left Nat.max (map (fun h => length (ents h)) handlers) 0%nat.
(** lines 235-239: one (-1,-1) per missing entry *)
Definition padding (h : advHandler) : list (option label) := repeat None (nAdvec - length (ents h)).
(** lines 200-247 *)
Definition coordsAt (xi : nat) : list (option label) :=
  map Some (flat_map (triple xi) soretEnts) ++ map Some (flat_map (triple xi) difEnts) ++
  flat_map (fun h => map Some (flat_map (advPair h xi) (ents h)) ++ padding h) handlers ++
  map Some (map (fun comp => lab (Z.of_nat xi) comp (Z.of_nat xi)) nwEnts).
Variables localXS localXM : nat.
Definition points : list nat := seq localXS localXM.
Definition coords : list (option label) :=
  flat_map (fun xi => map Some (triple xi (dof, dof))) points ++ flat_map coordsAt points.

(** The sub-views handed out at point [xi]: length and the matrix entries which the
    handler computes for its first values (lines 1285-1324). *)
Definition subviews (xi : nat) : list (nat * list label) :=
  (3 * length soretEnts, flat_map (triple xi) soretEnts)%nat ::
  (3 * length difEnts, flat_map (triple xi) difEnts)%nat ::
  map (fun h => (2 * nAdvec, flat_map (advPair h xi) (ents h))%nat) handlers ++
  [(length nwEnts, map (fun comp => lab (Z.of_nat xi) comp (Z.of_nat xi)) nwEnts)].
Fixpoint placeAll (vi : nat) (vs : list (nat * list label)) : list (nat * label) :=
  match vs with
  | [] => []
  | (n, l) :: r => combine (seq vi (length l)) l ++ placeAll (vi + n) r
  end.
(** lines 1241-1244, 1253-1256 *)
Definition blockSize : nat :=
  (3 * length soretEnts + 3 * length difEnts + 2 * nAdvec * length handlers + length nwEnts)%nat.
(** lines 1236-1325, from value index [vi] *)
Fixpoint writesFrom (vi : nat) (pts : list nat) : list (nat * label) :=
  match pts with
  | [] => []
  | xi :: r =>
      if skipped xi then writesFrom (vi + blockSize) r
      else if (xi =? 0)%nat then writesFrom vi r
      else placeAll vi (subviews xi) ++
           writesFrom (fold_left (fun v nl => v + fst nl)%nat (subviews xi) vi) r
  end.
(** lines 1069-1174 *)
Definition tempWrites : list (nat * label) :=
  combine (seq 0 (3 * localXM)) (flat_map (fun xi => triple xi (dof, dof)) points).
Definition writes : list (nat * label) := tempWrites ++ writesFrom (3 * localXM) points.
End ROW.

(** MatSetValuesCOO with ADD_VALUES (line 1327): the matrix entry [e]. A write carries its
    value. *)
Definition labEq (a b : label) : bool :=
  (Z.eqb (fst (fst a)) (fst (fst b)) && Nat.eqb (snd (fst a)) (snd (fst b)) &&
   Z.eqb (fst (snd a)) (fst (snd b)) && Nat.eqb (snd (snd a)) (snd (snd b)))%bool.
Definition valueAt (ws : list ((nat * label) * R)) (k : nat) : R :=
  Rsum ws (fun w => if Nat.eqb (fst (fst w)) k then snd w else 0).
Definition assembled (cs : list (option label)) (ws : list ((nat * label) * R)) (e : label) : R :=
  Rsum (seq 0 (length cs)) (fun k =>
    match nth k cs None with Some l => if labEq l e then valueAt ws k else 0 | None => 0 end).
