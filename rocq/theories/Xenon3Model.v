(** The xenon which goes to grain boundaries in two and three dimensions: PetscMonitor2D::computeXenonRetention
    (solver/src/monitor/PetscMonitor2D.cpp:1038-1288), PetscMonitor3D::computeXenonRetention
    (solver/src/monitor/PetscMonitor3D.cpp:1114-1392), SolverHandler::setGBLocation
    (solver/src/handler/SolverHandler.cpp:725-733) and initGBLocation
    (solver/src/handler/PetscSolver2DHandler.cpp:618-672, PetscSolver3DHandler.cpp:688-743). The processes, grids and
    outputs are those of Retention3Model; in two dimensions the third index is 0, [nZ] = 1 and [hz] = 1. Indices are
    those of the default build, 32 bit without sign (config.h.in:18-24). *)
From Verif Require Export Retention3Model.
From Verif Require RetentionModel.
Set Implicit Arguments.
Open Scope R_scope.
Open Scope bool_scope.

(** x, y, z *)
Definition point := (nat * nat * nat)%type.
Definition pointEqb (a b : point) : bool :=
  let '(i, j, k) := a in let '(i', j', k') := b in (i =? i')%nat && (j =? j')%nat && (k =? k')%nat.
Definition set (f : point -> R) (g : point) (x : R) : point -> R := fun h => if pointEqb h g then x else f h.

(** SolverHandler.cpp:725-733 *)
Definition setLocation (p : proc) (gb : list point) (g : point) : list point :=
  let '(i, j, k) := g in
  if inside (xs p) (Nat.max (xm p) 1) i && inside (ys p) (Nat.max (ym p) 1) j && inside (zs p) (Nat.max (zm p) 1) k
  then gb ++ [g] else gb.
Definition setLocations (p : proc) (gs : list point) : list point := fold_left (setLocation p) gs [].
(** 2D: lines 1157, 1210; 3D: lines 1238-1239, 1295-1296 *)
Definition mine (p : proc) (g : point) : bool := let '(i, j, k) := g in owns p j k i.

Section NET.
Variable three : bool.
Variables (ns : nat) (origin : nat -> list Z).
Variable grid : nat -> R.
Variables nX nY nZ : nat.
Variables hy hz : R.
Variable dif : list nat.

(** What comes from a neighbour at (xi, j, k); the coefficients are asked at xi + 1 - xs. *)
Definition from (p : proc) (o : out) (xi j k : nat) (f : R) (fl : nat -> R) : nat -> R :=
  RetentionModel.diffFluxes ns origin (fun l => oC o l j k xi) f (fun l => stored p (oD o l)) (xi + 1 - xs p) dif fl.
(** 2D: lines 1186-1247; 3D: lines 1270-1351. The rate kept is that of species 0. The arrays have the points beyond the
    sides at -1 and nY, nZ, those of the other side (Retention3Model). [None]: index 0 - 1 = 4294967295 is outside. *)
Definition gbRate (p : proc) (o : out) (g : point) : option R :=
  let '(xi, j, k) := g in
  if (xi =? 0)%nat || (j =? 0)%nat || (three && (k =? 0)%nat) then None
  else
    let f := 2 / (hxLeft grid xi + hxRight grid nX xi) in
    let x := from p o (xi + 1) j k (f / hxRight grid nX xi) (from p o (xi - 1) j k (f / hxLeft grid xi) (fun _ => 0)) in
    let y := from p o xi (after nY j) k (1 / (hy * hy)) (from p o xi (j - 1) k (1 / (hy * hy)) x) in
    let z := if three then from p o xi j (after nZ k) (1 / (hz * hz)) (from p o xi j (k - 1) (1 / (hz * hz)) y) else y in
    Some (z 0%nat).

(** As in one dimension: nXeGB of the handler of rank 0, and of localNE the amount and the previous flux. *)
Record xenon := Xenon { nXe : R; amt : point -> R; prv : point -> R }.
(** 2D: lines 1142-1164; 3D: lines 1222-1248 *)
Definition gbSum (p : proc) (gb : list point) (prv : point -> R) : R :=
  fold_left (fun a g => if mine p g then a + prv g * (grid (fst (fst g) + 1)%nat - grid (fst (fst g))) * hy * hz else a) gb 0.
Definition gbAmounts (p : proc) (gb : list point) (dt : R) (prv amt : point -> R) : point -> R :=
  fold_left (fun a g => if mine p g then set a g (a g + prv g * dt) else a) gb amt.
(** 2D: lines 1184-1249; 3D: lines 1268-1353 *)
Fixpoint gbFluxes (p : proc) (gb : list point) (o : out) (prv : point -> R) : option (point -> R) :=
  match gb with
  | [] => Some prv
  | g :: r => if mine p g then match gbRate p o g with Some v => gbFluxes p r o (set prv g v) | None => None end
              else gbFluxes p r o prv
  end.
Fixpoint allFluxes (parts : list (proc * list point)) (o : out) (prv : point -> R) : option (point -> R) :=
  match parts with
  | [] => Some prv
  | pg :: r => match gbFluxes (fst pg) (snd pg) o prv with Some v => allFluxes r o v | None => None end
  end.
(** 2D: lines 1165-1175; 3D: lines 1249-1259, for all the processes *)
Definition xenonAt (parts : list (proc * list point)) (o : out) (st : xenon) : option xenon :=
  match allFluxes parts o (prv st) with
  | Some v => Some (Xenon (nXe st + fold_left Rplus (map (fun pg => gbSum (fst pg) (snd pg) (prv st)) parts) 0 * odt o)
                          (fold_left (fun a pg => gbAmounts (fst pg) (snd pg) (odt o) (prv st) a) parts (amt st)) v)
  | None => None
  end.
Fixpoint xenonRun (parts : list (proc * list point)) (os : list out) (st : xenon) : option xenon :=
  match os with
  | [] => Some st
  | o :: r => match xenonAt parts o st with Some st' => xenonRun parts r st' | None => None end
  end.
(** 2D: lines 1254, 1263, 1278; 3D: lines 1358, 1367, 1382 *)
Definition printedXe (st : xenon) : R := nXe st / (INR nY * hy * INR nZ * hz).

(** The sums over the points: 2D: lines 1091-1122, 1135-1140; 3D: lines 1166-1198, 1215-1220 *)
Definition mySum (tot : nat -> nat -> nat -> R) (p : proc) : R :=
  fold_left (fun a k => fold_left (fun a j => fold_left (fun a xi =>
      a + tot j k xi * (grid (xi + 1)%nat - grid xi) * hy * hz)
    (seq (xs p) (xm p)) a) (seq (ys p) (ym p)) a) (seq (zs p) (zm p)) 0.
Definition allSum (tot : nat -> nat -> nat -> R) (procs : list proc) : R := fold_left Rplus (map (mySum tot) procs) 0.
(** 2D: line 1258; 3D: line 1362 *)
Definition printedContent (tot : nat -> nat -> nat -> R) (procs : list proc) : R :=
  allSum tot procs / (INR nY * hy * INR nZ * hz).
(** 2D: lines 1265-1272; 3D: lines 1369-1376 *)
Definition printedRadius (total radius : nat -> nat -> nat -> R) (procs : list proc) : R :=
  if Rlt_dec (1 / 10 ^ 16) (allSum total procs) then allSum radius procs / allSum total procs else 0.

(** PetscSolver2DHandler.cpp:637-664, PetscSolver3DHandler.cpp:707-735: the concentrations by point and cluster, and the
    local amounts. *)
Definition initGB (tot : (nat -> R) -> R) (parts : list (proc * list point))
    (ca : (point -> nat -> R) * (point -> R)) : (point -> nat -> R) * (point -> R) :=
  fold_left (fun ca pg =>
    fold_left (fun ca g =>
      if mine (fst pg) g
      then (fun h => if pointEqb h g then (fun _ => 0) else fst ca h, set (snd ca) g (snd ca g + tot (fst ca g)))
      else ca) (snd pg) ca) parts ca.

(** PetscSolver2DHandler.cpp:1059-1068, 1074-1078, PetscSolver3DHandler.cpp:1178-1188, 1194-1199, for points between the surfaces. *)
Definition diffRate (gb : list point) (sy sz : R) (D : nat -> R) (c : nat -> nat -> nat -> R) (j k xi : nat) : R :=
  if existsb (pointEqb (xi, j, k)) gb then 0 else diffAt3 grid nX nY nZ sy sz D c j k xi.
End NET.
