(** Model of the announced coordinates and of the computed values of the Jacobian in
    two and three dimensions: PetscSolver2DHandler.cpp (initializeSolverContext
    136-268, computeJacobian 1127-1412), PetscSolver3DHandler.cpp
    (initializeSolverContext 164-327, computeJacobian 1248-1566), and without
    dimension: PetscSolver0DHandler.cpp (70-82, 331-337) with
    PetscSolverHandler.cpp:57-109.
    A value is identified by the matrix entry for which it is computed (the
    formulas are the subject of StencilModel and FluxModel).  The advecting
    clusters are the same before and after, the positions of the grid are given
    by [xpos].  Indices which are out of the mesh and the periodic or mirrored
    translation of them (DMDAMapMatStencilToGlobal) are kept as they are. *)
From Coq Require Import Reals List ZArith Bool.
From Verif Require Import Sums.
Import ListNotations.
Open Scope Z_scope.

(** A point of the grid, x, y, z; in two dimensions z is 0. *)
Definition Pt := (Z * Z * Z)%type.
Definition ptx (p : Pt) : Z := fst (fst p).
Definition pty (p : Pt) : Z := snd (fst p).
Definition ptz (p : Pt) : Z := snd p.
Definition shift (p o : Pt) : Pt := (ptx p + ptx o, pty p + pty o, ptz p + ptz o).
Definition back (p o : Pt) : Pt := (ptx p - ptx o, pty p - pty o, ptz p - ptz o).
(** Row and column of a matrix entry: point and component. *)
Definition Label := ((Pt * nat) * (Pt * nat))%type.
Definition entry (p : Pt) (comp : nat * nat) (q : Pt) : Label := ((p, fst comp), (q, snd comp)).

(** PetscSolver2DHandler.cpp:212-216 and 224-228 *)
Definition star2 : list Pt := [(0, 0, 0); (-1, 0, 0); (1, 0, 0); (0, -1, 0); (0, 1, 0)].
(** PetscSolver3DHandler.cpp:245-258 and 268-281 *)
Definition star3 : list Pt :=
  [(0, 0, 0); (-1, 0, 0); (1, 0, 0); (0, -1, 0); (0, 1, 0); (0, 0, -1); (0, 0, 1)].
Definition starAt (star : list Pt) (p : Pt) (comp : nat * nat) : list Label :=
  map (fun o => entry p comp (shift p o)) star.

(** ** Advection handlers *)
(** The handler of the surface (or the dummy one) and grain boundaries across x, y, z. *)
Inductive Kind := Surface | AcrossX | AcrossY | AcrossZ.
Record Handler := mkHandler { kind : Kind; loc : R; clusters : list (nat * nat) }.
Definition along (k : Kind) (q : R * R * R) : R :=
  match k with AcrossY => snd (fst q) | AcrossZ => snd q | _ => fst (fst q) end.
(** isPointOnSink: SurfaceAdvectionHandler.h:120-125, XGBAdvectionHandler.h:92-97,
    YGBAdvectionHandler.h:92-97, ZGBAdvectionHandler.h:92-97 *)
Definition onSink (h : Handler) (q : R * R * R) : bool :=
  match kind h with
  | Surface => false
  | k => if Rlt_dec (Rabs (loc h - along k q)) (1 / 1000) then true else false
  end.
Definition gt01 (a b : R) : Z := if Rlt_dec b a then 1 else 0.
(** getStencilForAdvection: SurfaceAdvectionHandler.h:107-113, XGBAdvectionHandler.cpp:234-244,
    YGBAdvectionHandler.cpp:217-227, ZGBAdvectionHandler.cpp:219-229 *)
Definition offsets (h : Handler) (q : R * R * R) : Pt :=
  let o := if onSink h q then 1 else gt01 (along (kind h) q) (loc h) - gt01 (loc h) (along (kind h) q) in
  match kind h with
  | Surface => (1, 0, 0)
  | AcrossX => (o, 0, 0)
  | AcrossY => (0, o, 0)
  | AcrossZ => (0, 0, o)
  end.
(** The two entries of a cluster when the handler is asked at the position [q]:
    PetscSolver2DHandler.cpp:235-252, PetscSolver3DHandler.cpp:288-308.  The values
    of computePartialsForAdvection are in the same order
    (SurfaceAdvectionHandler.cpp, XGB/YGB/ZGBAdvectionHandler.cpp; StencilModel). *)
Definition advPair (h : Handler) (q : R * R * R) (p : Pt) (comp : nat * nat) : list Label :=
  if onSink h q then [entry p comp (back p (offsets h q)); entry p comp (shift p (offsets h q))]
  else [entry p comp p; entry p comp (shift p (offsets h q))].
(** PetscSolver2DHandler.cpp:179-182, 1131-1135, PetscSolver3DHandler.cpp:209-212, 1252-1256 *)
Definition nAdvec (hs : list Handler) : nat :=
  fold_left Nat.max (map (fun h => length (clusters h)) hs) 0%nat.
(** PetscSolver2DHandler.cpp:253-257, PetscSolver3DHandler.cpp:309-313: one pair of -1 per missing cluster *)
Definition padding (hs : list Handler) (h : Handler) : list (option Label) :=
  repeat None (nAdvec hs - length (clusters h)).
(** PetscSolver2DHandler.cpp:138, 1332-1333, PetscSolver3DHandler.cpp:166-167, 1479-1480: setLocation on the first handler *)
Definition located (l : R) (hs : list Handler) : list Handler :=
  match hs with [] => [] | h :: r => mkHandler (kind h) l (clusters h) :: r end.

(** ** Announced coordinates *)
(** PetscSolver2DHandler.cpp:222-264, PetscSolver3DHandler.cpp:266-321 at one point; the position
    is asked at y = z = 0 (2D 232-233, 3D 285-286) with the surface of the first column. *)
Definition coordsAt (star : list Pt) (xpos : Z -> R) (hs : list Handler) (difs nw : list (nat * nat)) (p : Pt)
  : list (option Label) :=
  map Some (flat_map (starAt star p) difs) ++
  flat_map (fun h => map Some (flat_map (advPair h (xpos (ptx p), 0%R, 0%R) p) (clusters h)) ++ padding hs h) hs ++
  map Some (map (fun comp => entry p comp p) nw).
(** PetscSolver2DHandler.cpp:209-266 and PetscSolver3DHandler.cpp:241-324: the temperature, then the loop over the same points; [first]: location of the
    surface of the first column *)
Definition coords (star : list Pt) (xpos : Z -> R) (hs : list Handler) (difs nw : list (nat * nat)) (dof : nat)
  (first : R) (pts : list Pt) : list (option Label) :=
  flat_map (fun p => map Some (starAt star p (dof, dof))) pts ++
  flat_map (coordsAt star xpos (located first hs) difs nw) pts.

(** ** The points of a process *)
Definition zseq (s : Z) (n : nat) : list Z := map (fun i => s + Z.of_nat i) (seq 0 n).
Definition column (xs : Z) (xm : nat) (yz : Z * Z) : list Pt := map (fun x => (x, fst yz, snd yz)) (zseq xs xm).
(** PetscSolver2DHandler.cpp:220-221, 1154, 1284: y outside, x inside *)
Definition columns2 (ys : Z) (ym : nat) : list (Z * Z) := map (fun y => (y, 0)) (zseq ys ym).
(** PetscSolver3DHandler.cpp:263-265, 1276-1277, 1426-1427 *)
Definition columns3 (ys : Z) (ym : nat) (zs : Z) (zm : nat) : list (Z * Z) :=
  flat_map (fun z => map (fun y => (y, z)) (zseq ys ym)) (zseq zs zm).

(** ** Excluded points *)
Record Mesh := mkMesh { nX : Z; nY : Z; nZ : Z;
  leftO : Z; rightO : Z; bottomO : Z; topO : Z; frontO : Z; backO : Z;
  surf : Z * Z -> Z; gb : list Pt }.
Definition pteq (a b : Pt) : bool := (ptx a =? ptx b) && (pty a =? pty b) && (ptz a =? ptz b).
(** PetscSolver2DHandler.cpp:1235-1246, PetscSolver3DHandler.cpp:1370-1382: for the temperature *)
Definition emptyT (m : Mesh) (p : Pt) : bool :=
  (ptx p <? surf m (pty p, ptz p) + leftO m) || (nX m - 1 - rightO m <? ptx p) || existsb (pteq p) (gb m).
(** PetscSolver2DHandler.cpp:1336-1354 *)
Definition empty2 (m : Mesh) (p : Pt) : bool :=
  (ptx p <? surf m (pty p, ptz p) + leftO m) || (nX m - 1 - rightO m <? ptx p) ||
  (pty p <? bottomO m) || (nY m - 1 - topO m <? pty p) || existsb (pteq p) (gb m).
(** PetscSolver3DHandler.cpp:1483-1504 *)
Definition empty3 (m : Mesh) (p : Pt) : bool :=
  (ptx p <? surf m (pty p, ptz p) + leftO m) || (nX m - 1 - rightO m <? ptx p) ||
  (pty p <? bottomO m) || (nY m - 1 - topO m <? pty p) ||
  (ptz p <? frontO m) || (nZ m - 1 - backO m <? ptz p) || existsb (pteq p) (gb m).

(** ** Values *)
(** Position in the array and the entry of the value. *)
Definition Writes := list (nat * Label).
Definition place (vi : nat) (l : list Label) : Writes := combine (seq vi (length l)) l.
(** PetscSolver2DHandler.cpp:1157-1263, PetscSolver3DHandler.cpp:1281-1401: the points of one column with a ghost on both sides; only
    the ones of the process advance [valIndex] and are given values. *)
Fixpoint tempColumn (star : list Pt) (m : Mesh) (dof : nat) (xs : Z) (xm : nat) (vi : nat) (pts : list Pt) : Writes * nat :=
  match pts with
  | [] => ([], vi)
  | p :: r =>
      let owned := (xs <=? ptx p) && (ptx p <? xs + Z.of_nat xm) in
      let vi' := if owned then (vi + length star)%nat else vi in
      let block := place vi (starAt star p (dof, dof)) in
      let here := (if (ptx p =? surf m (pty p, ptz p)) && owned then block else []) ++
                  (if emptyT m p then [] else if owned then block else []) in
      let rest := tempColumn star m dof xs xm vi' r in
      (here ++ fst rest, snd rest)
  end.
Fixpoint tempColumns (star : list Pt) (m : Mesh) (dof : nat) (xs : Z) (xm : nat) (vi : nat) (cols : list (Z * Z)) : Writes * nat :=
  match cols with
  | [] => ([], vi)
  | yz :: r =>
      let a := tempColumn star m dof xs xm vi (column (xs - 1) (xm + 2) yz) in
      let b := tempColumns star m dof xs xm (snd a) r in
      (fst a ++ fst b, snd b)
  end.
(** PetscSolver2DHandler.cpp:1371-1408, PetscSolver3DHandler.cpp:1521-1562: the sub-views of a point, each with its length and the entries
    of its first values, at the position [q].  (A grain boundary across x leaves its two values at
    zero on the sink, StencilModel.advGBval; this is a write of zero here.) *)
Definition views (star : list Pt) (hs : list Handler) (difs nw : list (nat * nat)) (q : R * R * R) (p : Pt)
  : list (nat * list Label) :=
  (length star * length difs, flat_map (starAt star p) difs)%nat ::
  map (fun h => (2 * nAdvec hs, flat_map (advPair h q p) (clusters h))%nat) hs ++
  [(length nw, map (fun comp => entry p comp p) nw)].
Fixpoint placeAll (vi : nat) (vs : list (nat * list Label)) : Writes :=
  match vs with
  | [] => []
  | (n, l) :: r => place vi l ++ placeAll (vi + n) r
  end.
(** PetscSolver2DHandler.cpp:1341-1343, 1350-1352, PetscSolver3DHandler.cpp:1489-1491, 1500-1502 *)
Definition blockSize (star : list Pt) (hs : list Handler) (difs nw : list (nat * nat)) : nat :=
  (length star * length difs + 2 * nAdvec hs * length hs + length nw)%nat.
(** PetscSolver2DHandler.cpp:1284-1410, PetscSolver3DHandler.cpp:1426-1565: [skip] is [empty2] or [empty3]; [colLoc]: location of the surface
    of a column (2D 1332-1333, 3D 1479-1480); [hy], [hz]: the steps (2D 1328, 3D 1474-1475) *)
Fixpoint mainPoints (star : list Pt) (skip : Pt -> bool) (xpos : Z -> R) (hy hz : R) (hs : list Handler)
  (difs nw : list (nat * nat)) (colLoc : Z * Z -> R) (vi : nat) (pts : list Pt) : Writes :=
  match pts with
  | [] => []
  | p :: r =>
      let hs' := located (colLoc (pty p, ptz p)) hs in
      if skip p then mainPoints star skip xpos hy hz hs difs nw colLoc (vi + blockSize star hs difs nw) r
      else
        let vs := views star hs' difs nw (xpos (ptx p), IZR (pty p) * hy, IZR (ptz p) * hz)%R p in
        placeAll vi vs ++
        mainPoints star skip xpos hy hz hs difs nw colLoc (fold_left (fun v nl => v + fst nl)%nat vs vi) r
  end.
(** The whole computeJacobian on a process with the columns [cols]. *)
Definition writes (star : list Pt) (m : Mesh) (skip : Pt -> bool) (xpos : Z -> R) (hy hz : R) (hs : list Handler)
  (difs nw : list (nat * nat)) (dof : nat) (colLoc : Z * Z -> R) (xs : Z) (xm : nat) (cols : list (Z * Z)) : Writes :=
  let t := tempColumns star m dof xs xm 0 cols in
  fst t ++ mainPoints star skip xpos hy hz hs difs nw colLoc (snd t) (flat_map (column xs xm) cols).

(** ** Assembly *)
(** MatSetValuesCOO with ADD_VALUES (PetscSolver2DHandler.cpp:1412, PetscSolver3DHandler.cpp:1567): a write carries its value, the entry is the
    sum of the array over the positions announced for it. *)
Definition labEq (a b : Label) : bool :=
  pteq (fst (fst a)) (fst (fst b)) && Nat.eqb (snd (fst a)) (snd (fst b)) &&
  pteq (fst (snd a)) (fst (snd b)) && Nat.eqb (snd (snd a)) (snd (snd b)).
Definition cell (ws : list ((nat * Label) * R)) (k : nat) : R :=
  Rsum ws (fun w => if Nat.eqb (fst (fst w)) k then snd w else 0%R).
Definition assembled (cs : list (option Label)) (ws : list ((nat * Label) * R)) (e : Label) : R :=
  Rsum (seq 0 (length cs)) (fun k =>
    match nth k cs None with Some l => if labEq l e then cell ws k else 0%R | None => 0%R end).

(** ** No dimension *)
(** ReactionNetwork.tpp:1648-1658 and 1661-1672 getDiagonalFill: every row has its columns in the order of the
    compressed rows; PetscSolverHandler.cpp:84-106 convertToRowColPairList and 57-82
    convertToCoordinateListPair: the rows one after the other. *)
Definition rowColPairs (rows : list (list nat)) : list (nat * nat) :=
  flat_map (fun ir => map (fun j => (fst ir, j)) (snd ir)) (combine (seq 0 (length rows)) rows).
(** PetscSolver0DHandler.cpp:72-76 *)
Definition coords0 (rows : list (list nat)) : list (nat * nat) :=
  rowColPairs rows ++ [(length rows, length rows)].
