(** Model of the masks which switch diffusion and surface advection off on the sinks of the
    advection handlers: initializeDiffusionGrid (core/src/diffusion/Diffusion1DHandler.cpp:27-80,
    Diffusion2DHandler.cpp:26-86, Diffusion3DHandler.cpp:30-96) and
    SurfaceAdvectionHandler::initializeAdvectionGrid (core/src/advection/SurfaceAdvectionHandler.cpp:30-108). *)
From Coq Require Export Reals List Lia Lra ZArith.
Export ListNotations.
Set Implicit Arguments.
Open Scope R_scope.

Definition position3 : Type := (R * R * R)%type.
(** getAdvectingClusters, isPointOnSink *)
Record sinkHandler := SinkHandler { advecting : list nat; isSink : position3 -> bool }.
(** Core of the loops: [rows] are the indices of the mask array (outermost first),
    [ids] the clusters of the mask (diffusingClusters or advectingClusters), the mask has
    one entry per position in [ids]. [None]: exception, or a write outside of the array. *)
Definition rowIndex : Type := list nat.
Definition rowEq (a b : rowIndex) : bool := if list_eq_dec Nat.eq_dec a b then true else false.
Definition mask := rowIndex -> nat -> bool.
Section LOOP.
Variable ids : list nat.
Variable valid : rowIndex -> bool.               (* the index lies in the array *)
Definition setMask (g : mask) (r : rowIndex) (n : nat) : mask :=
  fun r' e => if (rowEq r r' && Nat.eqb n e)%bool then false else g r' e.
(** The entry which is set is [( *it )], the cluster id found, not its position
    (Diffusion1DHandler.cpp:61-74, Diffusion2DHandler.cpp:68-82, Diffusion3DHandler.cpp:76-91,
    SurfaceAdvectionHandler.cpp:84-99). *)
Definition maskCluster (r : rowIndex) (g : option mask) (id : nat) : option mask :=
  match g with
  | None => None
  | Some g =>
      if existsb (Nat.eqb id) ids then
        if (valid r && Nat.ltb id (length ids))%bool then Some (setMask g r id) else None
      else None
  end.
Definition maskPoint (h : sinkHandler) (g : option mask) (p : rowIndex * position3) : option mask :=
  if isSink h (snd p) then fold_left (maskCluster (fst p)) (advecting h) g else g.
Definition maskHandler (pts : list (rowIndex * position3)) (g : option mask) (h : sinkHandler) : option mask :=
  fold_left (maskPoint h) pts g.
Definition maskAll (pts : list (rowIndex * position3)) (hs : list sinkHandler) : option mask :=
  fold_left (maskHandler pts) hs (Some (fun _ _ => true)).
End LOOP.

Section GRID.
Variable grid : nat -> R.
Variables (nx xs ny ys nz zs : nat) (hy hz : R).
(** The positions the solver uses at the global indices (PetscSolver1DHandler.cpp:1005,
    PetscSolver2DHandler.cpp:1009, 1082, PetscSolver3DHandler.cpp:1119-1120, 1203). *)
Definition xAt (i : nat) : R := (grid i + grid (i + 1)%nat) / 2 - grid 1%nat.
Definition yAt (j : Z) : R := hy * IZR j.
Definition zAt (k : Z) : R := hz * IZR k.
(** Loops over the other directions include one ghost point on each side; [j] is the
    loop variable plus 1. *)
Definition globalY (j : nat) : Z := (Z.of_nat j - 1 + Z.of_nat ys)%Z.
Definition globalZ (k : nat) : Z := (Z.of_nat k - 1 + Z.of_nat zs)%Z.
(** Diffusion1DHandler.cpp:51-54, 65 *)
Definition points1 : list (rowIndex * position3) := map (fun i => ([i], (xAt (i + xs), 0, 0))) (seq 0 nx).
(** Diffusion2DHandler.cpp:55-62, 73 *)
Definition points2 : list (rowIndex * position3) :=
  flat_map (fun j => map (fun i => ([j; i], (xAt (i + xs), yAt (globalY j), 0))) (seq 0 nx)) (seq 0 (ny + 2)).
(** Diffusion3DHandler.cpp:62-72, 83 *)
Definition points3 : list (rowIndex * position3) :=
  flat_map (fun k => flat_map (fun j => map (fun i => ([k; j; i], (xAt (i + xs), yAt (globalY j), zAt (globalZ k)))) (seq 0 nx)) (seq 0 (ny + 2))) (seq 0 (nz + 2)).
Definition valid1 (r : rowIndex) : bool := match r with [i] => Nat.ltb i (nx + 2) | _ => false end.
Definition valid2 (r : rowIndex) : bool := match r with [j; i] => (Nat.ltb j (ny + 2) && Nat.ltb i (nx + 2))%bool | _ => false end.
Definition valid3 (r : rowIndex) : bool :=
  match r with [k; j; i] => (Nat.ltb k (nz + 2) && Nat.ltb j (ny + 2) && Nat.ltb i (nx + 2))%bool | _ => false end.
Variable ids : list nat.
Definition diffusionGrid1 (hs : list sinkHandler) : option mask := maskAll ids valid1 points1 hs.
Definition diffusionGrid2 (hs : list sinkHandler) : option mask := maskAll ids valid2 points2 hs.
Definition diffusionGrid3 (hs : list sinkHandler) : option mask := maskAll ids valid3 points3 hs.
(** The entry read for the [n]-th cluster at a local point (its own concentration):
    Diffusion1DHandler.cpp:105, Diffusion2DHandler.cpp:121-122, Diffusion3DHandler.cpp:133-134,
    SurfaceAdvectionHandler.cpp:137-138. *)
Definition read1 (g : mask) (ix n : nat) : bool := g [ix + 1]%nat n.
Definition read2 (g : mask) (ix iy n : nat) : bool := g [iy + 1; ix + 1]%nat n.
Definition read3 (g : mask) (ix iy iz n : nat) : bool := g [iz + 1; iy + 1; ix + 1]%nat n.

(** SurfaceAdvectionHandler.cpp:63-99: the position without "- grid[1]", row i + 1, [nx]
    the local number of points in the test for the end of the grid. *)
Definition xAdv (i : nat) : R :=
  if Nat.eqb (i + xs) (nx + 1) then grid (i + xs)%nat + (grid (i + xs)%nat - grid (i + xs - 1)%nat) / 2
  else (grid (i + xs)%nat + grid (i + xs + 1)%nat) / 2.
Definition pointsAdv : list (rowIndex * position3) :=
  flat_map (fun k => flat_map (fun j => map (fun i => ([k; j; i + 1]%nat, (xAdv i, yAt (globalY j), zAt (globalZ k)))) (seq 0 (nx + 2))) (seq 0 (ny + 2))) (seq 0 (nz + 2)).
Definition advectionGrid (hs : list sinkHandler) : option mask := maskAll ids valid3 pointsAdv hs.
End GRID.
