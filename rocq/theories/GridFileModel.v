(** Model of what a time step of the file says about the grid: XFile.cpp:445-494 (writeGrid) with the defaults of XFile.h:154-156, XFile.cpp:940-968 (readSizes), 970-975 (readGrid), the calls of the monitors
    (PetscMonitor1D.cpp:766-768, PetscMonitor2D.cpp:604-607, PetscMonitor3D.cpp:660-663) and the use at a restart (PetscSolver1DHandler.cpp:29-48, PetscSolver2DHandler.cpp:30-50, PetscSolver3DHandler.cpp:30-50).
    The attributes are taken as written once; a time step is written once. Numbers of points are taken without the bound of int. *)
From Coq Require Import List Reals ZArith.
Import ListNotations.
Open Scope R_scope.

Record sizes := Sizes { nx : Z; hx : R; ny : Z; hy : R; nz : Z; hz : R }.
(** The attributes and the data set "grid", if it is there. *)
Record stepGroup := Step { attributes : sizes; gridSet : option (list R) }.
(** XFile.cpp:445-494; [None]: an element beyond the end of the grid is read. *)
Definition writeGrid (grid : list R) (ny_ : Z) (hy_ : R) (nz_ : Z) (hz_ : R) : option stepGroup :=
  let n := (Z.of_nat (length grid) - 2)%Z in
  let written h := Some (Step (Sizes n h ny_ hy_ nz_ hz_) (if (0 <? n)%Z then Some grid else None)) in
  match grid with
  | [] => written 0
  | g0 :: r => match r with [] => None | g1 :: _ => written (g1 - g0) end
  end.
(** A run: the dimension, the grid in depth, and numbers and steps of the other directions. *)
Record setup := Setup { dimension : nat; xGrid : list R; runNy : Z; runHy : R; runNz : Z; runHz : R }.
(** The monitors of one, two and three dimensions write the grid in depth only; nothing is written in no dimension. *)
Definition startStop (s : setup) : option (option stepGroup) :=
  match dimension s with
  | 1%nat | 2%nat | 3%nat => Some (writeGrid (xGrid s) 0 0 0 0)
  | _ => None
  end.
(** XFile.cpp:940-968, 970-975 *)
Definition readSizes (g : stepGroup) : sizes := attributes g.
Definition readGrid (g : stepGroup) : option (list R) := gridSet g.
(** The set-up of a restart in the first loop: the grid in depth is that of the file, the rest is asked for again. *)
Definition restarted (g : stepGroup) (asked : setup) : option setup :=
  match readGrid g with
  | Some l => Some (Setup (dimension asked) l (runNy asked) (runHy asked) (runNz asked) (runHz asked))
  | None => None
  end.
