(** Model of the moving surface in two and three dimensions: PetscMonitor2D.cpp eventFunction
    (1347-1496) and postEventFunction (1741-1884), PetscMonitor3D.cpp eventFunction (1453-1551)
    and postEventFunction (1723-1880), what happens at a restart (PetscSolver.cpp:339-411 solve,
    PetscSolver2DHandler.cpp:23-75 and 281-370, PetscSolver3DHandler.cpp the same) and what the
    monitors hand over to their successors (PetscMonitor1D.h:22-56, PetscMonitor2D.h:23-46,
    PetscMonitor3D.h:22-44).

    A column is a point of the plane (y, or y and z); [area] is hy, or hy * hz. The surface is
    free (left offset 1; otherwise the vectors _nSurf are not created). Not modelled: bursting,
    temperatures, the file surface.txt, the messages between the processes (every process
    takes the same decisions from the same counts). *)
From Verif Require Export GridModel.
Set Implicit Arguments.
Open Scope R_scope.
Open Scope bool_scope.

(** _nSurf[specIdI()][yj] and the surface position of a column *)
Record column := Column { count : R; pos : nat }.

Section GRID.
Variable g : list R.
Variable area : R.

(** ** Before the event *)
(** PetscMonitor2D.cpp:1365-1375: [flux] is _previousSurfFlux of the interstitials *)
Definition charge2D (yield amplitude hy dt flux n : R) : R :=
  n + flux * dt - yield * amplitude * dt * hy.
(** PetscMonitor3D.cpp:1473-1486 *)
Definition charge3D (yield amplitude dt flux n : R) : R :=
  n + flux * dt - yield * amplitude * dt.
(** Both: xi = surfacePos + 1. Cells above and below the surface. *)
Definition above (s : nat) : R := tungstenDensity * (g.[s + 1] - g.[s]) * area.
Definition below (s : nat) : R := tungstenDensity * (g.[s + 2] - g.[s + 1]) * area.
(** PetscMonitor2D.cpp:1476-1494, 3D 1529-1549: the column makes the event happen *)
Definition fires (c : column) : Prop := count c > above (pos c) \/ count c < - below (pos c) * 0.9.

(** PetscMonitor2D.cpp:1422, 1447: for (currentX = xi; currentX >= xi; --currentX), where xi is the
    surface position; a position of 0 is not reached (the neighbour is higher). *)
Fixpoint counted (xi x : nat) : list nat :=
  if (xi <=? x)%nat then x :: match x with O => [] | S x' => counted xi x' end else [].
(** lines 1419-1465, one of the two sides: [q x] is what updateOutgoingDiffFluxes gives for the
    interstitials of point [x] of the neighbour column with factor 1 *)
Definition sideFlux (hy : R) (q : nat -> R) (s sNeighbour : nat) : R :=
  if (sNeighbour <? s)%nat
  then fold_left (fun f x => f + (g.[x + 1] - g.[x - 1]) / 2 / hy * q x) (counted s s) 0
  else 0.

(** ** The event *)
(** PetscMonitor2D.cpp:1770-1782. The condition surfacePos + 1 - 2 >= 0 is always true of unsigned
    numbers. At position 0 the position wraps around and grid[4294967295] is read: [None]. *)
Fixpoint rise (s : nat) (n : R) (k : nat) : option (R * nat * nat) :=
  if Rgt_dec n (above s) then
    match s with
    | O => None
    | S s' => rise s' (n - above s) (S k)
    end
  else Some (n, s, k).
(** lines 1835-1859; [fuel]: the points left, then grid[xi + 1] is outside of the vector *)
Fixpoint sink (fuel s : nat) (n : R) : option (R * nat) :=
  if Rlt_dec n 0 then
    match fuel with
    | O => None
    | S f => sink f (S s) (n + below s)
    end
  else Some (n, s).

(** Concentrations of a column: point, component. *)
Definition conc := nat -> nat -> R.
(** lines 1795-1830: points surfacePos + nGridPoints, ..., surfacePos *)
Definition refill (initial : list (nat * R)) (s k : nat) (c : conc) : conc := fun x l =>
  if (s <=? x)%nat && (x <=? s + k)%nat then
    if (x =? s)%nat then 0
    else fold_left (fun v p => if (fst p =? l)%nat then snd p else v) initial 0
  else c x l.
(** lines 1840-1850 *)
Definition erase (s s' : nat) (c : conc) : conc := fun x l =>
  if (s + 1 <=? x)%nat && (x <? s' + 1)%nat then 0 else c x l.

Inductive outcome := Stays | Moves (c : column) (f : conc) | Restarts (c : column).
(** lines 1756-1869, one column *)
Definition move (initial : list (nat * R)) (c : column) (f : conc) : option outcome :=
  if Rgt_dec (count c) (above (pos c)) then
    match rise (pos c) (count c) 0 with
    | None => None
    | Some (n, s, k) =>
        if (s + 1 <? 2)%nat then Some (Restarts (Column n (pos c)))  (* returns before setSurfacePosition *)
        else Some (Moves (Column n s) (refill initial s k f))
    end
  else if Rlt_dec (count c) (- above (pos c) / 10) then
    match sink (length g - 2 - pos c) (pos c) (count c) with
    | None => None
    | Some (n, s) => Some (Moves (Column n s) (erase (pos c) s f))
    end
  else Some Stays.

(** lines 1756-1869: the columns in order; [true]: left with TS_CONVERGED_USER *)
Fixpoint moveAll (initial : list (nat * R)) (cs : list (column * conc)) : option (list (column * conc) * bool) :=
  match cs with
  | [] => Some ([], false)
  | cf :: r =>
      match move initial (fst cf) (snd cf) with
      | None => None
      | Some (Restarts c) => Some ((c, snd cf) :: r, true)
      | Some Stays => match moveAll initial r with Some (r', b) => Some (cf :: r', b) | None => None end
      | Some (Moves c f) => match moveAll initial r with Some (r', b) => Some ((c, f) :: r', b) | None => None end
      end
  end.
(** lines 1870-1884: if (minSurf > 0) return with TS_CONVERGED_USER *)
Definition lowest (cs : list (column * conc)) : option nat :=
  match cs with
  | [] => None
  | cf :: r => Some (fold_left (fun m cf => if (pos (fst cf) <? m)%nat then pos (fst cf) else m) (cf :: r) (pos (fst cf)))
  end.
Definition event2D (initial : list (nat * R)) (cs : list (column * conc)) : option (list (column * conc) * bool) :=
  match moveAll initial cs with
  | None => None
  | Some (cs', true) => Some (cs', true)
  | Some (cs', false) => match lowest cs' with None => None | Some m => Some (cs', (0 <? m)%nat) end
  end.
(** PetscMonitor3D.cpp:1865: getSurfacePosition(0) takes its default second index badId =
    4294967295 (config.h.in:23, 31-41) in the row of yj = 0, which has nZ elements; the rest is
    the text of 2D. [None]: outside of the vector. *)
Definition event3D (nZ : N) (initial : list (nat * R)) (cs : list (column * conc)) : option (list (column * conc) * bool) :=
  match moveAll initial cs with
  | None => None
  | Some (cs', true) => Some (cs', true)
  | Some (cs', false) =>
      if N.ltb 4294967295 nZ
      then match lowest cs' with None => None | Some m => Some (cs', (0 <? m)%nat) end
      else None
  end.

(** ** After TS_CONVERGED_USER *)
(** setSurfaceOffset does nothing (PetscSolver2DHandler.h:138, PetscSolver3DHandler.h:138), so
    surfaceOffset is still 0: the grid is generated as at the start, the positions are kept
    (push_back on a vector which is not empty), the concentrations are those of the start
    (PetscSolver2DHandler.cpp:344-360); [ro]: right offset. *)
Definition start (initial : list (nat * R)) (ro s : nat) : conc := fun x l =>
  if (s + 1 <=? x)%nat && (x <? length g - 2 - ro)%nat
  then fold_left (fun v p => if (fst p =? l)%nat then snd p else v) initial 0
  else 0.
Definition continue (initial : list (nat * R)) (ro : nat) (r : list (column * conc) * bool) : list (column * conc) :=
  if snd r then map (fun cf => (fst cf, start initial ro (pos (fst cf)))) (fst r) else fst r.
(** One event of the simulation. *)
Definition surfaceEvent (initial : list (nat * R)) (ro : nat) (cs : list (column * conc)) : option (list (column * conc)) :=
  match event2D initial cs with None => None | Some r => Some (continue initial ro r) end.
Fixpoint events (initial : list (nat * R)) (ro : nat) (between : list (list (column * conc) -> list (column * conc)))
    (cs : list (column * conc)) : option (list (column * conc)) :=
  match between with
  | [] => Some cs
  | b :: r => match surfaceEvent initial ro (b cs) with None => None | Some cs' => events initial ro r cs' end
  end.
End GRID.

(** ** What is handed over: keepFlux and setFlux. [A]: the content of one of the four vectors.
    The solver keeps one list for the whole run (PetscSolver.h:57-60). *)
Section KEEP.
Variable A : Type.
(** PetscMonitor1D.h:23-44, PetscMonitor2D.h:24-35: push_back; 1D 46-56, 2D 37-46: element 0 *)
Definition keep12 (kept : list A) (mine : A) : list A := kept ++ [mine].
Definition set12 (kept : list A) : option A := nth_error kept 0.
(** PetscMonitor3D.h:22-44: the vectors are assigned *)
Definition keep3 (kept : option A) (mine : A) : option A := Some mine.
Definition set3 (kept : option A) : option A := kept.
(** A run: during each part the monitor changes its counts, at its end they are handed over
    (PetscSolver.cpp:349-385 and 276-277). *)
Fixpoint run12 (parts : list (A -> A)) (mine : A) (kept : list A) : option A :=
  match parts with
  | [] => Some mine
  | f :: r => let kept' := keep12 kept (f mine) in
              match set12 kept' with Some m => run12 r m kept' | None => None end
  end.
Fixpoint run3 (parts : list (A -> A)) (mine : A) (kept : option A) : option A :=
  match parts with
  | [] => Some mine
  | f :: r => let kept' := keep3 kept (f mine) in
              match set3 kept' with Some m => run3 r m kept' | None => None end
  end.
(** The counts of bursting are not handed over: a new monitor starts with [zero]
    (PetscMonitor.h; PetscSolver.cpp:239-272). *)
Fixpoint runBurst (zero : A) (parts : list (A -> A)) (mine : A) : A :=
  match parts with [] => mine | f :: r => runBurst zero r zero end.
End KEEP.
