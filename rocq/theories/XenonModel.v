(** Model of the xenon which goes to grain boundaries in one dimension:
    PetscMonitor1D::computeXenonRetention
    (solver/src/monitor/PetscMonitor1D.cpp:1146-1375), the vector of grain boundaries and
    the local amounts of the handler (solver/src/handler/SolverHandler.cpp:703-733,
    solver/include/xolotl/solver/handler/SolverHandler.h:331-363), and
    PetscSolver1DHandler::initGBLocation
    (solver/src/handler/PetscSolver1DHandler.cpp:586-641). *)
From Verif Require Export RetentionModel.
Set Implicit Arguments.
Open Scope R_scope.
Open Scope bool_scope.

(** SolverHandler.cpp:725-733: a process keeps the locations in its own part; for an empty
    part its first point counts as its own. The vector may hold a location twice. *)
Definition setLocation (p : proc) (gb : list nat) (i : nat) : list nat :=
  if (xs p <=? i)%nat && (i <? xs p + Nat.max (xm p) 1)%nat then gb ++ [i] else gb.
Definition setLocations (p : proc) (is_ : list nat) : list nat := fold_left (setLocation p) is_ [].

Section NET.
Variables (ns : nat) (origin : nat -> list Z).
Variable grid : nat -> R.
Variable nX : nat.
Variable dif : list nat.

(** PetscMonitor1D.cpp:1290-1333: the flux into the boundary at [g] from its two
    neighbours; hxLeft, hxRight and factor are those of the boundary, the coefficients are
    asked at xi + 1 - xs with xi the neighbour. The rate kept is that of species 0. *)
Definition gbRate (p : proc) (o : out) (g : nat) : R :=
  let D := fun l => stored p (oD o l) in
  diffFluxes ns origin (fun l => oC o l (g + 1)%nat) (factor grid nX g / hxRight grid nX g) D (g + 1 + 1 - xs p) dif
    (diffFluxes ns origin (fun l => oC o l (g - 1)%nat) (factor grid nX g / hxLeft grid g) D (g - 1 + 1 - xs p) dif
      (fun _ => 0)) 0%nat.

(** nXeGB of the handler of rank 0, and of localNE (one entry per grid point, here by its
    global index) the amount and the previous flux. *)
Record xenon := Xenon { nXe : R; amt : nat -> R; prv : nat -> R }.

(** Lines 1255-1264 on one process: the sum, and the local amounts. *)
Definition gbSum (p : proc) (gb : list nat) (prv : nat -> R) : R :=
  fold_left (fun a g => if owns p g then a + prv g * (grid (g + 1)%nat - grid g) else a) gb 0.
Definition gbAmounts (p : proc) (gb : list nat) (dt : R) (prv amt : nat -> R) : nat -> R :=
  fold_left (fun a g => if owns p g then upd a g (a g + prv g * dt) else a) gb amt.
(** Lines 1289-1335 *)
Definition gbFluxes (p : proc) (gb : list nat) (o : out) (prv : nat -> R) : nat -> R :=
  fold_left (fun f g => if owns p g then upd f g (gbRate p o g) else f) gb prv.

(** One call of the monitor; [parts]: the processes with their vectors. The entries of
    different processes are different points, so the processes may be taken in turn. *)
Definition xenonAt (parts : list (proc * list nat)) (o : out) (st : xenon) : xenon :=
  Xenon (nXe st + fold_left Rplus (map (fun pg => gbSum (fst pg) (snd pg) (prv st)) parts) 0 * odt o)
        (fold_left (fun a pg => gbAmounts (fst pg) (snd pg) (odt o) (prv st) a) parts (amt st))
        (fold_left (fun f pg => gbFluxes (fst pg) (snd pg) o f) parts (prv st)).
Fixpoint xenonRun (parts : list (proc * list nat)) (os : list out) (st : xenon) : xenon :=
  match os with [] => st | o :: r => xenonRun parts r (xenonAt parts o st) end.

(** Lines 1200-1226 and 1240-1244: the content, over all the points. *)
Definition xeContent (tot : nat -> R) (procs : list proc) : R :=
  fold_left Rplus (map (fun p =>
    fold_left (fun a xi => a + tot xi * (grid (xi + 1)%nat - grid xi)) (owned p) 0) procs) 0.

(** PetscSolver1DHandler.cpp:608-634: the xenon at a boundary goes to the local amount, the
    concentrations there to 0; [tot]: total xenon at a point, computed from [conc]. *)
Definition initGB (tot : (nat -> R) -> R) (parts : list (proc * list nat))
    (ca : (nat -> nat -> R) * (nat -> R)) : (nat -> nat -> R) * (nat -> R) :=
  fold_left (fun ca pg =>
    fold_left (fun ca g =>
      if owns (fst pg) g
      then (fun xi => if Nat.eqb xi g then (fun _ => 0) else fst ca xi, upd (snd ca) g (snd ca g + tot (fst ca g)))
      else ca) (snd pg) ca) parts ca.
End NET.
