(** Model of the checkpoints written during a run and of the restart from
    them: when a checkpoint is written, the counters it holds, and the
    concentrations and surface positions in two and three dimensions.

    Sources:
      /repo/xolotl/solver/src/monitor/PetscMonitor.cpp      222-318
      /repo/xolotl/solver/src/monitor/PetscMonitor1D.cpp    395-470, 646-692,
                                                            904-969
      /repo/xolotl/solver/src/monitor/PetscMonitor2D.cpp    566-683
      /repo/xolotl/solver/src/monitor/PetscMonitor3D.cpp    616-743
      /repo/xolotl/core/src/flux/FluxHandler.cpp            233-251
      /repo/xolotl/solver/src/handler/PetscSolver2DHandler.cpp 23-72, 298-412
      /repo/xolotl/solver/src/handler/PetscSolver3DHandler.cpp 23-90, 425-455
      /repo/xolotl/solver/src/PetscSolver.cpp               225-237
      /repo/xolotl/io/src/XFile.cpp                         613-687, 855-893,
                                                            985-1126
    Simplifications: doubles are real numbers (the index column of a data set
    is a natural number); the HDF5 library returns what was written under the
    same name. *)
From Coq Require Import Reals ZArith List Bool Lia Lra.
Import ListNotations.
Open Scope R_scope.
Set Implicit Arguments.

(** *** When a checkpoint is written *)

(** The cast of a double to PetscInt: towards zero
    (PetscMonitor.cpp:233, 239; PetscMonitor1D.cpp:665).  The casts of values
    outside of the range of PetscInt are not modelled. *)
Definition trunc (x : R) : Z :=
  if Rle_dec 0 x then Int_part x else (- Int_part (- x))%Z.

(** PetscMonitor.cpp:222-241 startStop: the step is skipped when the counter
    of strides is not passed and the time is positive; a step which is written
    moves the counter by one when it is passed.  [prev] is _hdf5Previous; the
    result tells whether the step is written and the new counter. *)
Definition startStop (stride : R) (prev : Z) (previousTime time : R) : bool * Z :=
  let dt := time - previousTime in
  let q := trunc ((time + dt / 10) / stride) in
  if (q <=? prev)%Z && (if Rlt_dec 0 time then true else false)
  then (false, prev)
  else (true, if (prev <? q)%Z then (prev + 1)%Z else prev).

(** The monitors of consecutive steps; monitorTime (PetscMonitor.cpp:280-289)
    runs after startStop and moves the previous time. *)
Fixpoint writes (stride : R) (prev : Z) (previousTime : R) (times : list R) : list bool :=
  match times with
  | [] => []
  | t :: r =>
      let (w, prev') := startStop stride prev previousTime t in
      w :: writes stride prev' t r
  end.

(** PetscMonitor1D.cpp:656-666 (and 2D, 3D alike): the counter at the start of
    a run continued from a file, first solver loop; every other monitor starts
    from 0, among them the one made for each later solver loop. *)
Definition firstCounter (stride : R) (restart : option R) (loop : nat) : Z :=
  match restart, loop with
  | Some previousTime, O => trunc (previousTime / stride)
  | _, _ => 0%Z
  end.

(** *** The counters *)

(** What the monitors carry from step to step. *)
Record Counters := mkCounters
  { cTime : R      (* previousTime of the solver handler *)
  ; cFluence : R   (* fluence[0] of the flux handler *)
  ; cLost : R      (* _nSurf of one species (or _nBulk) *)
  ; cFlux : R }.   (* _previousSurfFlux of that species (or _previousBulkFlux) *)

(** What a step brings: its time, the amplitude of the incident flux, and the
    outgoing flux computed from the concentrations of this step. *)
Record Step := mkStep { sTime : R; sAmplitude : R; sOut : R }.

(** The attributes of a time step group which are read back. *)
Record Saved := mkSaved
  { vTime : R; vPrevious : R; vFluence : R; vLost : R; vFlux : R }.

(** The monitors of one step in the order in which they are registered:
    computeFluence (PetscMonitor.cpp:292-318, with FluxHandler.cpp:233-237;
    nothing at step 0 of a restart), the retention monitor
    (PetscMonitor1D.cpp:904-969: the amount grows by the flux of the step
    before, except at step 0, and the flux is then replaced), startStop (the
    values it would save), monitorTime. *)
Definition monitors (restarted : bool) (timestep : nat) (x : Step) (m : Counters)
  : Counters * Saved :=
  let dt := sTime x - cTime m in
  let fluence :=
    if (timestep =? 0)%nat && restarted then cFluence m
    else cFluence m + sAmplitude x * dt in
  let lost := if (timestep =? 0)%nat then cLost m else cLost m + cFlux m * dt in
  (mkCounters (sTime x) fluence lost (sOut x),
   mkSaved (sTime x) (cTime m) fluence lost (sOut x)).

Fixpoint run (restarted : bool) (timestep : nat) (xs : list Step) (m : Counters)
  : Counters :=
  match xs with
  | [] => m
  | x :: r => run restarted (S timestep) r (fst (monitors restarted timestep x m))
  end.

(** PetscMonitor1D.cpp:404-462: the counters read from the last time step
    group in the first solver loop. *)
Definition resume (v : Saved) : Counters :=
  mkCounters (vPrevious v) (vFluence v) (vLost v) (vFlux v).

(** The xenon which has reached the grain boundaries (nXeGB,
    SolverHandler.cpp:57; PetscMonitor1D.cpp:1146-1375): grown by the flux of
    the step before; it is not among the saved values and a new handler starts
    from 0. *)
Definition xenonStep (previousTime : R) (x : Step) (nf : R * R) : R * R :=
  (fst nf + snd nf * (sTime x - previousTime), sOut x).

Fixpoint xenonRun (previousTime : R) (xs : list Step) (nf : R * R) : R * R :=
  match xs with
  | [] => nf
  | x :: r => xenonRun (sTime x) r (xenonStep previousTime x nf)
  end.

(** *** The concentrations in two and three dimensions *)

(** The locally owned part of the grid of one process (the third direction has
    one point in two dimensions). *)
Record Box := mkBox
  { bxs : nat; bxm : nat; bys : nat; bym : nat; bzs : nat; bzm : nat }.

Definition Point := (nat * nat * nat)%type.

Definition owns (b : Box) (p : Point) : bool :=
  let '(i, j, k) := p in
  (bxs b <=? i)%nat && (i <? bxs b + bxm b)%nat &&
  (bys b <=? j)%nat && (j <? bys b + bym b)%nat &&
  (bzs b <=? k)%nat && (k <? bzs b + bzm b)%nat.

(** The data set of one grid point: index and value. *)
Definition Rows := list (nat * R).

(** PetscMonitor2D.cpp:636-645, 3D 692-700: the entries whose magnitude is
    above 1e-16, the temperature being the one of index dof. *)
Definition pack (dof : nat) (c : nat -> R) : Rows :=
  filter (fun r => if Rlt_dec (1 / 10 ^ 16) (Rabs (snd r)) then true else false)
         (map (fun l => (l, c l)) (seq 0 (dof + 1))).

(** PetscMonitor2D.cpp:619-652: concSize of one process, -1 when it does not
    own the point. *)
Definition localSize (dof : nat) (c : Point -> nat -> R) (p : Point) (b : Box) : Z :=
  if owns b p then Z.of_nat (length (pack dof (c p))) else (-1)%Z.

(** PetscMonitor2D.cpp:654-656: the sum over the processes of the rank where
    the point is owned and of 0 elsewhere. *)
Fixpoint rankSum (rank : nat) (procs : list Box) (p : Point) : nat :=
  match procs with
  | [] => 0%nat
  | b :: r => ((if owns b p then rank else 0) + rankSum (S rank) r p)%nat
  end.

(** PetscMonitor2D.cpp:654-668 with XFile.cpp:855-893: the size of the process
    designated by the sum is broadcast, nothing is written when it is 0;
    otherwise the processes which own the point write as many rows.  [None]:
    the designated process does not exist, the size is negative, or not exactly
    one process writes. *)
Definition writePoint (dof : nat) (procs : list Box) (c : Point -> nat -> R) (p : Point)
  : option (option Rows) :=
  match nth_error procs (rankSum 0 procs p) with
  | None => None
  | Some b =>
      let size := localSize dof c p b in
      if (size =? 0)%Z then Some None
      else if (size <? 0)%Z then None
      else match filter (fun b' => owns b' p) procs with
           | [_] => Some (Some (firstn (Z.to_nat size) (pack dof (c p))))
           | _ => None
           end
  end.

Definition upd (A : Type) (f : nat -> A) (i : nat) (v : A) : nat -> A :=
  fun x => if (x =? i)%nat then v else f x.

(** PetscSolver2DHandler.cpp:342-349, 377-388, 3D 439-451: the point starts
    with zeros and the temperature of the handler, the rows of the data set are
    assigned, the temperature of the point is the value of the last row.
    [None]: the point has no data set, concVector.at throws. *)
Definition readPoint (dof : nat) (temp0 : R) (d : option Rows)
  : option ((nat -> R) * R) :=
  match d with
  | None => None
  | Some rows =>
      match rev rows with
      | [] => None
      | last :: _ =>
          Some (fold_left (fun f r => upd f (fst r) (snd r)) rows
                  (fun l => if (l =? dof)%nat then temp0 else 0),
                snd last)
      end
  end.

(** PetscSolver2DHandler.cpp:369-392, 3D 431-453: the temperatures by depth of
    one process; the loops run over k, then j, then i and every owned point
    assigns the entry of its depth (i - localXS + 1). *)
Definition readTemperatures (b : Box) (temp : Point -> R) (base : nat -> R) : nat -> R :=
  fold_left
    (fun f k =>
       fold_left
         (fun f j =>
            fold_left (fun f i => upd f (i - bxs b + 1)%nat (temp (i, j, k)))
                      (seq (bxs b) (bxm b)) f)
         (seq (bys b) (bym b)) f)
    (seq (bzs b) (bzm b)) base.

(** *** Matrices of surface positions and of amounts in three dimensions *)

(** XFile.cpp:613-640 writeSurface3D (the amounts alike): the extent is the
    number of rows and the length of the first row; the rows are laid out one
    after the other.  [None]: there is no row, or a row is shorter than the
    first one. *)
Definition writeMatrix (A : Type) (m : list (list A)) : option (nat * nat * list A) :=
  match m with
  | [] => None
  | r0 :: _ =>
      if forallb (fun r => (length r0 <=? length r)%nat) m
      then Some (length m, length r0, concat (map (firstn (length r0)) m))
      else None
  end.

(** XFile.cpp:992-1024 readSurface3D, 1043-1077 readData3D. *)
Definition readMatrix (A : Type) (d : nat * nat * list A) : list (list A) :=
  let '(n0, n1, l) := d in
  map (fun i => firstn n1 (skipn (i * n1) l)) (seq 0 n0).

(** *** The start of a solver loop in two and three dimensions *)

(** What a solver loop starts from: the positions of the surface and the
    concentrations. *)
Record Loop := mkLoop { lPos : list Z; lConc : Point -> nat -> R }.

(** PetscSolver2DHandler.cpp:52-72: as many zeros as columns are appended, then
    the positions of the file replace the first ones; 298-395: as surfaceOffset
    is 0 in every loop in two and three dimensions (see EventModel.v), the
    concentrations are those of the file when there is one, the initial ones
    otherwise.  Both are done in every loop. *)
Definition startLoop (nY : nat) (file : option Loop) (initial : Point -> nat -> R)
           (current : list Z) : Loop :=
  let pos := current ++ repeat 0%Z nY in
  match file with
  | None => mkLoop pos initial
  | Some f => mkLoop (lPos f ++ skipn (length (lPos f)) pos) (lConc f)
  end.

(** PetscSolver.cpp:225-237: the time is read from the file in the first loop
    only. *)
Definition startTime (loop : nat) (file : option R) (time : R) : R :=
  match loop, file with
  | O, Some t => t
  | _, _ => time
  end.

(** PetscSolver1DHandler.cpp:29-48, PetscSolver2DHandler.cpp:30-50,
    PetscSolver3DHandler.cpp:30-50: the grid of the first loop (surfaceOffset
    0).  [file] is [None] without a restart file, [Some None] with a file which
    holds no time step; the grid of the handler is then left as it is, empty at
    this point. *)
Definition startGrid (file : option (option (list R))) (generated : list R) : list R :=
  match file with
  | None => generated
  | Some None => []
  | Some (Some g) => g
  end.

(** The number of grid points, grid.size() - 2 on unsigned numbers; [None]: it
    wraps around. *)
Definition numPoints (grid : list R) : option nat :=
  if (length grid <? 2)%nat then None else Some (length grid - 2)%nat.
