(** Model of the temperature at which the rates of the network are evaluated:
    PetscSolver0DHandler.cpp (initializeConcentration 91-169, setConcVector
    213-247, updateConcentration 249-300, computeJacobian 302-346), the
    temperature loops of PetscSolver1DHandler.cpp (initializeConcentration
    299-383, setConcVector 723-743, updateConcentration 811-940,
    computeJacobian 1066-1195), of PetscSolver2DHandler.cpp
    (updateConcentration 817-958, computeJacobian 1152-1277) and of
    PetscSolver3DHandler.cpp (updateConcentration 899-1062, computeJacobian
    1276-1418), and PSIReactionNetwork.tpp:63-110 updateExtraClusterData with
    the tables of PSITrapMutation.h:15-137.
    ReactionNetwork.tpp:273-290 setTemperatures copies the vector of
    temperatures into the network; the rates which follow from it are the
    subject of RatesModel.  The temperature unknown itself (the heat equation)
    is in the other models.  Doubles are reals. *)
From Coq Require Import Reals List Lra ZArith.
From Verif Require Import TempGridModel.
From Verif Require RestartModel.
Import ListNotations.
Open Scope R_scope.

(** ** Temperature handlers *)

(** getTemperature after setTemperature: the temperature entry of the solution
    at the point, the grid fraction, the time. *)
Definition Handler := R -> R -> R -> R.

(** ConstantHandler.h:49-53 *)
Definition constantHandler (T : R) : Handler := fun _ _ _ => T.
(** GradientHandler.cpp:44-50 *)
Definition gradientHandler (surface bulk : R) : Handler :=
  fun _ x _ => surface + (bulk - surface) * x.
(** HeatEquationHandler.cpp:135-154 with MathUtils.h:79-83: the time is zero
    when it is below the machine epsilon, 2^-52. *)
Definition heatHandler (zeroFlux : bool) (bulk : R) : Handler :=
  fun c _ t => if zeroFlux then bulk
               else if Rlt_dec (Rabs (0 - t)) (1 / 2 ^ 52) then bulk else c.

(** ** One entry *)
(** PetscSolver0DHandler.cpp:278-279 and 323-324, PetscSolver1DHandler.cpp:871-872
    and 1142-1143, PetscSolver2DHandler.cpp:886-887 and 1231-1232,
    PetscSolver3DHandler.cpp:981-982 and 1365-1366: whether the
    stored temperature is replaced. *)
Definition differs (s t : R) : bool :=
  if Rlt_dec (1 / 10) (Rabs (s - t)) then true else false.
Definition accept (s t : R) : R := if differs s t then t else s.

(** ** No dimension *)
(** [temperature[0]] and the temperature of the network. *)
Record Zero := mkZero { zstored : R; znetwork : R }.

(** PetscSolver0DHandler.cpp:112-137: the entries of the only point *)
Definition initialEntries (h : Handler) (dof : nat) (initialConc : list (nat * R)) : nat -> R :=
  fold_left (fun f r => RestartModel.upd f (fst r) (snd r)) initialConc
    (fun l => if (l =? dof)%nat then h 0 0 0 else 0).

(** PetscSolver0DHandler.cpp:91-169, without concentrations in the file and with
    the rows of the last time step; [None]: the data set has no row, 155 reads
    before its beginning.  (In the fresh case an initial concentration given
    for the entry of the temperature would change it after 120.) *)
Definition initialize0 (h : Handler) (dof : nat) (initialConc : list (nat * R))
  (file : option RestartModel.Rows) : option ((nat -> R) * Zero) :=
  match file with
  | None => Some (initialEntries h dof initialConc, mkZero (h 0 0 0) (h 0 0 0))
  | Some rows =>
      match rev rows with
      | [] => None
      | last :: _ =>
          Some (fold_left (fun f r => RestartModel.upd f (fst r) (snd r)) rows
                  (fun l => if (l =? dof)%nat then h 0 0 0 else 0),
                mkZero (snd last) (snd last))
      end
  end.

(** PetscMonitor0D.cpp:366-372 startStopImpl: the rows which are written *)
Definition written0 (dof : nat) (c : nat -> R) : RestartModel.Rows := RestartModel.pack dof c.

(** PetscSolver0DHandler.cpp:194-199 getConcVector and 231-239 setConcVector *)
Definition getConc0 (dof : nat) (c : nat -> R) : list (nat * R) :=
  map (fun l => (l, c l)) (seq 0 (dof + 1)).
Definition setConc0 (dof : nat) (c : nat -> R) (v : list (nat * R)) : (nat -> R) * Zero :=
  let f := fold_left (fun f r => RestartModel.upd f (fst r) (snd r)) v c in
  (f, mkZero (f dof) (f dof)).

(** PetscSolver0DHandler.cpp:264-282 and 314-327 *)
Definition evaluate0 (h : Handler) (z : Zero) (at_ : R * R) : Zero :=
  let t := h (fst at_) 0 (snd at_) in
  if differs (zstored z) t then mkZero t t else z.

(** ** One dimension *)
(** A process with the temperatures of its network. *)
Definition Proc := (rank * list R)%type.

(** PetscSolver1DHandler.cpp:313-321, 856-864 and 1125-1135: the fraction of the entry
    [e] (the grid point [e - 1]) of a temperature vector with ghosts *)
Definition fraction (g : list R) (e : nat) : R :=
  match e with
  | O => (g.[0] - g.[1]) / (last g 0 - g.[1])
  | S xi => ((g.[xi] + g.[S xi]) / 2 - g.[1]) / (last g 0 - g.[1])
  end.

(** PetscSolver1DHandler.cpp:866-874 and 1137-1145 for the entries of one process;
    [seen] are the temperatures of the handler at its points with the ghosts *)
Definition store (s seen : list R) : list R :=
  map (fun p => accept (fst p) (snd p)) (combine s seen).
Definition changed (s seen : list R) : bool :=
  existsb (fun p => differs (fst p) (snd p)) (combine s seen).

(** interpolateTemperature on one process *)
Definition networkTemp (same : bool) (nX : nat) (g tg : list R) (rs : list rank) (r : rank) : list R :=
  if same then localTemp r
  else map (interpolated nX g tg (gathered nX rs)) (seq (localXS r) (localXM r + 2)).

(** PetscSolver1DHandler.cpp:368-383 and 733-743 *)
Definition setAll (same : bool) (nX : nat) (g tg : list R) (rs : list rank) : list Proc :=
  map (fun r => (r, networkTemp same nX g tg rs r)) rs.

(** PetscSolver1DHandler.cpp:811-940 and 1066-1195 on every process: the
    temperatures are stored, the reduction of 921-925 and 1176-1180 decides. *)
Definition evaluate1 (same : bool) (nX : nat) (g tg : list R) (ps : list Proc) (seen : list (list R))
  : list Proc :=
  let moved := map (fun q => let '((r, n), t) := q in
                 (Rank (localXS r) (localXM r) (store (localTemp r) t), n)) (combine ps seen) in
  if existsb (fun q => changed (localTemp (fst (fst q))) (snd q)) (combine ps seen)
  then setAll same nX g tg (map fst moved) else moved.

(** ** Two and three dimensions *)
(** PetscSolver2DHandler.cpp:817-958 and 1152-1277, PetscSolver3DHandler.cpp:899-1062
    and 1276-1418 on one process: the columns one after the other use the same
    temperatures; state: those and the ones of the network. *)
Definition evaluateColumn (q : list R * list R) (seen : list R) : list R * list R :=
  let s := store (fst q) seen in
  if changed (fst q) seen then (s, s) else (s, snd q).
Definition evaluateColumns (q : list R * list R) (columns : list (list R)) : list R * list R :=
  fold_left evaluateColumn columns q.

(** ** Depths given with the temperatures *)
(** PetscSolver1DHandler.cpp:928-939, 1184-1194, PetscSolver2DHandler.cpp:944-957, 1265-1277,
    PetscSolver3DHandler.cpp:1049-1062, 1405-1418 for the entry [i] of a process whose first point is
    [xs]; [surface] is the position of the surface (0 in one dimension). *)
Definition depthOf (g : list R) (nX xs surface i : nat) : R :=
  if (xs + i =? nX + 1)%nat then g.[xs + i] - g.[surface + 1]
  else (g.[xs + i + 1] + g.[xs + i]) / 2 - g.[surface + 1].
(** PSIReactionNetwork.tpp:72-79: the temperature given to the trap-mutation
    handler; [None]: the index is the size, gridTemps is read behind its end. *)
Fixpoint surfaceTemp (temps depths : list R) : option R :=
  match temps, depths with
  | t :: ts, d :: ds => if Rlt_dec (1 / 100) d then Some t else surfaceTemp ts ds
  | _, _ => None
  end.

(** ** Tables of the modified trap mutation *)
Inductive Face := W100 | W110 | W111 | W211.
(** PSITrapMutation.h:18-23, 49-54, 80-85, 111-116 getAllVSizes *)
Definition allVSizes (f : Face) : list (list Z) :=
  (match f with
  | W100 => [[]; [1]; [1]; [1]; [1; 2]; [2]; [2]]
  | W110 => [[]; [1]; [1]; [1]; [1]; [2; 1]; [2]]
  | W111 => [[1]; [1]; [1]; [1]; [1]; [1]; [2]]
  | W211 => [[1]; [1]; [1]; [2]; [2; 1]; [2]; [2; 3]]
  end)%Z.
(** PSITrapMutation.h:25-43, 56-74, 87-105, 118-136 updateData: depths, vacancies, desorbing
    size and fraction *)
Record Table := mkTable { tdepths : list R; tsizes : list Z; tdesorp : Z * R }.
Definition updateData (f : Face) (T : R) : Table :=
  let low := if Rlt_dec T 1066.5 then true else false in
  match f, low with
  | W100, true => mkTable [-0.1; 0.5; 0.6; 0.6; 0.8; 0.8; 0.8] [0; 1; 1; 1; 1; 2; 2]%Z (2%Z, 0.04)
  | W100, false => mkTable [-0.1; 0.5; 0.6; 0.8; 0.6; 0.8; 0.8] [0; 1; 1; 1; 2; 2; 2]%Z (2%Z, 0.19)
  | W110, true => mkTable [-0.1; 0.7; 0.9; 0.9; 0.9; 1.1; 1.1] [0; 1; 1; 1; 1; 2; 2]%Z (2%Z, 0.31)
  | W110, false => mkTable [-0.1; 0.7; 0.9; 0.9; 0.9; 1.1; 1.1] [0; 1; 1; 1; 1; 1; 2]%Z (2%Z, 0.32)
  | W111, true => mkTable [0.6; 0.8; 1.1; 1.1; 1.2; 1.3; 1.3] [1; 1; 1; 1; 1; 1; 2]%Z (1%Z, 0.61)
  | W111, false => mkTable [0.6; 0.8; 1.1; 1.1; 1.1; 1.1; 1.1] [1; 1; 1; 1; 1; 1; 2]%Z (1%Z, 0.35)
  | W211, true => mkTable [0.5; 0.8; 1.0; 1.0; 1.0; 1.3; 1.5] [1; 1; 1; 2; 2; 2; 2]%Z (1%Z, 0.64)
  | W211, false => mkTable [0.5; 0.8; 1.0; 1.0; 1.3; 1.3; 1.2] [1; 1; 1; 2; 1; 2; 3]%Z (1%Z, 0.59)
  end.
