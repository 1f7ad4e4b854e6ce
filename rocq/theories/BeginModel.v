(** Model of what happens to the files when a run begins:
    PetscMonitor.cpp:158-178 (constructor, checkForCreatingCheckpoint), 180-220 (writeNetwork),
    SolverHandler.cpp:718-722 (checkForRestart), the parts of the set-up of the monitors which
    open the file of the restart and create the checkpoint (PetscMonitor0D.cpp:73-87, 267-296,
    PetscMonitor1D.cpp:155-168, 664-686, PetscMonitor2D.cpp:491-513, PetscMonitor3D.cpp:539-562)
    and XFile.cpp:48-59, 74-118 with HDF5File.cpp:80-113.
    A file is its network group, if it has one, and its time steps. Names are compared as strings;
    [resolve] gives the file a name stands for. The set-up without -start_stop leaves the files
    alone. Only the first process copies the network; an exception is taken as the end of the run.
    HDF5 refuses to truncate a file which the same program has open. The check of the loop number
    is also assumed in no dimension, where there is one loop only. *)
From Coq Require Import List Bool Arith.
Import ListNotations.
Set Implicit Arguments.

Section BEGIN.
Variables (Name Id Network Step : Type).
Variable Name_dec : forall a b : Name, {a = b} + {a <> b}.
Variable Id_dec : forall a b : Id, {a = b} + {a <> b}.
Variable resolve : Name -> Id.

Record file := File { fnetwork : option Network; fsteps : list Step }.
Definition disk := Id -> option file.
Definition put (d : disk) (i : Id) (f : file) : disk := fun j => if Id_dec j i then Some f else d j.
Definition exists_ (d : disk) (i : Id) : bool := match d i with Some _ => true | None => false end.
(** XFile.cpp:48-53: a new file, or an existing one truncated, with an empty group of concentrations;
    [None]: the file is open. *)
Definition createFile (opened : option Id) (d : disk) (i : Id) : option disk :=
  match opened with
  | Some k => if Id_dec k i then None else Some (put d i (File None []))
  | None => Some (put d i (File None []))
  end.

(** The names given: of the file to restart from (the empty name is [None]) and of the checkpoint. *)
Variable restart : option Name.
Variable output : Name.
(** The network of the run. *)
Variable own : Network.

(** SolverHandler.cpp:718-722 *)
Definition checkForRestart (d : disk) : bool := match restart with Some r => exists_ d (resolve r) | None => false end.
(** PetscMonitor.cpp:158-168 *)
Definition construct (d : disk) : disk := if exists_ d (resolve output) then d else put d (resolve output) (File None []).
(** PetscMonitor.cpp:180-220; [None]: the source cannot be opened. *)
Definition writeNetwork (d : disk) : option disk :=
  match restart with
  | Some r =>
      match d (resolve r) with
      | None => None
      | Some src =>
          match fnetwork src, d (resolve output) with
          | Some n, Some target => Some (put d (resolve output) (File (Some n) (fsteps target)))
          | Some _, None => None
          | None, _ => Some d
          end
      end
  | None => match d (resolve output) with Some target => Some (put d (resolve output) (File (Some own) (fsteps target))) | None => None end
  end.
Definition sameName : bool := match restart with Some r => if Name_dec output r then true else false | None => false end.
(** PetscMonitor1D.cpp:155-168, 664-686: the file of the restart stays open until the end of the set-up. *)
Definition setup (loop : nat) (d : disk) : option disk :=
  let opened := if checkForRestart d then option_map resolve restart else None in
  if (negb sameName && (loop =? 0))%bool then
    match createFile opened d (resolve output) with None => None | Some d' => writeNetwork d' end
  else Some d.
(** PetscSolver.cpp:246-272: [None]: an exception. *)
Definition beginRun (loop : nat) (d : disk) : option disk := setup loop (construct d).
End BEGIN.
