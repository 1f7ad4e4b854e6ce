(** Model of the volume fraction of bubbles: ReactionNetwork::getTotalVolumeFraction (impl/ReactionNetwork.tpp:1548-1576) and the
    fraction which the monitors of xenon compute at every grid point and hand to the coupled code
    (PetscMonitor1D.cpp:1215-1234, PetscMonitor2D.cpp:1107-1124, PetscMonitor3D.cpp:1180-1201, SolverHandler.h:378-383,
    XolotlInterface.cpp:200-203), with the totals of TotalsModel. *)
From Verif Require Export TotalsModel.
Set Implicit Arguments.
Open Scope R_scope.

(** impl/ReactionNetwork.tpp:1548-1576 *)
Definition getTotalVolumeFraction (cs : list tcl) (f : nat -> R) (s : nat) (minSize : Z) : R :=
  reduce cs (fun i c => Rsum (from minSize (axis c s)) (fun _ => f i * (radius c * radius c * radius c) * factorOf c s)) * (4.0 * PI / 3.0).
(** PetscMonitor1D.cpp:1215-1234 in one dimension, PetscMonitor2D.cpp:1107-1124 and PetscMonitor3D.cpp:1180-1201 in more; [ms]: the minimum size. *)
Definition handed (dim : nat) (cs : list tcl) (f : nat -> R) (vs : list nat) (xe : nat) (ms : Z) : R :=
  if (dim =? 1)%nat then
    getTotalsImpl cs f vs [(xe, 1); (xe, 1); (xe, 1); (xe, ms); (xe, ms); (xe, ms); (xe, ms)]%Z
      [QTotal; QAtom; QRadius; QTotal; QAtom; QRadius; QVolume] 6
  else
    getTotalsImpl cs f vs [(xe, 1); (xe, 1); (xe, 1); (xe, ms); (xe, ms); (xe, ms)]%Z
      [QTotal; QAtom; QRadius; QTotal; QRadius; QVolume] 5.
