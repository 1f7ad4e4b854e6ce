(** The guard on the largest cluster (option -largest_conc): which cluster is watched and when a run is ended. *)
From Coq Require Import ZArith Reals List.
Import ListNotations.
Open Scope R_scope.

(** The upper limit point of the region of a cluster, one past its last composition, by species. *)
Inductive sp := SHe | SD | ST | SXe | SV | SI | SVoid | SFaulted | SPerfect | SFrank | SBasal.
Definition point := sp -> nat.
(** PSIReactionNetwork.tpp:372-378 (with deuterium and tritium if they are species of the network), NEReactionNetwork.cpp:70, FeReactionNetwork.cpp:70,
    AlloyReactionNetwork.cpp:71-72, ZrReactionNetwork.cpp:73 *)
Inductive network := PSI (deuterium tritium : bool) | NE | Fe | Alloy | Zr.
Definition size (n : network) (hi : point) : nat :=
  match n with
  | PSI d t => hi SHe + hi SV + (if d then hi SD else 0) + (if t then hi ST else 0)
  | NE => hi SXe + hi SV
  | Fe => hi SHe + hi SV
  | Alloy => hi SVoid + hi SFrank + hi SFaulted
  | Zr => hi SV + hi SI + hi SBasal
  end.
(** Kokkos::MaxLoc: value and location; without any cluster the location is none. A thread goes through its share of the clusters, then the results are joined. *)
Definition loc := (nat * option nat)%type.
Definition one (sz : nat -> nat) (update : loc) (i : nat) : loc := if (fst update <? sz i)%nat then (sz i, Some i) else update.
Definition join (dest src : loc) : loc := if (fst dest <? fst src)%nat then src else dest.
Definition checkLargestClusterId (n : network) (hi : nat -> point) (threads : list (list nat)) : option nat :=
  snd (fold_left join (map (fun l => fold_left (one (fun i => size n (hi i))) l (0%nat, None)) threads) (0%nat, None)).

(** PetscMonitor0D.cpp:314-332, PetscMonitor1D.cpp:718-731, PetscMonitor2D.cpp:543-559, PetscMonitor3D.cpp:592-610: whether a process throws; [box]: its grid points *)
Definition monitorLargest {P : Type} (conc : P -> nat -> R) (box : list P) (largestClusterId : nat) (threshold : R) : bool :=
  existsb (fun p => if Rlt_dec threshold (conc p largestClusterId) then true else false) box.
Definition interval (s m : nat) : list nat := seq s m.
Definition box1 (xs xm : nat) : list nat := interval xs xm.
Definition box2 (xs xm ys ym : nat) : list (nat * nat) := flat_map (fun j => map (fun i => (j, i)) (interval xs xm)) (interval ys ym).
Definition box3 (xs xm ys ym zs zm : nat) : list (nat * nat * nat) := flat_map (fun k => map (fun p => (k, fst p, snd p)) (box2 xs xm ys ym)) (interval zs zm).
(** PetscMonitor.h:96, PetscMonitor0D.cpp:238-240 (and the other dimensions alike): PetscOptionsGetReal leaves the variable when the option has no value. *)
Definition thresholdOf (given : option R) : R := match given with Some x => x | None => / 1000000000000 end.
