(** Where bubbles burst in a run, and what a burst adds to the amounts released.

    Modelled code: PetscMonitor1D.cpp:1747-1822 (eventFunction), 1874-1913 (postEventFunction); PetscMonitor2D.cpp:1499-1581, 1626-1655, 1733-1739;
    PetscMonitor3D.cpp:1555-1646, 1697-1723; the widths of the content: PetscMonitor1D.cpp:864-893. updateBurstingConcs is BurstModel's. The random
    numbers of a process are any sequence. Left out: the skip of a step number which was already seen, what is written to bursting.txt and to the output. *)
From Coq Require Import Reals List Arith Bool.
From Verif Require Import BurstModel.
Import ListNotations.
Set Implicit Arguments.
Open Scope R_scope.

(** ** One point *)
(** std::cbrt *)
Definition cbrt (x : R) : R := if Rlt_dec 0 x then Rpower x (1 / 3) else if Rlt_dec x 0 then - Rpower (- x) (1 / 3) else 0.
(** PetscMonitor1D.cpp:1787-1793, 2D 1544-1551, 3D 1598-1606: [cell] is grid[xi + 1] - grid[xi], times hy, times hz. *)
Definition bubbleRadius (a ratio density cell : R) : R :=
  let nV := density * cell / ratio in
  let tlcCubed := a * a * a in
  (sqrt 3 / 4) * a + cbrt ((3 * tlcCubed * nV) / (8 * PI)) - cbrt ((3 * tlcCubed) / (8 * PI)).
(** 1D 1772 (surface 0), 2D 1533-1534, 3D 1591-1592 *)
Definition depth (grid : nat -> R) (surfacePos xi : nat) : R := (grid xi + grid (xi + 1)%nat) / 2 - grid (surfacePos + 1)%nat.
(** 1D 1753-1754, 1796-1799, 2D 1503-1504, 1554-1557, 3D 1559-1560, 1619-1623 *)
Definition prefactor (amplitude dt burstingFactor : R) : R := amplitude * dt * burstingFactor.
Definition prob (pre tau distance radius : R) : R := pre * (1 - (distance - radius) / distance) * Rmin 1 (exp (- (distance - tau) / (tau * 2))).

(** ** The loop of a process *)
Section SCAN.
Variable P : Type.
Variables (radius distance probability : P -> R).
(** The random numbers of the process, and whether the point is in its part of the grid. *)
Variable draw : nat -> R.
Variable own : P -> bool.
Definition gt (x y : R) : bool := if Rlt_dec y x then true else false.
(** 1D 1795-1806, 2D 1553-1562: a number is drawn at each point. [n]: numbers drawn before. *)
Fixpoint scan (pts : list P) (n : nat) : list P :=
  match pts with
  | [] => []
  | p :: q =>
    if own p then
      let test := draw n in
      (if gt (probability p) test || gt (radius p) (distance p) then [p] else []) ++ scan q (S n)
    else scan q n
  end.
(** 3D 1608-1637: none at a point whose bubble is too large *)
Fixpoint scan3 (pts : list P) (n : nat) : list P :=
  match pts with
  | [] => []
  | p :: q =>
    if own p then
      if gt (radius p) (distance p) then p :: scan3 q n
      else let test := draw n in (if gt (probability p) test then [p] else []) ++ scan3 q (S n)
    else scan3 q n
  end.
End SCAN.

(** ** The grid *)
(** 1D 1766-1769 *)
Definition points1 (Mx left right : nat) : list nat := seq left (Mx - right - left).
(** 2D 1515-1520 *)
Definition points2 (My Mx left right : nat) (surface : nat -> nat) : list (nat * nat) :=
  flat_map (fun yj => map (fun xi => (yj, xi)) (seq (surface yj + left) (Mx - right - (surface yj + left)))) (seq 0 My).
(** 3D 1571-1576 *)
Definition points3 (Mz My Mx left right : nat) (surface : nat -> nat -> nat) : list (nat * nat * nat) :=
  flat_map (fun zk => flat_map (fun yj => map (fun xi => (zk, yj, xi)) (seq (surface yj zk + left) (Mx - right - (surface yj zk + left)))) (seq 0 My)) (seq 0 Mz).

(** ** The positions known to the processes *)
(** 1D, 3D: a process knows its own. 1D 1810-1820: the value of the event, the same everywhere. *)
Definition flag1 P (lists : list (list P)) : nat := fold_right Nat.min 1%nat (map (fun l => match l with [] => 1%nat | _ => 0%nat end) lists).
(** 2D 1564-1571: every process knows all; [lists]: where the processes see a burst. *)
Definition pairb (p q : nat * nat) : bool := (fst p =? fst q)%nat && (snd p =? snd q)%nat.
Definition positions2 (pts : list (nat * nat)) (lists : list (list (nat * nat))) : list (nat * nat) := filter (fun p => existsb (fun l => existsb (pairb p) l) lists) pts.
(** 2D 1651-1654: concentrations are changed by the process which owns the point. *)
Definition updates2 (own : nat * nat -> bool) (positions : list (nat * nat)) : list (nat * nat) := filter own positions.

(** ** The burst *)
(** 1D 1888-1895 *)
Definition burstWidth (grid : nat -> R) (xi : nat) : R := if (xi <? 1)%nat then grid (xi + 1)%nat - grid xi else (grid (xi + 1)%nat - grid (xi - 1)%nat) / 2.
(** 1D 875 *)
Definition contentWidth (grid : nat -> R) (xi : nat) : R := grid (xi + 1)%nat - grid xi.
Section POST.
Variable P : Type.
Variable eqb : P -> P -> bool.
Variable factor : P -> R.
Variable findV : Z -> option nat.
Variable clusters : list cl.
(** 1D 1881-1905, 2D 1636-1655 (factor 0), 3D 1702-1723 (factor 0, the counts are dropped): the concentrations of the points and the counts of the process. *)
Fixpoint post (positions : list P) (conc : P -> nat -> R) (nBurst : nat -> R) : option ((P -> nat -> R) * (nat -> R)) :=
  match positions with
  | [] => Some (conc, nBurst)
  | p :: q =>
    match updateBurstingConcs (factor p) findV clusters (St (conc p) nBurst) with
    | Some s => post q (fun p' => if eqb p p' then sol s else conc p') (burst s)
    | None => None
    end
  end.
End POST.
(** 1D 1907-1913, 2D 1733-1739: the counts of all processes are added. 3D: they are not. *)
Definition booked (before : nat -> R) (counts : list (nat -> R)) (g : nat) : R := before g + fold_right (fun c s => c g + s) 0 counts.
Definition booked3 (before : nat -> R) (counts : list (nat -> R)) (g : nat) : R := before g.
