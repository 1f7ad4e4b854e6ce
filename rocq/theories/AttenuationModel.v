(** Attenuation of the modified trap mutation: the helium trapped near the surface of a column, summed over the processes, sets
    the disappearing rate with which the reactions at the points of this column are multiplied.
    PetscSolver2DHandler.cpp:960-1007 and 1283-1325, PetscSolver3DHandler.cpp:1065-1116 and 1425-1471; the one-dimensional
    solver (PetscSolver1DHandler.cpp:770-805, 1199-1234) is the case of a single column whose surface is at point 0. In two
    dimensions [nZ] = 1 and [front] = [back] = 0. *)
From Verif Require Export Retention3Model.
Set Implicit Arguments.
Open Scope R_scope.
Open Scope bool_scope.

Section ATT.
Variable grid : nat -> R.
Variables nX nY nZ : nat.
Variables left right bottom top front back : nat.
Variable surf : nat -> nat -> nat.
Variable he : nat -> nat -> nat -> R.        (* getTotalTrappedHeliumConcentration at (j, k, xi) *)

(** One column on one process; [mine]: the check before the sum. *)
Definition atoms (mine : nat -> bool) (j k : nat) : R :=
  fold_left (fun acc xi =>
      if Rlt_dec 2 ((grid xi + grid (xi + 1)%nat) / 2 - grid (surf j k + 1)%nat) then acc
      else if mine xi then acc + he j k xi * (grid (xi + 1)%nat - grid xi) else acc)
    (seq (surf j k + left) (nX - right - (surf j k + left))) 0.
(** 2D: lines 961, 972-992; 3D: lines 1066-1067, 1079-1101 *)
Definition residualColumns : list (nat * nat) :=
  flat_map (fun k => map (fun j => (j, k)) (seq bottom (nY - top - bottom))) (seq front (nZ - back - front)).
Definition residualAtoms (p : proc) (col : nat * nat) : R := atoms (owns p (fst col) (snd col)) (fst col) (snd col).
(** 2D: lines 1284, 1295-1315; 3D: lines 1426-1427, 1439-1461 *)
Definition jacobianColumns (p : proc) : list (nat * nat) :=
  flat_map (fun k => map (fun j => (j, k)) (seq (ys p) (ym p))) (seq (zs p) (zm p)).
Definition jacobianAtoms (p : proc) (col : nat * nat) : R :=
  atoms (fun xi => inside (xs p) (xm p) xi && ((bottom <=? fst col)%nat && (fst col <? nY - top)%nat) && ((front <=? snd col)%nat && (snd col <? nZ - back)%nat))
    (fst col) (snd col).

(** MPI_Allreduce, called by the processes one time after the other: the n-th calls belong together. [None]: some process waits
    for a call which another one never makes. *)
Fixpoint addAll (a b : list R) : list R := match a, b with x :: a, y :: b => (x + y) :: addAll a b | _, _ => [] end.
Fixpoint reduceAll (calls : list (list R)) : option (list R) :=
  match calls with
  | [] => None
  | [a] => Some a
  | a :: r => match reduceAll r with
              | Some b => if (length a =? length b)%nat then Some (addAll a b) else None
              | None => None
              end
  end.
(** PSIReactionNetwork.tpp:301-318 *)
Definition rateOf (total : R) : R := exp (-4 * total).
(** The rate which is set when the points of a column follow: 2D: lines 1001-1007; 3D: lines 1110-1116. In the residual every process
    sets the rate for every column, and leaves out the points of the columns of others. *)
Definition residualRates (procs : list proc) : option (list ((nat * nat) * R)) :=
  match reduceAll (map (fun p => map (residualAtoms p) residualColumns) procs) with
  | Some sums => Some (combine residualColumns (map rateOf sums))
  | None => None
  end.
(** 2D: line 1324; 3D: line 1470 *)
Definition jacobianRates (procs : list proc) (p : proc) : option (list ((nat * nat) * R)) :=
  match reduceAll (map (fun q => map (jacobianAtoms q) (jacobianColumns q)) procs) with
  | Some sums => Some (combine (jacobianColumns p) (map rateOf sums))
  | None => None
  end.
End ATT.

(** TrapMutationReaction.tpp:93-107, 119-134: the flux of the reaction He_n -> He_nV_m + I_m at a point, [rate]: the rate of the reaction, times
    the left side rate of a desorbing cluster; the matrix entries are announced for the column of He_n only (lines 73-83, 136-152). *)
Definition mutationFlux (rate attenuation cHe : R) : R := rate * attenuation * cHe.
Definition mutationEntry (rate attenuation : R) (heId col : nat) : R := if Nat.eqb col heId then rate * attenuation else 0.
