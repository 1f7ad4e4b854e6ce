(** The retention output in two and three dimensions: PetscMonitor2D::computeHeliumRetention
    (solver/src/monitor/PetscMonitor2D.cpp:685-1036) and PetscMonitor3D::computeHeliumRetention
    (solver/src/monitor/PetscMonitor3D.cpp:745-1108), which are the same text with a third index. In two dimensions
    the index [k] is always 0, [nZ] = 1 and [hz] = 1. The functions of the network are those of RetentionModel. *)
From Verif Require Export Solver1DModel.
From Verif Require RetentionModel.
Set Implicit Arguments.
Open Scope R_scope.
Open Scope bool_scope.

Section PLANE.
Variables (ns : nat) (origin : nat -> list Z).
Variable grid : nat -> R.
Variables nX nY nZ : nat.
Variables hy hz : R.
Variables leftOffset rightOffset : nat.

(** A process owns a box of points. *)
Record proc := Proc { xs : nat; xm : nat; ys : nat; ym : nat; zs : nat; zm : nat }.
Definition inside (a n i : nat) : bool := (a <=? i)%nat && (i <? a + n)%nat.
Definition owns (p : proc) (j k xi : nat) : bool := inside (xs p) (xm p) xi && inside (ys p) (ym p) j && inside (zs p) (zm p) k.
(** 2D: line 955; 3D: line 1029 *)
Definition area : R := INR (nY * nZ) * hy * hz.
(** 2D: lines 725-762, 958-961; 3D: lines 788-824, 1032-1034. [surf j k]: getSurfacePosition. *)
Definition myContent (surf : nat -> nat -> nat) (total : nat -> nat -> nat -> nat -> R) (s : nat) (p : proc) : R :=
  fold_left (fun acc k => fold_left (fun acc j => fold_left (fun acc xi =>
      if (xi <? surf j k + leftOffset)%nat || (nX - rightOffset <=? xi)%nat then acc
      else acc + total j k xi s * (grid (xi + 1)%nat - grid xi) * hy * hz)
    (seq (xs p) (xm p)) acc) (seq (ys p) (ym p)) acc) (seq (zs p) (zm p)) 0.
Definition content (surf : nat -> nat -> nat) (total : nat -> nat -> nat -> nat -> R) (procs : list proc) (s : nat) : R :=
  fold_left Rplus (map (myContent surf total s) procs) 0 / area.

(** What is known at a time step: as in one dimension, but the coefficients and temperatures of a process depend on x only
    (PetscSolver2DHandler.cpp:945-957), and there is a surface position for every column. [oUsed]: the positions at the last
    evaluation of the right-hand side or the Jacobian, from which the advection handler has its location. *)
Record out := Out { odt : R; oC : nat -> nat -> nat -> nat -> R; oD : nat -> nat -> R; oT : nat -> R;
                    oSurf : nat -> nat -> nat; oUsed : nat -> nat -> nat }.
Variable dif : list nat.
Variable adv : list (nat * R).
(** The handler is set for every column of the process in turn (PetscSolver2DHandler.cpp:1014-1015, 1332-1333;
    PetscSolver3DHandler.cpp:1126-1127, 1479-1480), so it keeps the location of the last one. *)
Definition location (p : proc) (o : out) : R := grid (oUsed o (ys p + ym p - 1) (zs p + zm p - 1) + 1)%nat - grid 1%nat.
Definition stored (p : proc) (v : nat -> R) (i : nat) : R := v (xs p + i - 1)%nat.
(** 2D: lines 807-821; 3D: lines 873-886 *)
Definition factor (xi : nat) : R := 2 * hy * hz / (hxLeft grid xi + hxRight grid nX xi).
(** 2D: lines 832-840; 3D: lines 898-904 *)
Definition advFactor (loc_ : R) (xi : nat) : R :=
  let d := (grid xi + grid (xi + 1)%nat) / 2 - grid 1%nat - loc_ in 3 * hy * hz / (kB * d * d * d * d).
(** 2D: lines 786, 803-842; 3D: lines 850, 869-905 *)
Definition surfFlux (j k : nat) (p : proc) (o : out) : nat -> R :=
  let xi := (oSurf o j k + 1)%nat in
  let c := fun l => oC o l j k xi in
  let D := fun l => stored p (oD o l) in
  RetentionModel.advFluxes ns origin c (advFactor (location p o) xi) D (stored p (oT o)) (xi - xs p) adv
    (RetentionModel.diffFluxes ns origin c (factor xi) D (xi - xs p) dif (fun _ => 0)).
(** 2D: lines 877-925; 3D: lines 943-989 *)
Definition bulkFlux (j k : nat) (p : proc) (o : out) : nat -> R :=
  let c := fun l => oC o l j k (nX - 2)%nat in
  RetentionModel.diffFluxes ns origin c (factor (nX - 2)) (fun l => stored p (oD o l)) (nX - 2 - xs p) dif (fun _ => 0).
(** 2D: lines 854-872, 932-951; 3D: lines 917-936, 997-1016: the rank of the owner is a sum over the processes, 0 when there
    is none. [None]: no such rank. *)
Definition exchange (own : list bool) (sts : list RetentionModel.count) : option (list RetentionModel.count) :=
  let id := fold_left (fun a rb => (a + if snd rb : bool then fst rb else 0)%nat) (combine (seq 0 (length own)) own) 0%nat in
  match nth_error sts id with Some s => Some (map (fun _ => s) sts) | None => None end.
(** One call for the column (j, k): 2D: lines 784-873, 887-952; 3D: lines 847-937, 949-1017 *)
Definition monitorAt (at_ : out -> nat) (skip : nat -> bool) (flux : proc -> out -> nat -> R) (j k : nat) (procs : list proc)
    (timestep : nat) (o : out) (sts : list RetentionModel.count) : option (list RetentionModel.count) :=
  exchange (map (fun p => owns p j k (at_ o)) procs)
    (map (fun ps => if owns (fst ps) j k (at_ o) then RetentionModel.local skip timestep (odt o) (flux (fst ps) o) (snd ps) else snd ps)
         (combine procs sts)).
Fixpoint monitor (at_ : out -> nat) (skip : nat -> bool) (flux : proc -> out -> nat -> R) (j k : nat) (procs : list proc)
    (t : nat) (os : list out) (sts : list RetentionModel.count) : option (list RetentionModel.count) :=
  match os with
  | [] => Some sts
  | o :: r => match monitorAt at_ skip flux j k procs t o sts with
              | Some sts' => monitor at_ skip flux j k procs (S t) r sts'
              | None => None
              end
  end.
(** i == specIdI() && moveSurface() *)
Definition surface (moving : bool) (specI : nat) (j k : nat) :=
  monitor (fun o => (oSurf o j k + 1)%nat) (fun i => Nat.eqb i specI && moving) (surfFlux j k) j k.
Definition bulk (j k : nat) := monitor (fun _ => (nX - 2)%nat) (fun _ => false) (bulkFlux j k) j k.
(** 2D: lines 962-981; 3D: lines 1035-1056: the totals of all columns *)
Definition printed (st : nat -> nat -> RetentionModel.count) (s : nat) : R :=
  fold_left (fun acc k => fold_left (fun acc j => acc + RetentionModel.total (st j k) s) (seq 0 nY) acc) (seq 0 nZ) 0 / area.

(** ** What the solver adds at a point of a plane or box without free sides in y and z: PetscSolver2DHandler.cpp:1031-1036,
    1074-1087, PetscSolver3DHandler.cpp:1143-1152, 1194-1208. The points beyond the sides are those of the other side (the
    DMDA is periodic in y and z). [sy], [sz]: 1/hy^2 and 1/hz^2; in two dimensions [sz] = 0. *)
Definition before (n j : nat) : nat := if (j =? 0)%nat then (n - 1)%nat else (j - 1)%nat.
Definition after (n j : nat) : nat := if (j =? n - 1)%nat then 0%nat else (j + 1)%nat.
Definition around3 (c : nat -> nat -> nat -> R) (j k xi n : nat) : R :=
  match n with
  | 0%nat => c j k xi | 1%nat => c j k (xi - 1)%nat | 2%nat => c j k (xi + 1)%nat
  | 3%nat => c (before nY j) k xi | 4%nat => c (after nY j) k xi
  | 5%nat => c j (before nZ k) xi | 6%nat => c j (after nZ k) xi | _ => 0
  end.
Definition diffAt3 (sy sz : R) (D : nat -> R) (c : nat -> nat -> nat -> R) (j k xi : nat) : R :=
  diff3 (Loc (hxLeft grid xi) (hxRight grid nX xi) sy sz (D (xi - 1)%nat) (D xi) (D (xi + 1)%nat)) (fun _ => 1) (around3 c j k xi).
Definition advAt3 (loc_ A : R) (D T : nat -> R) (c : nat -> nat -> nat -> R) (j k xi : nat) : R :=
  advS (Adv (position grid xi) loc_ (hxLeft grid xi) (hxRight grid nX xi) A (D xi) (T xi) (D (xi + 1)%nat) (T (xi + 1)%nat)) (fun _ => 1) (around3 c j k xi).
End PLANE.
