(** Model of PetscMonitor1D::computeHeliumRetention
    (solver/src/monitor/PetscMonitor1D.cpp:815-1144) and of the two functions of the
    network which it calls. *)
From Verif Require Export Solver1DModel.
From Verif Require BurstModel.
Set Implicit Arguments.
Open Scope R_scope.
Open Scope bool_scope.

Definition upd (f : nat -> R) (k : nat) (x : R) : nat -> R := fun j => if Nat.eqb j k then x else f j.

(** ** The network *)
Section NET.
Variable ns : nat.                     (* numSpecies *)
(** reg.getOrigin() of a cluster, one amount per species *)
Variable origin : nat -> list Z.
(** core/include/xolotl/core/network/impl/ReactionNetwork.tpp:1486-1490, 1524-1528 *)
Definition size (l : nat) : Z := fold_left Z.add (origin l) 0%Z.
(** lines 1496-1502, 1537-1543: the first species on whose axis the cluster lies gets
    the flux; a cluster on no axis is not counted. *)
Definition axis (l : nat) : option nat := find (fun s => BurstModel.onAxis s (origin l)) (seq 0 ns).
Definition give (fl : nat -> R) (l : nat) (x : R) : nat -> R :=
  match axis l with Some s => upd fl s (fl s + x) | None => fl end.
(** lines 1472-1503; [D l k]: what the network of this process holds at grid index [k] *)
Definition diffFluxes (conc : nat -> R) (factor : R) (D : nat -> nat -> R) (k : nat)
    (ids : list nat) (fl : nat -> R) : nat -> R :=
  fold_left (fun fl l => give fl l (IZR (size l) * factor * D l k * conc l)) ids fl.
(** lines 1507-1546; the two lists of the handler (clusters, sink strengths) are filled
    together and are one list of pairs here. *)
Definition advFluxes (conc : nat -> R) (factor : R) (D : nat -> nat -> R) (T : nat -> R) (k : nat)
    (ids : list (nat * R)) (fl : nat -> R) : nat -> R :=
  fold_left (fun fl ls => let l := fst ls in
    give fl l (if Rlt_dec 0 (T k) then IZR (size l) * factor * D l k * conc l * snd ls / T k else 0)) ids fl.

(** ** The monitor *)
Variable grid : nat -> R.
Variable nX : nat.                     (* Mx *)
Variables leftOffset rightOffset : nat.
(** PetscMonitor1D.cpp:921-937 and 1020-1036; the text is that of the solver *)
Definition factor (xi : nat) : R := 2 / (hxLeft grid xi + hxRight grid nX xi).
(** lines 951-959 *)
Definition distance (loc_ : R) (xi : nat) : R := (grid xi + grid (xi + 1)%nat) / 2 - grid 1%nat - loc_.
Definition advFactor (loc_ : R) (xi : nat) : R :=
  let d := distance loc_ xi in 3 / (kB * d * d * d * d).

(** A process owns the points xs, ..., xs + xm - 1. *)
Record proc := Proc { xs : nat; xm : nat }.
Definition owned (p : proc) : list nat := seq (xs p) (xm p).
Definition owns (p : proc) (xi : nat) : bool := (xs p <=? xi)%nat && (xi <? xs p + xm p)%nat.
(** Index [k] of the arrays of the network of a process belongs to the point
    xs + k - 1: index 0 is the point left of the owned ones
    (PetscSolver1DHandler.cpp:858-874; the rates are asked at xi + 1 - localXS, 1025-1027). *)
Definition stored (p : proc) (v : nat -> R) (k : nat) : R := v (xs p + k - 1)%nat.

(** lines 861-894 and 902-904; [total xi s]: getTotalsVec at point xi *)
Definition myContent (total : nat -> nat -> R) (s : nat) (p : proc) : R :=
  fold_left (fun acc xi =>
    if (xi <? leftOffset)%nat || (nX - rightOffset <=? xi)%nat then acc
    else acc + total xi s * (grid (xi + 1)%nat - grid xi)) (owned p) 0.
Definition content (total : nat -> nat -> R) (procs : list proc) (s : nat) : R :=
  fold_left Rplus (map (myContent total s) procs) 0.

(** What is known at a time step: the length of the step, concentrations, diffusion
    coefficients and temperatures at the grid points. *)
Record out := Out { odt : R; oC : nat -> nat -> R; oD : nat -> nat -> R; oT : nat -> R }.
(** _nSurf and _previousSurfFlux, or _nBulk and _previousBulkFlux *)
Record count := Count { total : nat -> R; prev : nat -> R }.

Variable dif : list nat.
Variable adv : list (nat * R).
Variable loc_ : R.
(** lines 918-963 *)
Definition surfFlux (p : proc) (o : out) : nat -> R :=
  let c := fun l => oC o l 1%nat in
  let D := fun l => stored p (oD o l) in
  advFluxes c (advFactor loc_ 1) D (stored p (oT o)) (1 - xs p) adv
    (diffFluxes c (factor 1) D (1 - xs p) dif (fun _ => 0)).
(** lines 1017-1043 *)
Definition bulkFlux (p : proc) (o : out) : nat -> R :=
  let c := fun l => oC o l (nX - 2)%nat in
  diffFluxes c (factor (nX - 2)) (fun l => stored p (oD o l)) (nX - 2 - xs p) dif (fun _ => 0).
(** lines 908-916 and 965-969 (skip: interstitials with a moving surface); 1009-1013 and
    1045-1047 (skip nothing) *)
Definition local (skip : nat -> bool) (timestep : nat) (dt : R) (flux : nat -> R) (s : count) : count :=
  Count (fun i => if skip i then total s i
                  else if (0 <? timestep)%nat then total s i + prev s i * dt else total s i)
        (fun i => if skip i then prev s i else flux i).
(** lines 978-998, 1056-1075: the owner is the sum of surfaceProc over the processes; its
    values replace those of all. [None]: no such rank. *)
Definition exchange (xi : nat) (procs : list proc) (sts : list count) : option (list count) :=
  let id := fold_left (fun a rp => (a + if owns (snd rp) xi then fst rp else 0)%nat)
                      (combine (seq 0 (length procs)) procs) 0%nat in
  match nth_error sts id with Some s => Some (map (fun _ => s) sts) | None => None end.
Definition monitorAt (xi : nat) (skip : nat -> bool) (flux : proc -> out -> nat -> R) (procs : list proc)
    (timestep : nat) (o : out) (sts : list count) : option (list count) :=
  exchange xi procs
    (map (fun ps => if owns (fst ps) xi then local skip timestep (odt o) (flux (fst ps) o) (snd ps) else snd ps)
         (combine procs sts)).
(** The monitor is called once per time step, from time step [k] on. *)
Fixpoint monitor (xi : nat) (skip : nat -> bool) (flux : proc -> out -> nat -> R) (procs : list proc)
    (k : nat) (os : list out) (sts : list count) : option (list count) :=
  match os with
  | [] => Some sts
  | o :: r => match monitorAt xi skip flux procs k o sts with
              | Some sts' => monitor xi skip flux procs (S k) r sts'
              | None => None
              end
  end.
(** line 910, 966: i == specIdI() && moveSurface() *)
Definition surface (moving : bool) (specI : nat) := monitor 1 (fun i => Nat.eqb i specI && moving) surfFlux.
Definition bulk := monitor (nX - 2) (fun _ => false) bulkFlux.
End NET.
