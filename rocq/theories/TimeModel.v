(** Model of the time stepping of coupled runs:
    util/src/GrowthFactorStepSequence.cpp, util/src/TimeStepper.cpp and the stop
    data of interface/src/MultiXolotl.cpp:73-139, 285-389. Times are not rounded. *)
From Coq Require Export Reals List Lia Lra.
From Verif Require Export Sums.
Export ListNotations.
Set Implicit Arguments.
Open Scope R_scope.

(** ** GrowthFactorStepSequence *)
Record seqP := SeqP { initialValue : R; finalValue : R; growthFactor : R; initialStep : nat }.
Record seqS := SeqS { currentStep : nat; currentValue : R }.
(** lines 25-30 *)
Definition seqStart (p : seqP) : seqS := SeqS (initialStep p) (initialValue p).
(** lines 32-39 *)
Definition seqStep (p : seqP) (s : seqS) : seqS :=
  SeqS (S (currentStep s)) (Rmin (currentValue s * growthFactor p) (finalValue p)).
(** lines 41-45 *)
Definition seqAt (p : seqP) (k : nat) : R := Rmin (initialValue p * growthFactor p ^ k) (finalValue p).
(** lines 47-57: the loop runs (step - initialStep) times. *)
Fixpoint sumLoop (p : seqP) (n : nat) (val sum : R) : R :=
  match n with O => sum | S n' => sumLoop p n' (Rmin (val * growthFactor p) (finalValue p)) (sum + val) end.
Definition partialSumAt (p : seqP) (k : nat) : R := sumLoop p (k - initialStep p) (initialValue p) 0.

(** ** TimeStepper *)
Record stepperP := StepperP { sq : seqP; startTime : R; endTime : R; maxSteps : nat }.
Record stepperS := StepperS { sqs : seqS; previousTime : R; currentTime : R }.
Definition start (p : stepperP) : stepperS := StepperS (seqStart (sq p)) (startTime p) (startTime p).
Definition step (p : stepperP) (s : stepperS) : stepperS :=
  StepperS (seqStep (sq p) (sqs s)) (currentTime s) (currentTime s + currentValue (sqs s)).
Definition valid (p : stepperP) (s : stepperS) : Prop :=
  currentTime s < endTime p /\ (maxSteps p = 0%nat \/ (currentStep (sqs s) <= maxSteps p)%nat).
(** lines 62-74; [None]: the assertion fails. *)
Definition timeAtStep (p : stepperP) (k : nat) : option R :=
  if Nat.leb k (maxSteps p) then Some (startTime p + partialSumAt (sq p) k) else None.
Definition timeStepSizeAtStep (p : stepperP) (k : nat) : option R :=
  if Nat.leb k (maxSteps p) then Some (seqAt (sq p) k) else None.
Fixpoint iter (A : Type) (f : A -> A) (n : nat) (x : A) : A := match n with O => x | S n' => f (iter f n' x) end.

(** ** MultiXolotl *)
Record opts := Opts { initDt : R; maxDt : R; gf : R; t0 : R; tEnd : R; maxN : nat }.
(** lines 115-139: makeTimeStepper without and with stop data. *)
Definition stopData := (nat * R * R)%type.
Definition makeTimeStepper (o : opts) (stop : option stopData) : stepperP :=
  match stop with
  | None => StepperP (SeqP (initDt o) (maxDt o) (gf o) 0) (t0 o) (tEnd o) (maxN o)
  | Some (k, t, d) => StepperP (SeqP d (maxDt o) (gf o) k) t (tEnd o) (maxN o)
  end.
(** lines 322-329 *)
Definition startTimeStepper (o : opts) (stop : option stopData) : stepperS :=
  let p := makeTimeStepper o stop in
  match stop with None => start p | Some _ => step p (start p) end.
(** What the [m]-th solveStep of a run passes on: step number, time to reach, step
    size (lines 380-388). *)
Definition visit (o : opts) (stop : option stopData) (m : nat) : nat * R * R :=
  let s := iter (step (makeTimeStepper o stop)) m (startTimeStepper o stop) in
  (currentStep (sqs s), currentTime s, currentValue (sqs s)).
(** lines 87-113: the stop data for the last completed step [k]. *)
Definition writeStopData (o : opts) (stop : option stopData) (k : nat) : option stopData :=
  match timeAtStep (makeTimeStepper o stop) k, timeStepSizeAtStep (makeTimeStepper o stop) k with
  | Some t, Some d => Some (k, t, d)
  | _, _ => None
  end.
(** A history of restarts: the steps after which each run was stopped. *)
Fixpoint history (o : opts) (stop : option stopData) (ks : list nat) : option (option stopData) :=
  match ks with
  | [] => Some stop
  | k :: ks' => match writeStopData o stop k with None => None | Some d => history o (Some d) ks' end
  end.
