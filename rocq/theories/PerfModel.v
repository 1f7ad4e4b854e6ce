(** Model of the performance infrastructure: collection of the object names over the
    processes and their statistics (xolotl/perf/src/PerfHandler.cpp) and the timers
    (xolotl/perf/src/os/OSTimer.cpp, xolotl/perf/src/papi/PAPITimer.cpp).
    Characters are numbers (0 is NUL); doubles are real numbers; the MPI collectives are
    functions of the list of the contributions in rank order. *)
From Verif Require Export Sums.
Open Scope R_scope.

Definition name := list nat.
Definition name_dec : forall a b : name, {a = b} + {a <> b} := list_eq_dec Nat.eq_dec.

(** A process: its object names in the order of its map (PerfHandler.cpp:170-200) and what
    getObjValue answers (PerfHandler.cpp:202-259), [None] for "not found". *)
Record process := Process { pnames : list name; plookup : name -> option R }.

(** The maps of timers and of event counters (PerfHandler.cpp:170-179, 202-220). *)
Fixpoint find (objs : list (name * R)) (n : name) : option R :=
  match objs with [] => None | (m, v) :: r => if name_dec m n then Some v else find r n end.
Definition plain (objs : list (name * R)) : process := Process (map fst objs) (find objs).

(** The map of hardware counter sets: for each object the names of its counters with their
    values (getSpecification, getCounterName, getValues). PerfHandler.cpp:181-200: one name
    object:counter per counter. *)
Definition colon := 58%nat.
Definition hwset := list (name * list (name * R)).
Definition hwNames (objs : hwset) : list name := flat_map (fun o => map (fun ct => fst o ++ [colon] ++ fst ct) (snd o)) objs.
(** find_last_of and the two substr (PerfHandler.cpp:231-234); [None]: the failed assert. *)
Fixpoint splitLast (s : name) : option (name * name) :=
  match s with
  | [] => None
  | ch :: r => match splitLast r with
               | Some (a, b) => Some (ch :: a, b)
               | None => if Nat.eqb ch colon then Some ([], r) else None
               end
  end.
Fixpoint findSet (objs : hwset) (n : name) : option (list (name * R)) :=
  match objs with [] => None | (m, v) :: r => if name_dec m n then Some v else findSet r n end.
(** PerfHandler.cpp:222-259: found is decided by the object alone; val stays 0 when the
    object has no such counter. *)
Definition hwLookup (objs : hwset) (n : name) : option R :=
  match splitLast n with
  | None => None
  | Some (o, ct) => match findSet objs o with
                    | None => None
                    | Some spec => Some (match find spec ct with Some v => v | None => 0 end)
                    end
  end.
Definition hardware (objs : hwset) : process := Process (hwNames objs) (hwLookup objs).

(** *** collectAllObjectNames, PerfHandler.cpp:91-168 *)
(** 114-121: the names one after the other, each followed by the NUL already there. *)
Definition marshal (names : list name) : list nat := flat_map (fun n => n ++ [0%nat]) names.
(** 135-140: the displacements. *)
Fixpoint displs (from : nat) (counts : list nat) : list nat :=
  match counts with [] => [] | k :: r => from :: displs (from + k) r end.
(** 142-144: MPI_Gatherv writes each piece at its displacement. *)
Definition splice (buf : list nat) (d : nat) (piece : list nat) : list nat := firstn d buf ++ piece ++ skipn (d + length piece) buf.
Definition gatherv (total : nat) (pieces : list (list nat)) : list nat :=
  fold_left (fun buf dp => splice buf (fst dp) (snd dp)) (combine (displs 0 (map (@length nat) pieces)) pieces) (repeat 0%nat total).
(** 149-162: the NUL terminated strings of the buffer; [None] when the last one is not
    terminated (strlen reads past the end). *)
Fixpoint unmarshal (cur : name) (buf : list nat) : option (list name) :=
  match buf with
  | [] => match cur with [] => Some [] | _ => None end
  | 0%nat :: r => option_map (cons cur) (unmarshal [] r)
  | ch :: r => unmarshal (cur ++ [ch]) r
  end.
(** 151-158: insertion of unseen names. The order of the map is that of the first occurrence
    here (alphabetical in the code; it decides only the order of the report). *)
Fixpoint insertAll (stats l : list name) : list name :=
  match l with [] => stats | n :: r => insertAll (if in_dec name_dec n stats then stats else stats ++ [n]) r end.
Definition allNames (procs : list process) : option (list name) :=
  let pieces := map (fun p => marshal (pnames p)) procs in
  let totalNumBytes := list_sum (map (@length nat) pieces) in
  option_map (insertAll []) (unmarshal [] (gatherv totalNumBytes pieces)).

(** *** aggregateStatistics, PerfHandler.cpp:261-354 *)
Record statistics := Statistics { processCount : nat; smin : R; smax : R; average : R; stdev : R }.
(** MPI_Reduce with MPI_MIN, MPI_MAX, MPI_SUM over at least one process. *)
Definition reduce (op : R -> R -> R) (l : list R) : R := match l with [] => 0 | x :: r => fold_left op r x end.
(** T::MinValue is 0 for the three types (ITimer.h:34, IEventCounter.h:32, IHardwareCounter.h:51). *)
Definition MinValue := 0.
Definition orElse (d : R) (o : option R) : R := match o with Some v => v | None => d end.
Definition aggregate (MaxValue : R) (procs : list process) (n : name) : statistics :=
  let vals := map (fun p => plookup p n) procs in
  let count := list_sum (map (fun o => match o with Some _ => 1%nat | None => 0%nat end) vals) in   (* 310-314 *)
  let mn := reduce Rmin (map (orElse MaxValue) vals) in                                            (* 316-320 *)
  let mx := reduce Rmax (map (orElse MinValue) vals) in                                            (* 322-326 *)
  let sum := reduce Rplus (map (orElse MinValue) vals) in                                          (* 328-336 *)
  let avg := sum / INR count in
  let sq := reduce Rplus (map (fun o => orElse MinValue o * orElse MinValue o) vals) in            (* 338-347 *)
  Statistics count mn mx avg (sqrt (sq / INR count - avg * avg)).
Definition aggregateStatistics (MaxValue : R) (procs : list process) : option (list (name * statistics)) :=
  option_map (map (fun n => (n, aggregate MaxValue procs n))) (allNames procs).

(** *** Timers *)
(** OSTimer.cpp:11-53, OSTimer.h:42, 74-77. Time stamps are clock ticks since the epoch; [inv] is the time
    stamp meaning "not running", [tick] the length of a tick. The boolean: an exception was
    thrown. operator+= is left out.
    OSTimer: std::numeric_limits is not specialised for time points, so that its max() is the
    value-initialised time point, the epoch (OSTimer.cpp:11-12): [inv] = 0. PAPITimer has the same three
    functions with -1 (PAPITimer.h:22, PAPITimer.cpp:20-54). *)
Record timer := Timer { tval : R; startTime : Z }.
Inductive op := Start (now : Z) | Stop (now : Z) | ResetT.
Section TIMER.
Variables (inv : Z) (tick : R).
Definition isRunning (t : timer) : bool := negb (Z.eqb (startTime t) inv).
Definition step (t : timer) (o : op) : timer * bool :=
  match o with
  | Start now => if isRunning t then (t, true) else (Timer (tval t) now, false)
  | Stop now => if isRunning t then (Timer (tval t + IZR (now - startTime t) * tick) inv, false) else (t, true)
  | ResetT => if isRunning t then (t, true) else (Timer 0 (startTime t), false)
  end.
Definition newTimer : timer := Timer 0 inv.
Definition run (h : list op) : timer := fold_left (fun t o => fst (step t o)) h newTimer.
End TIMER.
Definition osInvalid : Z := 0.
Definition papiInvalid : Z := -1.
