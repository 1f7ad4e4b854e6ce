(** The points of the surface plots, which the first process gathers from the others.

    Modelled code: PetscMonitor2D.cpp:1953-2012 (monitorSurface), PetscMonitor3D.cpp:1948-1993 (monitorSurfaceXY), 2073-2118 (monitorSurfaceXZ).
    In two dimensions every process is a list of actions; a step of the run is a step of one of them, or of all of them at a barrier. Messages wait until they are received; MPI_ANY_SOURCE takes
    one from any process, and those of one process with one tag in the order in which they were sent. MPI_Send may return at once ([sync] false), or when the message has been received
    (true). In three dimensions MPI_Reduce is the sum over the processes. Left out: the time (the same for all of the points), the labels and the drawing, the stride of ten steps. *)
From Coq Require Export Reals List Bool Arith.
From Verif Require Export Sums.
Export ListNotations.
Open Scope R_scope.

(** ** Two dimensions *)
(** The part of a process: getLocalCoordinates. *)
Record box := Box { xs : nat; xm : nat; ys : nat; ym : nat; zs : nat; zm : nat }.
Inductive act := Send (tag : nat) (v : R) | Recv (tag : nat) | Put (x y v : R) | PutReceived | Barrier.
(** lines 1957, 1962-1963 *)
Definition owned2 (b : box) (i j : nat) : bool := (xs b <=? i) && (i <? xs b + xm b) && (ys b <=? j) && (j <? ys b + ym b).
Definition xOf (grid : list R) (i : nat) : R := (nth i grid 0 + nth (i + 1) grid 0) / 2 - nth 1 grid 0.
Definition yOf (hy : R) (j : nat) : R := INR j * hy.
(** lines 1956-2008: what process [q] does at a point; the tags 10, 11 and 12 *)
Definition atPoint (q : nat) (mine : bool) (x y v : R) : list act :=
  (if mine then (if (q =? 0)%nat then [Put x y v] else [Send 10 x; Send 11 y; Send 12 v]) else if (q =? 0)%nat then [Recv 10; Recv 11; Recv 12; PutReceived] else []) ++ [Barrier].
(** lines 1954-2012 *)
Definition program (grid : list R) (hy : R) (conc : nat -> nat -> R) (Mx My : nat) (q : nat) (b : box) : list act :=
  flat_map (fun j => flat_map (fun i => atPoint q (owned2 b i j) (xOf grid i) (yOf hy j) (conc j i)) (seq 0 Mx)) (seq 0 My).

(** ** Runs *)
Record state := St { prog : nat -> list act; pool : list (nat * nat * R); reg : nat -> R; points : list (R * R * R) }.
Definition upd {A} (f : nat -> A) (k : nat) (v : A) : nat -> A := fun j => if (j =? k)%nat then v else f j.
(** [n]: the number of processes *)
Inductive step (sync : bool) (n : nat) (s : state) : state -> Prop :=
  | SSend q tag v r : (q < n)%nat -> prog s q = Send tag v :: r -> (sync = true -> forall m, In m (pool s) -> fst (fst m) <> q) ->
      step sync n s (St (upd (prog s) q r) (pool s ++ [(q, tag, v)]) (reg s) (points s))
  | SRecv tag r a src v b : prog s 0%nat = Recv tag :: r -> pool s = a ++ (src, tag, v) :: b -> (forall w, ~ In (src, tag, w) a) ->
      step sync n s (St (upd (prog s) 0%nat r) (a ++ b) (upd (reg s) tag v) (points s))
  | SPut x y v r : prog s 0%nat = Put x y v :: r -> step sync n s (St (upd (prog s) 0%nat r) (pool s) (reg s) (points s ++ [(x, y, v)]))
  | SPutReceived r : prog s 0%nat = PutReceived :: r ->
      step sync n s (St (upd (prog s) 0%nat r) (pool s) (reg s) (points s ++ [(reg s 10%nat, reg s 11%nat, reg s 12%nat)]))
  | SBarrier rest : (forall q, (q < n)%nat -> prog s q = Barrier :: rest q) -> step sync n s (St rest (pool s) (reg s) (points s)).
Inductive reaches (sync : bool) (n : nat) (s : state) : state -> Prop :=
  | RStay : reaches sync n s s
  | RStep s' s'' : reaches sync n s s' -> step sync n s' s'' -> reaches sync n s s''.
Definition final (n : nat) (s : state) : Prop := forall q, (q < n)%nat -> prog s q = [].
(** lines 1946-1951 *)
Definition begin (programs : nat -> list act) : state := St programs [] (fun _ => 0) [].

(** ** Three dimensions *)
(** PetscMonitor3D.cpp:1962-1964, 2087-2089 *)
Definition owned3 (b : box) (i j k : nat) : bool := owned2 b i j && (zs b <=? k) && (k <? zs b + zm b).
(** lines 1948-1993: the points of [_surfacePlotXY] *)
Definition surfaceXY (grid : list R) (hy : R) (conc : nat -> nat -> nat -> R) (Mx My Mz : nat) (ps : list box) : list (R * R * R) :=
  flat_map (fun j => map (fun i => (xOf grid i, yOf hy j, Rsum ps (fun b => Rsum (seq 0 Mz) (fun k => if owned3 b i j k then conc k j i else 0)))) (seq 0 Mx)) (seq 0 My).
(** lines 2073-2118: the points of [_surfacePlotXZ] *)
Definition surfaceXZ (grid : list R) (hz : R) (conc : nat -> nat -> nat -> R) (Mx My Mz : nat) (ps : list box) : list (R * R * R) :=
  flat_map (fun k => map (fun i => (xOf grid i, yOf hz k, Rsum ps (fun b => Rsum (seq 0 My) (fun j => if owned3 b i j k then conc k j i else 0)))) (seq 0 Mx)) (seq 0 Mz).
