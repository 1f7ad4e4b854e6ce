(** Model of the grid in depth: SolverHandler.cpp generateGrid (74-397), the surface events
    of PetscMonitor1D.cpp (eventFunction 1728-1745, postEventFunction 1933-1986) and the
    transfer of the concentrations to the changed grid (PetscSolver1DHandler.cpp 405-520).
    Points are real numbers. Not modelled: the sizes and spacings in y and z, the file
    access of the grid type "read" (the numbers of its line are a parameter) and the
    messages by which the processes exchange the old concentrations. *)
From Coq Require Export Reals List Lia Lra ZArith.
From Verif Require Export Sums.
Export ListNotations.
Set Implicit Arguments.
Open Scope R_scope.

Notation "g .[ i ]" := (nth i g 0) (at level 2, left associativity, format "g .[ i ]").

(** ** First grid *)
(** lines 100-127; with fewer than two numbers tokens[1] is read out of bounds. *)
Definition gridRead (tokens : list R) : option (list R) :=
  match tokens, rev tokens with
  | t0 :: t1 :: _, tn :: tm :: _ =>
      let offset := t1 - t0 in
      Some ([0] ++ (if Rlt_dec 0 t0 then [offset] else []) ++ map (fun t => t + offset) tokens ++ [2 * tn - tm + offset])
  | _, _ => None
  end.
(** lines 144-158 *)
Definition gridCheby (n : nat) (hx : R) : list R :=
  [0; 0] ++ map (fun l => (hx / 2) * (1 - cos (PI * INR l / INR (n - 1)))) (seq 1 (n - 1)) ++ [hx].
(** lines 173-180 *)
Definition gridUniform (n : nat) (hx : R) : list R := map (fun l => INR l * hx) (seq 0 (n + 2)).
(** lines 206-297 and 321-331: each pass pushes the previous point and adds a step. *)
Fixpoint pushPoints (step : nat -> R) (l n : nat) (previous : R) : list R :=
  match n with O => [] | S n' => previous :: pushPoints step (S l) n' (previous + step l) end.
Definition stepNonuniform (l : nat) : R :=
  if Nat.ltb l 26 then 0.1 else if Nat.ltb l 36 then 0.25 else if Nat.ltb l 41 then 0.5 else
  if Nat.ltb l 84 then 1 else if Nat.ltb l 109 then 2 else if Nat.ltb l 119 then 5 else
  if Nat.ltb l 134 then 10 else if Nat.ltb l 144 then 20 else if Nat.ltb l 154 then 50 else
  if Nat.ltb l 194 then 100 else if Nat.ltb l 219 then 200 else if Nat.ltb l 239 then 500 else
  if Nat.ltb l 249 then 1000 else if Nat.ltb l 259 then 2000 else if Nat.ltb l 269 then 5000 else
  if Nat.ltb l 279 then 10000 else if Nat.ltb l 294 then 20000 else if Nat.ltb l 304 then 50000 else
  if Nat.ltb l 314 then 100000 else if Nat.ltb l 329 then 200000 else if Nat.ltb l 339 then 500000 else 1000000.
Definition gridNonuniform (n : nat) : list R := pushPoints stepNonuniform 0 (n + 2) 0.
Definition stepGeometric (r : R) (l : nat) : R := if Nat.ltb l 1 then 0.1 else 0.1 * r ^ (l - 1).
Definition gridGeometric (n : nat) (r : R) : list R := pushPoints (stepGeometric r) 0 (n + 2) 0.

(** ** Moves; [None]: an access outside of the vector. *)
(** lines 354-375 *)
Definition grow (k : nat) (g : list R) : option (list R) :=
  match nth_error g k, rev g with
  | Some gk, e :: x :: y :: z :: r =>
      let step := gk - g.[0] in
      if Rlt_dec (x - y) (y - z - 1.0e-4)
      then let x' := x + step in Some (rev (2 * x' - y :: x' :: y :: z :: r))
      else let e' := x + step in Some (rev (2 * e' - x :: e' :: x :: y :: z :: r))
  | _, _ => None
  end.
(** lines 386-389; the last used point and the points before it, last first *)
Fixpoint trim (x : R) (before : list R) : option (R * list R) :=
  match before with
  | [] => None
  | y :: r => if Rlt_dec x (y + 1.0e-4) then trim x r else Some (y, r)
  end.
(** lines 379-393 *)
Definition shrink (k : nat) (g : list R) : option (list R) :=
  match nth_error g k, rev g with
  | Some gk, e :: x :: before =>
      let x' := x - (gk - g.[0]) in
      match trim x' before with
      | Some (y, r) => Some (rev (2 * x' - y :: x' :: y :: r))
      | None => None
      end
  | _, _ => None
  end.
(** lines 349-394 *)
Definition moveGrid (off : Z) (g : list R) : option (list R) :=
  if Z.ltb 0 off then grow (Z.to_nat off) g else shrink (Z.to_nat (- off)) g.

(** ** Surface events (PetscMonitor1D.cpp), left boundary option [o] >= 1 *)
Definition tungstenDensity : R := 62.8. (* core/include/xolotl/core/Constants.h:106 *)
(** lines 1731-1744: whether the surface moves up, whether it moves back *)
Definition movesUp (o : nat) (g : list R) (nSurf : R) : Prop := nSurf > tungstenDensity * (g.[o] - g.[o - 1]).
Definition movesBack (o : nat) (g : list R) (nSurf : R) : Prop := nSurf < - (tungstenDensity * (g.[o + 1] - g.[o])) * 0.9.
(** lines 1941-1957. The condition getLeftOffset() - 2 >= 0 is always true of an unsigned
    number; the loop is left after its first pass. *)
Definition up (o : nat) (g : list R) (nSurf : R) : R * Z :=
  let threshold := tungstenDensity * (g.[o] - g.[o - 1]) in
  if Rgt_dec nSurf threshold then (nSurf - threshold, 1%Z) else (nSurf, 0%Z).
(** lines 1960-1985; [fuel] bounds the loop by the number of points left *)
Fixpoint back (fuel xi : nat) (g : list R) (nSurf : R) (off : Z) : option (R * Z) :=
  if Rlt_dec nSurf 0 then
    match fuel with
    | O => None
    | S f => back f (S xi) g (nSurf + tungstenDensity * (g.[xi + 1] - g.[xi])) (off - 1)
    end
  else Some (nSurf, off).
Definition retreat (o : nat) (g : list R) (nSurf : R) : option (R * Z) := back (length g - 1 - o) o g nSurf 0.

(** ** Transfer of the concentrations (PetscSolver1DHandler.cpp 405-504) *)
Definition bottom (g : list R) : R := g.[length g - 2].
(** line 411-415: the first old segment which reaches the distance *)
Fixpoint look (old : list R) (d : R) (is : list nat) : option nat :=
  match is with
  | [] => None
  | i :: r => if Rlt_dec (bottom old - old.[i + 1] - 1.0e-4) d then Some i else look old d r
  end.
(** lines 407-504 for one component of the concentrations *)
Definition carry (old new : list R) (oldC : nat -> R) (xi : nat) : option R :=
  let d := bottom new - new.[xi + 1] in
  match look old d (seq 1 (length old - 2)) with
  | Some i =>
      let left := bottom old - old.[i] in let right := bottom old - old.[i + 1] in
      Some (oldC (i - 1)%nat + (oldC i - oldC (i - 1)%nat) * ((d - left) / (right - left)))
  | None => None
  end.
(** line 514: surfaceOffset is an unsigned 32-bit number (PetscSolverHandler.h:34), the
    offset given to setSurfaceOffset is a signed one. *)
Definition resets (off : Z) : bool := Z.ltb 0 (off mod 4294967296).
(** lines 405-520: new concentrations at the points 1 and up of the process with the surface;
    [initial]: the initial concentration of the component, if there is one. *)
Definition transferred (old new : list R) (oldC : nat -> R) (initial : option R) (off : Z) (xi : nat) : option R :=
  match initial with
  | Some c => if (resets off && Nat.eqb xi 1)%bool then Some c else carry old new oldC xi
  | None => carry old new oldC xi
  end.
