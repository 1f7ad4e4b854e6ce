(** Which transport acts in a run, and on which clusters: the choice of the handlers of the
    diffusion, of the drift and of the thermal diffusion, and the lists they make of the
    clusters they move.

    Modelled code: core/src/material/MaterialHandler.cpp:50-150 (createDiffusionHandler,
    initializeSoretDiffusionHandler, initializeAdvectionHandlers),
    core/include/xolotl/core/material/MaterialHandler.h:80-98 and the materials beside it,
    core/src/advection/TungstenAdvectionHandler.cpp:18-74, core/src/advection/
    XGBAdvectionHandler.cpp, YGBAdvectionHandler.cpp and ZGBAdvectionHandler.cpp:10-92,
    core/src/modified/SoretDiffusionHandler.cpp:47-133, core/src/diffusion/
    DiffusionHandler.cpp:31-58, solver/src/handler/PetscSolver1DHandler.cpp:111-153,
    PetscSolver2DHandler.cpp:153-157, PetscSolver3DHandler.cpp:182-186. *)
From Coq Require Import Reals List Arith Bool ZArith.
From Verif Require TokenModel.
Import ListNotations.
Local Open Scope R_scope.

Notation outcome := TokenModel.outcome.
Notation Done := TokenModel.Done.
Notation Thrown := TokenModel.Thrown.
Notation Undefined := TokenModel.Undefined.

(** The species of the networks of tungsten (PSITraits.h:56-63, 131-137, 200-206, 269-274). *)
Inductive species := He | D | T | V | I.
Definition same (a b : species) : bool := match a, b with He, He | D, D | T, T | V, V | I, I => true | _, _ => false end.

(** A network, as far as the handlers look at it: whether it is one of tungsten (the
    dynamic_cast succeeds), its species in order, the cluster of a composition
    (findClusterId, [None]: the invalid index), the number of clusters, the diffusion factor and
    the migration energy of a cluster. *)
Record network := Net {
  psi : bool; specs : list species; find : list nat -> option nat;
  numClusters : nat; factor : nat -> R; migration : nat -> R }.

(** MathUtils.h:24, 78-83: two doubles are the same when they are within 2^-52. *)
Definition equal (a b : R) : bool := if Rlt_dec (Rabs (b - a)) (/ 2 ^ 52) then true else false.

(** The index of a species in the list; the vector of zeros; the assignment comp[k] = n. *)
Fixpoint position (l : list species) (s : species) : nat := match l with [] => 0 | x :: l' => if same x s then 0 else S (position l' s) end%nat.
Fixpoint put (c : list nat) (k n : nat) : list nat := match c, k with [], _ => [] | _ :: c', O => n :: c' | x :: c', S k' => x :: put c' k' n end.
Definition zeros (net : network) : list nat := repeat 0%nat (length (specs net)).

(** What a handler of drift or of thermal diffusion holds: the clusters, the strengths (the
    sink strengths or the beta factors), and the pairs handed to the solver. *)
Record lists := Lists { clusters : list nat; strengths : list R; pairs : list (nat * nat) }.

(** W100AdvectionHandler.h:19-22, W110AdvectionHandler.h:19-22, W111AdvectionHandler.h:19-22,
    W211AdvectionHandler.h:19-22: the strengths of the drift to the surface, in 1e-5 eV nm^3. *)
Inductive material := W100 | W110 | W111 | W211 | Pulsed | Fe | Fuel | Alloy | AlphaZr.
Definition surfaceTable (m : material) : option (list R) :=
  match m with
  | W100 => Some [228; 506; 726; 1587; 1695; 2716; 3556]
  | W110 => Some [92; 148; 673; 618; 3361; 3758; 4190]
  | W111 => Some [365; 640; 1638; 984; 4440; 5212; 8157]
  | W211 => Some [149; 369; 1234; 1411; 1914; 3577; 6765]
  | _ => None
  end.
(** XGBAdvectionHandler.cpp:52-75 and the same lines for Y and Z. *)
Definition grainTable : list R := [54; 101; 303; 393; 724; 1082; 1926].

(** TungstenAdvectionHandler.cpp:37-71, XGBAdvectionHandler.cpp:30-88: one turn of the loop over the sizes of helium, the composition
    being kept from one turn to the next. *)
Definition driftTurn (net : network) (table : list R) (st : outcome (list nat * lists)) (i : nat) : outcome (list nat * lists) :=
  match st with
  | TokenModel.Done (comp, h) =>
    let comp := put comp (position (specs net) He) i in
    match find net comp with
    | None => Thrown
    | Some id =>
      if equal (factor net id) 0 then Done (comp, h)
      else
        let sink := nth (i - 1) table 0 / 100000 in
        if equal sink 0 then Done (comp, h)
        else Done (comp, Lists (clusters h ++ [id]) (strengths h ++ [sink]) (pairs h ++ [(id, id)]))
    end
  | o => o
  end.
(** TungstenAdvectionHandler.cpp:18-74: initialize of a drift; the clusters and the strengths are cleared
    first, the pairs are those of the caller; a network which is not one of tungsten makes the
    cast a null pointer, which is followed. *)
Definition driftInit (net : network) (table : list R) (h : lists) : outcome lists :=
  if psi net then
    match fold_left (driftTurn net table) (seq 1 7) (Done (zeros net, Lists [] [] (pairs h))) with
    | TokenModel.Done (_, h') => Done h'
    | TokenModel.Thrown => Thrown
    | TokenModel.Undefined => Undefined
    end
  else Undefined.
(** DummyAdvectionHandler.h:37-48: the lists are cleared. *)
Definition driftDummy (h : lists) : lists := Lists [] [] (pairs h).

(** SoretDiffusionHandler.cpp:75-95: addCluster. *)
Definition soretAdd (net : network) (comp : list nat) (value : R) (h : lists) : lists :=
  match find net comp with
  | None => h
  | Some id =>
    if equal (factor net id) 0 then h
    else Lists (clusters h ++ [id]) (strengths h ++ [value / 10000]) (pairs h ++ [(id, id)])
  end.
(** SoretDiffusionHandler.cpp:47-133: initialize of the thermal diffusion, the clusters are
    cleared and the beta factors are not; the values in 1e-4. *)
Definition has (net : network) (s : species) : bool := existsb (fun x => same x s) (specs net).
Definition soretInit (net : network) (h : lists) : outcome lists :=
  if psi net then
    let at_ s := position (specs net) s in
    let h := Lists [] (strengths h) (pairs h) in
    let comp := zeros net in
    let comp := put comp (at_ He) 1 in let h := soretAdd net comp 65 h in
    let comp := put comp (at_ He) 2 in let h := soretAdd net comp 110 h in
    let comp := put comp (at_ He) 3 in let h := soretAdd net comp 130 h in
    let comp := put comp (at_ He) 4 in let h := soretAdd net comp 566 h in
    let comp := put comp (at_ He) 0 in
    let '(comp, h) := if has net D then let comp := put comp (at_ D) 1 in let h := soretAdd net comp 45 h in (put comp (at_ D) 0, h) else (comp, h) in
    let '(comp, h) := if has net T then let comp := put comp (at_ T) 1 in let h := soretAdd net comp 45 h in (put comp (at_ T) 0, h) else (comp, h) in
    let comp := put comp (at_ I) 1 in let h := soretAdd net comp 128 h in
    let comp := put comp (at_ I) 0 in
    let comp := put comp (at_ V) 1 in let h := soretAdd net comp 490 h in
    Done h
  else Thrown.

(** DiffusionHandler.cpp:31-58: the clusters which diffuse. *)
Definition diffuses (net : network) (threshold : R) (i : nat) : bool :=
  negb (equal (factor net i) 0 || (if Rlt_dec threshold (migration net i) then true else false))%bool.
Definition diffusionInit (net : network) (threshold : R) : list nat := filter (diffuses net threshold) (seq 0 (numClusters net)).

(** The handlers of a run: of the diffusion, if it is not a dummy; of the drift, the surface first,
    then the grain boundaries ([None]: a dummy); of the thermal diffusion, if it is not a dummy. *)
Record handlers := Handlers { difOn : bool; driftOn : list (option (list R)); soretOn : bool }.

(** MaterialHandler.cpp:50-82: createDiffusionHandler. *)
Definition createDiffusion (diff : bool) (dim : Z) : outcome bool :=
  if negb diff then Done false
  else if (dim =? 0)%Z then Done false
  else if ((dim =? 1) || (dim =? 2) || (dim =? 3))%Z then Done true
  else Thrown.
(** W100MaterialHandler.h:18-25 and the other materials, MaterialHandler.h:80-98: only W100 has
    a handler of thermal diffusion. *)
Definition hasSoret (m : material) : bool := match m with W100 => true | _ => false end.
(** MaterialHandler.cpp:19-27, 84-150: the constructor, with the processes diff, advec, soret and the
    tokens of the grain boundaries. *)
Definition materialHandler (m : material) (dim : Z) (diff advec soret : bool) (gbs : list TokenModel.text) : outcome handlers :=
  match createDiffusion diff dim with
  | TokenModel.Done d =>
    match TokenModel.grainBoundaries dim gbs with
    | TokenModel.Done l => Done (Handlers d ((if advec then surfaceTable m else None) :: map (fun _ => Some grainTable) l) (soret && hasSoret m))
    | TokenModel.Thrown => Thrown
    | TokenModel.Undefined => Undefined
    end
  | TokenModel.Thrown => Thrown
  | TokenModel.Undefined => Undefined
  end.

(** PetscSolver1DHandler.cpp:132-153, PetscSolver2DHandler.cpp:151-158, PetscSolver3DHandler.cpp:180-187: the
    handlers are initialised with empty pairs by the solver of the dimension; that of no
    dimension initialises none, and those of two and three dimensions leave the thermal diffusion aside. *)
Record moving := Moving { byDiffusion : list nat; byDrift : list lists; bySoret : lists }.
Definition empty : lists := Lists [] [] [].
Fixpoint drifts (net : network) (l : list (option (list R))) : outcome (list lists) :=
  match l with
  | [] => Done []
  | t :: l' =>
    match match t with None => Done (driftDummy empty) | Some table => driftInit net table empty end with
    | TokenModel.Done h => match drifts net l' with TokenModel.Done r => Done (h :: r) | o => o end
    | TokenModel.Thrown => Thrown
    | TokenModel.Undefined => Undefined
    end
  end.
Definition setup (net : network) (threshold : R) (dim : Z) (hs : handlers) : outcome moving :=
  if (dim =? 0)%Z then Done (Moving [] [] empty)
  else
    match drifts net (driftOn hs) with
    | TokenModel.Done r =>
      match (if ((dim =? 1)%Z && soretOn hs)%bool then soretInit net empty else Done empty) with
      | TokenModel.Done s => Done (Moving (if difOn hs then diffusionInit net threshold else []) r s)
      | TokenModel.Thrown => Thrown
      | TokenModel.Undefined => Undefined
      end
    | TokenModel.Thrown => Thrown
    | TokenModel.Undefined => Undefined
    end.
