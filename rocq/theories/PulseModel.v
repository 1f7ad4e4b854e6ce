(** The sources of nuclear fuel (core/include/xolotl/core/flux/FuelFitFluxHandler.h) and of pulses (PulsedFitFluxHandler.h), and what
    the handlers make of the option fluxFile, a time profile. [None] is undefined behaviour. The lines of the reaction file
    are those of RatesModel. The copies to the device are not distinguished from the vectors. *)
From Coq Require Import Reals List Bool ZArith R_Ifp.
From Verif Require Import Sums EnergyModel RatesModel ProfileModel ImplantModel SourceModel.
Import ListNotations.
Set Implicit Arguments.
Open Scope R_scope.

(** util/MathUtils.h:80-83; epsilon is 2^-52. *)
Definition isZero (x : R) : bool := if Rlt_dec (Rabs x) (/ 4503599627370496) then true else false.
(** core/src/flux/FluxHandler.cpp:16-39: the amplitude and useTimeProfile; [None]: throws *)
Definition constructor (amplitude : option R) (profile : option (list R * list R)) : option (R * bool) :=
  match amplitude, profile with Some _, Some _ => None | Some a, None => Some (a, false) | None, Some _ => Some (0, true) | None, None => Some (0, false) end.

(** *** Fuel *)
(** FuelFitFluxHandler.h:160-175: the free energies of the states, tokens 3, 7, 11 ... with the number behind *)
Fixpoint energies (T : R) (l : line) : option (list R) :=
  match l with
  | [] => Some []
  | [_] => None
  | h :: s :: _ :: _ :: l' => match energies T l' with Some gs => Some ((h - kB * T * s) :: gs) | None => None end
  | h :: s :: _ => Some [h - kB * T * s]
  end.
Fixpoint lowest (g : R) (gs : list R) : R := match gs with [] => g | g' :: r => lowest (if Rlt_dec g' g then g' else g) r end.
(** lines 145-180, one line of the file: pureDefectFactors has two entries. *)
Definition fuelLine (T : R) (l : line) (fs : R * R) : option (R * R) :=
  match compAt l 0 with
  | None => None
  | Some (xe, v, i) =>
      if ((0 <? xe) || (0 <? i))%Z then Some fs
      else match energies T (skipn 3 l) with
           | Some (g :: gs) =>
               let g0 := lowest g (g :: gs) in
               let add f := fold_left (fun f g' => f + IZR v * exp ((g0 - g') / (kB * T))) (g :: gs) f in
               if (v =? 1)%Z then Some (add (fst fs), snd fs) else if (v =? 2)%Z then Some (fst fs, add (snd fs)) else None
           | _ => None
           end
  end.
Fixpoint fuelLines (T : R) (ls : list line) (fs : R * R) : option (R * R) :=
  match ls with [] => Some fs | l :: r => match fuelLine T l fs with Some fs' => fuelLines T r fs' | None => None end end.
(** lines 74-202: [net] finds V, V2, I and Xe. The state: fluxIndices, pureDefectIds, pureDefectFactors *)
Record fuelState := FuelState { fuelIndices : list nat; pureIds : list nat; factors : R * R }.
Inductive fuelRes := Ready (st : fuelState) | Throws | Undefined.
Record fuelNet := FuelNet { fV : option nat; fV2 : option nat; fI : option nat; fXe : option nat }.
Definition fuelInit (net : fuelNet) (T : R) (file : list fline) (amplitude : R) (useTimeProfile : bool) (st : fuelState) : fuelRes :=
  if (isZero amplitude && negb useTimeProfile)%bool then Ready st
  else match fV net, fV2 net, fI net, fXe net with
       | Some v, Some v2, Some i, Some xe =>
           match fuelLines T (fst (sections file)) (0, 0) with
           | Some fs => Ready (FuelState (fuelIndices st ++ [v; i; xe]) (pureIds st ++ [v; v2]) fs)
           | None => Undefined
           end
       | _, _, _, _ => Throws
       end.
Definition fuelStart : fuelState := FuelState [] [] (0, 0).
(** lines 207-244; core::uConcentration is 24.44 (core/Constants.h) *)
Definition available (st : fuelState) (conc : nat -> R) : R :=
  (24.44 - conc (nth 0 (pureIds st) 0%nat) * fst (factors st) - conc (nth 1 (pureIds st) 0%nat) * snd (factors st)) / 24.44.
Definition fuelAt (st : fuelState) (amplitude xeYield : R) (conc : nat -> R) : list (nat * R) :=
  match fuelIndices st with
  | v :: i :: xe :: _ => [(v, 1.0e4 * amplitude * available st conc); (i, 1.0e4 * amplitude * available st conc); (xe, xeYield * amplitude)]
  | _ => []
  end.

(** *** Pulses *)
(** PulsedFitFluxHandler.h:35-48: mu = 2000, sigma = 100 *)
Definition pulseFit (x : R) : R := Rmax (exp (- ((x - 2000.0) / (sqrt 2.0 * 100.0)) ^ 2)) 0.0.
(** lines 71-115, with FluxHandler.cpp:41-98: the vector (empty without grid), and the indices of V and I, for a network which has them. *)
Record pulseState := PulseState { pulseVec : list R; pulseIndices : list nat }.
Definition pulseInit (v i : nat) (grid : list R) (surfacePos : nat) (amplitude : R) (useTimeProfile : bool) : pulseState :=
  PulseState (match grid with [] => [] | _ => initVec pulseFit amplitude 1 (norm pulseFit grid surfacePos) grid surfacePos end)
             (if (isZero amplitude && negb useTimeProfile)%bool then [] else [v; i]).
(** A double converted to int: towards zero; undefined when it does not fit. *)
Definition toInt (x : R) : option Z :=
  let z := if Rle_dec 0 x then Int_part x else (- Int_part (- x))%Z in
  if ((-2147483648 <=? z) && (z <=? 2147483647))%Z then Some z else None.
(** lines 121-141 *)
Definition pulseAt (st : pulseState) (deltaTime alpha t : R) (xi surfacePos : nat) : option (list (nat * R)) :=
  if Req_EM_T deltaTime 0 then None
  else match toInt (t / deltaTime) with
       | None => None
       | Some cycle =>
           if Rlt_dec (alpha * deltaTime) (t - IZR cycle * deltaTime) then Some []
           else if (isZero deltaTime || isZero alpha)%bool then Some []
           else match nth_error (pulseVec st) (xi - surfacePos), pulseIndices st with
                | Some value, v :: i :: _ => Some [(v, value); (i, value)]
                | _, _ => None
                end
       end.

(** *** The base class (PSIFluxHandler and its children), FluxHandler.cpp:203-230, without grid *)
Definition baseAt (id : nat) (amplitude : R) (useTimeProfile : bool) (profile : list R * list R) (t : R) : option (list (nat * R)) :=
  if (isZero amplitude && negb useTimeProfile)%bool then Some []
  else if useTimeProfile then match lookup (fst profile) (snd profile) t with Some a => Some [(id, a)] | None => None end
  else Some [(id, amplitude)].
