(** A coupled run: the network is cut into sub-networks which are solved one by one, and a primary instance which holds the whole network
    (interface/src/MultiXolotl.cpp, AlphaZrSubOptions.cpp, AlloySubOptions.cpp). The reactions between the sub-networks are C17 and C67, the maps C40, the times C22;
    here: the options of the sub-networks, the sources which they are given, and the concentrations which the primary instance is given.
    One process; solving and the rates are functions which are not looked into. *)
From Verif Require Import SourceModel OutputModel FileModel.
Set Implicit Arguments.
Open Scope R_scope.

(** ** Options *)
(** Options.cpp:202-232, setNetworkParameters: basal clusters or largest alloy cluster, voids, unused, vacancies, interstitials. A list
    of two to four parameters is read behind its end ([None]), as is an empty one. *)
Record limits := Limits { maxImpurity : nat; maxD : nat; maxT : nat; maxV : nat; maxI : nat }.
Definition networkParameters (p : list nat) : option limits :=
  match p with
  | [a] => Some (Limits a 0 0 20 6)
  | a :: b :: c :: d :: e :: _ => Some (Limits a b c d e)
  | _ => None
  end.
(** AlphaZrSubOptions.cpp:20-39: one set of parameters for every parameter which is not zero *)
Definition zrSubOptions (p : list nat) : list (list nat) :=
  flat_map (fun i => if Nat.eqb (nth i p 0%nat) 0 then []
                     else [map (fun k => if Nat.eqb k i then nth i p 0%nat else 0%nat) (seq 0 (length p))]) (seq 0 (length p)).
(** AlloySubOptions.cpp:17-46; the parameters after the fifth are kept. [None]: fewer than five parameters are written behind their end. *)
Definition alloySubOptions (p : list nat) : option (list (list nat)) :=
  match p with
  | a :: b :: c :: d :: e :: r =>
      Some ((if Nat.eqb d 0 then [] else [a :: b :: 0 :: d :: 0 :: r]) ++ (if Nat.eqb e 0 then [] else [a :: 0 :: 0 :: 0 :: e :: r]))%nat
  | _ => None
  end.

(** ** Sources *)
(** AlphaZrFitFluxHandler.h:195-211, AlloyFitFluxHandler.h:365-388: for every cluster of the sub-network, in the order of the map, the
    first source of the primary handler with its index *)
Definition getImplantedFlux (map_ : list nat) (sources : list (nat * R)) : list (nat * R) :=
  flat_map (fun i => match find (fun s => Nat.eqb (nth i map_ 0%nat) (fst s)) sources with Some s => [(i, snd s)] | None => [] end)
    (seq 0 (length map_)).

(** The handler of zirconium: the vectors fluxIndices, incidentFluxVec and their copies fluxIds, incidentFlux from which
    computeIncidentFlux (lines 183-189) takes the sources *)
Record zrHandler := ZrHandler { host : list (nat * R); device : list (nat * R) }.
(** lines 104-164 with FluxHandler.cpp:121-145; [None]: incidentFluxVec[0] of a vector without entries *)
Definition zrInitialize (net : zrNet) (l : limits) (portion : R) (h : zrHandler) : option zrHandler :=
  match zrInit net (maxI l) (maxV l) (maxImpurity l) portion (host h) with
  | [] => None
  | st => Some (ZrHandler st st)
  end.
(** lines 213-228: the vectors are replaced. *)
Definition zrSetImplantedFlux (flux : list (nat * R)) (h : zrHandler) : zrHandler := ZrHandler flux (device h).
(** MultiXolotl.cpp:218-236: the sub-network is initialised and given the sources of the primary handler. The sources of a solve: *)
Definition zrCoupled (prim : list (nat * R)) (net : zrNet) (p : list nat) (portion : R) (map_ : list nat) : option (list (nat * R)) :=
  match networkParameters p with
  | Some l =>
      match zrInitialize net l portion (ZrHandler [] []) with
      | Some h => Some (device (zrSetImplantedFlux (getImplantedFlux map_ prim) h))
      | None => None
      end
  | None => None
  end.

(** AlloyFitFluxHandler.h:390-411: the indices and the first column of the rates are replaced; [None]: throws. The mirror of the rates
    is the view itself. *)
Definition alloySetImplantedFlux (flux : list (nat * R)) (rows : list (nat * list R)) : option (list (nat * list R)) :=
  if Nat.eqb (length flux) (length rows)
  then Some (map (fun fr => (fst (fst fr), match snd (snd fr) with [] => [] | _ :: t => snd (fst fr) :: t end)) (combine flux rows))
  else None.
(** XolotlInterface.cpp:116-122: the primary instance does not solve, its handler has no grid. MultiXolotl.cpp:231-236; [prim]: the sources of the
    primary handler, [rows]: those of the sub-network. *)
Definition alloyCoupled (prim rows : list (nat * list R)) (map_ : list nat) : option (list (nat * list R)) :=
  alloySetImplantedFlux (getImplantedFlux map_ (map (fun r => (fst r, nth 0 (snd r) 0)) prim)) rows.

(** ** Concentrations *)
Section STEP.
Variable nClusters : list nat.  (* _subDOFs: MultiXolotl.cpp:203-205, the number of clusters *)
Variable fromSubNetwork : nat -> nat -> nat.
(** MultiXolotl.cpp:252-257, 270-276: the pairs of one grid point of the sub-network i *)
Definition subConc (i : nat) (pairs : list (nat * R)) : list R :=
  fold_left (fun s p => if (fst p <? nth i nClusters 0)%nat then setEntry s (fst p) (snd p) else s) pairs (repeat 0 (nth i nClusters 0%nat)).
(** MultiXolotl.cpp:239-283; [concs]: getConcVector of every sub-network, its row [0][0]. The points of the grid are counted by the temperatures.
    [None]: a point which the sub-network does not have. *)
Definition points (temperatures : list R) : nat := if (length temperatures <? 2)%nat then 1 else length temperatures - 2.
Definition getSubInstanceData (temperatures : list R) (concs : list (list (list (nat * R)))) : option (list (list (list R))) :=
  match concs with
  | [] => None (* _subInstances[0] *)
  | _ => allSome (map (fun j => allSome (map (fun i => option_map (subConc i) (nth_error (nth i concs []) j)) (seq 0 (length concs))))
           (seq 0 (points temperatures)))
  end.

(** MultiXolotl.cpp:331-376: what is set in the sub-networks: (sub-network, grid index, rates). [rates]: network.computeConstantRates of the primary
    network at a temperature and depth, for the concentrations and the sub-network (XolotlInterface.cpp:442-473). *)
Variable A : Type.
Variable rates : R -> R -> (nat -> R) -> nat -> A.
Definition updateTemperaturesAndRates (temperatures depths : list R) (data : list (list (list R))) (gridIndex : nat) : option (list (nat * nat * A)) :=
  match nth_error temperatures gridIndex, nth_error depths gridIndex,
        (if Nat.eqb (length data) 1 then nth_error data 0 else match gridIndex with O => None | S j => nth_error data j end) with
  | Some t, Some d, Some conc => Some (map (fun i => (i, gridIndex, rates t d (fullConc fromSubNetwork conc) i)) (seq 0 (length nClusters)))
  | _, _, _ => None
  end.
Definition stepRates (temperatures depths : list R) (concs : list (list (list (nat * R)))) : option (list (nat * nat * A)) :=
  match getSubInstanceData temperatures concs with
  | Some data => option_map (@concat _)
      (allSome (map (updateTemperaturesAndRates temperatures depths data)
                  (if (length temperatures <? 2)%nat then [0%nat] else map S (seq 0 (length temperatures - 2)))))
  | None => None
  end.
End STEP.
