(** The tables of a run at one point (solver/src/monitor/PetscMonitor0D.cpp): retentionOut.txt of -xenon_retention and the files of -bubble.

    Modelled code: PetscMonitor0D.cpp:173-228 (the headings and the order of the clusters), 387-452 (computeXenonRetention), 590-655 (monitorBubble).
    The reaction file is as in RatesModel, the totals as in TotalsModel. Left out: the logs and how numbers are printed. *)
From Coq Require Import ZArith Reals List Bool.
From Verif Require Import Sums RatesModel TotalsModel.
Import ListNotations.
Set Implicit Arguments.
Open Scope R_scope.

Inductive heading := HTime | HContent | HI (n : Z) | HV (n : Z) | HXe (n : Z) | HXeV (x v : Z) | HRatio | HVariance.

(** lines 211-218; xenon, vacancies, interstitials *)
Definition label (c : Z * Z * Z) : heading :=
  match c with (x, v, i) =>
    if (0 <? i)%Z then HI i
    else if (0 <? v)%Z && (x =? 0)%Z then HV v
    else if (0 <? x)%Z && (v =? 0)%Z then HXe x
    else HXeV x v
  end.
Section RETENTION.
Variable cluster : Z * Z * Z -> option nat.   (* findClusterId, None: invalid *)
(** lines 192-225: [cur] has been read. [None]: undefined. *)
Fixpoint columnLoop (cur : line) (rest : list fline) : option (list (heading * nat)) :=
  match cur with
  | [] => Some []
  | _ =>
    match compAt cur 0 with
    | None => None
    | Some c =>
      let here := match cluster c with Some id => [(label c, id)] | None => [] end in
      match rest with
      | [] => Some here
      | Marker :: _ => Some here
      | Toks l :: r => match columnLoop l r with Some q => Some (here ++ q) | None => None end
      end
    end
  end.
(** lines 180-190; a file which cannot be opened has no lines *)
Definition columns (file : list fline) : option (list (heading * nat)) :=
  match file with [] => Some [] | x :: r => columnLoop (tokens x) r end.
(** lines 177, 226 *)
Definition headings (cols : list (heading * nat)) : list heading := [HTime; HContent] ++ map fst cols ++ [HRatio; HVariance].

(** A quotient; [None]: not a number, or infinite. *)
Definition quotient (x y : R) : option R := if Req_EM_T y 0 then None else Some (x / y).
(** lines 419, 429-441: species 0 is xenon, 1 are the vacancies. The ratio and the variance are getTotalVolumeRatio and getTotalRatioVariance
    (ReactionNetwork.tpp:1336-1468). *)
Definition row (cs : list tcl) (concs : nat -> R) (cols : list (heading * nat)) (time : R) : list (option R) :=
  let content := getTotalAtomConcentration cs concs 0 1 in
  [Some time; Some content] ++ map (fun col => Some (concs (snd col))) cols ++
  (if Rlt_dec content (/ 10 ^ 16) then [Some 0; Some 0]
   else match quotient (ratioNumerator cs concs 1 0 2) (ratioDenominator cs concs 1 0 2) with
        | None => [None; None]
        | Some ratio => [Some ratio; quotient (varianceNumerator cs concs 1 0 ratio 2) (ratioDenominator cs concs 1 0 2)]
        end).
End RETENTION.

(** Iron: the region of a cluster, helium, vacancies, interstitials. *)
Record region := Region { heR : Z * Z; vR : Z * Z; iR : Z * Z }.
Definition zero (r : Z * Z) : bool := (fst r =? 0)%Z.
(** Composition::isOnAxis of the origin: that amount is positive and the others are 0. *)
Definition onAxis (own o1 o2 : Z * Z) : bool := (0 <? fst own)%Z && zero o1 && zero o2.
(** lines 632-648: the rows of the file, (low, high) for helium and vacancies, and the concentration; [i]: the index of the first region. *)
Fixpoint bubbleRows (i : nat) (rs : list region) (concs : nat -> R) : list (Z * Z * Z * Z * R) :=
  match rs with
  | [] => []
  | r :: q =>
    (if onAxis (iR r) (heR r) (vR r) || onAxis (vR r) (heR r) (iR r) || onAxis (heR r) (vR r) (iR r) then []
     else [(fst (heR r), (snd (heR r) - 1)%Z, fst (vR r), (snd (vR r) - 1)%Z, concs i)])
    ++ bubbleRows (S i) q concs
  end.
Definition monitorBubble (rs : list region) (concs : nat -> R) := bubbleRows 0 rs concs.
(** ReactionNetwork.h:697-703: getTotalRatioVariance of the interface of all networks (species by its number), as written: the arguments which remain are the type and [minSize], which is taken
    for the mean. *)
Definition varianceById (cs : list tcl) (concs : nat -> R) (mean : R) (minSize : Z) : option R :=
  quotient (varianceNumerator cs concs 1 0 (IZR minSize) 0) (ratioDenominator cs concs 1 0 0).
