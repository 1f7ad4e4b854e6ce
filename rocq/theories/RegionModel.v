(** Model of core/network/detail/ReactionUtility.h and of
    Reaction::computeOverlap (core/network/impl/Reaction.tpp). *)
From Verif Require Export MathModel.
Open Scope R_scope.

(** plsm::Interval, half open [begin,end) (external library; only begin(),
    end() and iteration are used by the code modelled here). *)
Record ival := Iv { ib : Z; ie : Z }.

(** makeIntervalRange(iv): begin, begin+1, ..., end-1. *)
Definition pts (v : ival) : list Z := zlist (ib v) (ie v - 1).

Definition ilen (v : ival) : Z := (ie v - ib v)%Z.

(** ReactionUtility.h:388-389, the mean of an interval. *)
Definition imean (v : ival) : R := IZR (ie v - 1 + ib v) / 2.

(** ReactionUtility.h:375-392. The accumulation order of the two loops is
    immaterial over [R]. *)
Definition computeFirstOrderSum (cl1 cl2 cl3 cl4 : ival) : R :=
  Rsum (pts cl4) (fun m => Rsum (pts cl2) (fun l =>
    firstOrderSum (IZR (Z.max (ib cl3 + m - l) (ib cl1)))
                  (IZR (Z.min (ie cl3 - 1 + m - l) (ie cl1 - 1)))
                  (imean cl1))).

(** ReactionUtility.h:400-417. *)
Definition computeSecondOrderSum (cl1 cl2 cl3 cl4 : ival) : R :=
  Rsum (pts cl4) (fun m => Rsum (pts cl2) (fun l =>
    secondOrderSum (IZR (Z.max (ib cl3 + m - l) (ib cl1)))
                   (IZR (Z.min (ie cl3 - 1 + m - l) (ie cl1 - 1)))
                   (imean cl1))).

(** ReactionUtility.h:425-445. *)
Definition computeSecondOrderOffsetSum (cl1 cl2 cl3 cl4 : ival) : R :=
  Rsum (pts cl4) (fun m => Rsum (pts cl2) (fun l =>
    secondOrderOffsetSum (IZR (Z.max (ib cl3 + m - l) (ib cl1)))
                         (IZR (Z.min (ie cl3 - 1 + m - l) (ie cl1 - 1)))
                         (imean cl1) (imean cl3) (IZR (l - m)))).

(** ReactionUtility.h:453-475; [pow(v, 2.0)] is [v * v]. *)
Definition computeThirdOrderSum (cl1 cl2 cl3 cl4 : ival) : R :=
  Rsum (pts cl4) (fun m => Rsum (pts cl2) (fun l =>
    (IZR l - imean cl2) * (IZR l - imean cl2) *
    firstOrderSum (IZR (Z.max (ib cl3 + m - l) (ib cl1)))
                  (IZR (Z.min (ie cl3 - 1 + m - l) (ie cl1 - 1)))
                  (imean cl1))).

(** Reaction.tpp:295-311, the second order mixed sum written inline in
    ProductionReaction::computeCoefficients (without its constant factor). *)
Definition mixedSecondOrderSum (cl1 cl2 pr1 pr2 : ival) : R :=
  Rsum (pts pr2) (fun m => Rsum (pts cl1) (fun l =>
    (IZR l - imean cl1) *
    firstOrderSum (IZR (Z.max (ib pr1 + m - l) (ib cl2)))
                  (IZR (Z.min (ie pr1 - 1 + m - l) (ie cl2 - 1)))
                  (imean cl2))).

(** Reaction.tpp:377-400, the third order mixed sum written inline
    (without its constant factor). *)
Definition mixedThirdOrderSum (cl1 cl2 this other : ival) : R :=
  Rsum (pts other) (fun m => Rsum (pts cl1) (fun l =>
    (IZR l - imean cl1) *
    secondOrderOffsetSum (IZR (Z.max (ib this + m - l) (ib cl2)))
                         (IZR (Z.min (ie this - 1 + m - l) (ie cl2 - 1)))
                         (imean cl2) (imean this) (IZR (l - m)))).

(** Reaction.tpp:68-76, one axis of computeOverlap ([_widths] starts at 0). *)
Definition overlapWidth (cl1 cl2 pr1 pr2 : ival) : R :=
  Rsum (pts pr2) (fun m => Rsum (pts cl2) (fun l =>
    Rmax 0 (IZR (Z.min (ie cl1 - 1 + l) (ie pr1 - 1 + m)
                 - Z.max (ib cl1 + l) (ib pr1 + m)) + 1))).

(** ReactionUtility.h:236-288 (one vacancy species), the entry written at the
    vacancy index, for a region with interstitial range [i] and vacancy range
    [v]; [onI] is the test of line 257 on the first product. *)
Definition projectsOnI (pr1I : ival) : bool := (1 <? ie pr1I)%Z.
Definition reflectOne (onI : bool) (i v : ival) : ival :=
  if onI then Iv (ib i - ie v + 1) (ie i - ib v)
  else Iv (ib v - ie i + 1) (ie v - ib i).

(** ReactionUtility.h:165-225 (two vacancy species, V and Basal). *)
Definition reflectTwo (onI : bool) (i v basal : ival) : ival :=
  if onI then Iv (ib i - ie v - ie basal + 2) (ie i - ib v - ib basal)
  else Iv (ib v + ib basal - ie i + 1) (ie v + ie basal - ib i - 1).

(** ReactionUtility.h:53-154 (more than two vacancy species: V, Void, Faulted
    against I, Perfect, Frank). *)
Definition reflectSix (onI : bool) (i perfect frank v void faulted : ival) : ival :=
  if onI then
    Iv (ib i + ib perfect + ib frank - ie v - ie void - ie faulted + 3)
       (ie i + ie perfect + ie frank - ib v - ib void - ib faulted - 2)
  else
    Iv (ib v + ib void + ib faulted - ie i - ie perfect - ie frank + 3)
       (ie v + ie void + ie faulted - ib i - ib perfect - ib frank - 2).

(** ReactionUtility.h:340-352 and 316-332, the vacancy entry of the
    dispersion. *)
Definition reflectedDispOne (dispI dispV : R) : R := dispV + dispI - 1.
Definition reflectedDispMany (dispV : R) (others : list R) : R :=
  dispV + Rsum others (fun d => d) - INR (length others).
