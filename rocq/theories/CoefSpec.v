(** Specification of the reaction coefficients: weighted sums over balanced
    microscopic reactions, one factor per species axis. *)
From Verif Require Export RegionSpec CoefModel.

(** First-moment weight: the deviation from the interval mean on the axis
    selected by [a] (axis a-1), and 1 elsewhere; [a = 0] selects none. *)
Definition wt (a i : nat) (v : ival) (n : Z) : R :=
  if (a =? S i)%nat then IZR n - imean v else 1.

(** Balanced sum of one axis: reactant sizes n, l; product sizes s, m. *)
Definition axsum (r : preact) (i : nat) (w : Z -> Z -> Z -> Z -> R) : R :=
  msum (cl1 r i) (cl2 r i) (q1 r i) (q2 r i) w.

(** The participant whose first moment is evolved: 0/1 reactants, 2/3 products. *)
Definition slotw (r : preact) (s k i : nat) (n l p m : Z) : R :=
  match s with
  | 0%nat => wt k i (cl1 r i) n
  | 1%nat => wt k i (cl2 r i) l
  | 2%nat => wt k i (q1 r i) p
  | _ => wt k i (q2 r i) m
  end.
Definition slotd (r : preact) (s k : nat) : R :=
  match k with
  | O => 1
  | S i => match s with
           | 0%nat => disp1 r i
           | 1%nat => disp2 r i
           | 2%nat => pdisp1 r i
           | _ => pdisp2 r i
           end
  end.

(** The intended value of coefficient (a, b, s, k): the sum over all balanced
    microscopic reactions of (first-moment weight of reactant 1 on axis a) *
    (of reactant 2 on axis b) * (of participant s on axis k), over the
    dispersion of s on axis k. Sums over a product region factor by axis. *)
Definition specCoef (r : preact) (a b s k : nat) : R :=
  Rprod (axes r) (fun i => axsum r i (fun n l p m =>
     wt a i (cl1 r i) n * wt b i (cl2 r i) l * slotw r s k i n l p m)) / slotd r s k.

(** Well-formed geometry: every axis has a balanced quadruple, the width used
    by the code is their number (automatic as soon as there is a product), the
    products coincide when their ids do, and dispersions are nonzero. *)
Record goodPR (r : preact) : Prop := {
  g_w : forall i, (i < na r)%nat -> width r i = axsum r i (fun _ _ _ _ => 1);
  g_nz : forall i, (i < na r)%nat -> width r i <> 0;
  g_same : same r = true -> forall i, q1 r i = q2 r i /\ pdisp1 r i = pdisp2 r i;
  g_disp1 : forall i, disp1 r i <> 0;
  g_d2 : forall i, disp2 r i <> 0;
  g_e1 : forall i, pdisp1 r i <> 0;
  g_e2 : forall i, pdisp2 r i <> 0
}.

(** The coefficients that the code reads before they are written. *)
Definition stale (a b s k : nat) : bool :=
  match s with
  | 0%nat => ((a =? 0) && (0 <? b) && (b <? k)
              || (0 <? a) && (a <? b) && (b =? k))%nat%bool
  | 1%nat => ((0 <? a) && (a <? b) && (b =? k))%nat%bool
  | _ => ((0 <? a) && (b =? 0) && (a <? k)
          || (a =? 0) && (0 <? b) && (b <? k))%nat%bool
  end.
