(** Model of the constant rates by which a reaction of the full network acts on
    a sub-network (Reaction.tpp computeConstantRates / mapRateEntries,
    TrapMutationReaction.tpp, ConstantReaction.h).

    [rates(_rateEntries(subId, part, row, col))] is the entry (row unknown,
    column unknown) of the sub-network given by mapRateEntries
    (Reaction.tpp:1957-2204 for production, 3045-3188 for dissociation); the
    extra column [dof] is the constant one and is [None] here. A contribution is
    therefore (row, column, amount); a row [None] is an entry which was never
    mapped. The renumbering [backMap] of ids is a bijection between members of
    the sub-network and its own unknowns and is left out. *)
From Verif Require Export FluxModel.
Set Implicit Arguments.
Open Scope R_scope.

Definition rcontribs := list (option nat * option nat * R).

(** ConstantReaction.h:199-242 computeFlux: what the sub-network adds to its
    right-hand side from the stored rates. *)
Definition capply (l : rcontribs) (conc : nat -> R) (d : nat) : R :=
  Rsum l (fun '(row, col, v) => if oeqb row d then
     match col with None => v | Some c => conc c * v end else 0).

Section PCONST.
Variable inS : nat -> bool.      (* isInSub *)
Variable x : prx.
Variable conc : nat -> R.

(** Reaction.tpp:1248-1258. *)
Definition pin (p : nat) : bool := match pid x p with Some d => inS d | None => false end.
Definition productInSub : bool := (pin 0 || pin 1)%bool.
Definition noProd : bool := (negb (valid (pid x 0)) && negb (valid (pid x 1)))%bool.

(** Reaction.tpp:1301-1360: both reactants out, product in. *)
Definition constOut : rcontribs :=
  flat_map (fun p => guard (pid x p) (when (pin p)
     [(pid x p, None, fluxSum x conc 0 0 / vp x (prodCounter x p))])) two
  ++ flat_map (fun k => flat_map (fun p => guard (pid x p) (when (pin p)
       (guard (mp x p k) [(mp x p k, None, fluxSum x conc (p + 2) (S k) / vp x p)]))) two) (xaxes x).

(** Reaction.tpp:1361-1476: only the first reactant in. *)
Definition constFirst : rcontribs :=
  [(Some (ra x), Some (ra x), - (dA0 x conc 0 0 * rate x / va x))]
  ++ flat_map (fun p => guard (pid x p) (when (pin p)
       [(pid x p, Some (ra x), dA0 x conc 0 0 * rate x / vp x p)])) two
  ++ flat_map (fun i => guard (ma x i)
       ([(Some (ra x), ma x i, - (dA1 x conc i 0 0 * rate x / va x))]
        ++ flat_map (fun p => guard (pid x p) (when (pin p)
             [(pid x p, ma x i, dA1 x conc i 0 0 * rate x / vp x p)])) two)) (xaxes x)
  ++ flat_map (fun k =>
       guard (ma x k)
         ([(ma x k, Some (ra x), - (dA0 x conc 0 (S k) * rate x / va x))]
          ++ flat_map (fun i => guard (ma x i)
               [(ma x k, ma x i, - (dA1 x conc i 0 (S k) * rate x / va x))]) (xaxes x))
       ++ flat_map (fun p => guard (pid x p) (when (pin p) (guard (mp x p k)
            ([(mp x p k, Some (ra x), dA0 x conc (p + 2) (S k) * rate x / vp x p)]
             ++ flat_map (fun i => guard (ma x i)
               [(mp x p k, ma x i, dA1 x conc i (p + 2) (S k) * rate x / vp x p)]) (xaxes x))))) two)
     (xaxes x).

(** Reaction.tpp:1503-1510: the zeroth-moment rate for first moment i of the
    second reactant; the sum runs over j with [coefs(i+1, j+1, 0, 0) * cmR1[i]]. *)
Definition dB1code (i : nat) : R :=
  cf x (Co 0 (S i) 0 0) * cR1 x conc
  + Rsum (xaxes x) (fun j => cf x (Co (S i) (S j) 0 0) * cmR1 x conc i).

(** Reaction.tpp:1477-1595: only the second reactant in. *)
Definition constSecond : rcontribs :=
  [(Some (rb x), Some (rb x), - (dB0 x conc 0 0 * rate x / vb x))]
  ++ flat_map (fun p => guard (pid x p) (when (pin p)
       [(pid x p, Some (rb x), dB0 x conc 0 0 * rate x / vp x p)])) two
  ++ flat_map (fun i => guard (mb x i)
       ([(Some (rb x), mb x i, - (dB1code i * rate x / vb x))]
        ++ flat_map (fun p => guard (pid x p) (when (pin p)
             [(pid x p, mb x i, dB1code i * rate x / vp x p)])) two)) (xaxes x)
  ++ flat_map (fun k =>
       guard (mb x k)
         ([(mb x k, Some (rb x), - (dB0 x conc 1 (S k) * rate x / vb x))]
          ++ flat_map (fun i => guard (mb x i)
               [(mb x k, mb x i, - (dB1 x conc i 1 (S k) * rate x / vb x))]) (xaxes x))
       ++ flat_map (fun p => guard (pid x p) (when (pin p) (guard (mp x p k)
            ([(mp x p k, Some (rb x), dB0 x conc (p + 2) (S k) * rate x / vp x p)]
             ++ flat_map (fun i => guard (mb x i)
               [(mp x p k, mb x i, dB1 x conc i (p + 2) (S k) * rate x / vp x p)]) (xaxes x))))) two)
     (xaxes x).

(** Reaction.tpp:1241-1596 computeConstantRates. *)
Definition prodConst : rcontribs :=
  match inS (ra x), inS (rb x) with
  | false, false => if noProd then [] else if productInSub then constOut else []
  | true, true => []
  | true, false => constFirst
  | false, true => constSecond
  end.
End PCONST.

Section DCONST.
Variable inS : nat -> bool.
Variable y : drx.
Variable conc : nat -> R.

(** Reaction.tpp:2725-2817: the reactant is in. The first-moment rates of the
    first product are written at [_rateEntries(subId, 0, 1+k, 1+i)] (line 2792),
    the entry of the reactant's moment k. *)
Definition dconstIn : rcontribs :=
  [(Some (rp y), Some (rp y), - (dcf y (Co 0 0 0 0) * drate y / vr y))]
  ++ when (inS (dpid y 0)) [(Some (dpid y 0), Some (rp y), dcf y (Co 0 0 0 0) * drate y / dvp y 0)]
  ++ when (inS (dpid y 1)) [(Some (dpid y 1), Some (rp y), dcf y (Co 0 0 0 0) * drate y / dvp y 1)]
  ++ flat_map (fun i => guard (mr y i)
       ([(Some (rp y), mr y i, - (dcf y (Co (S i) 0 0 0) * drate y / vr y))]
        ++ when (inS (dpid y 0)) [(Some (dpid y 0), mr y i, dcf y (Co (S i) 0 0 0) * drate y / dvp y 0)]
        ++ when (inS (dpid y 1)) [(Some (dpid y 1), mr y i, dcf y (Co (S i) 0 0 0) * drate y / dvp y 1)]))
     (yaxes y)
  ++ flat_map (fun k =>
       guard (mr y k)
         ([(mr y k, Some (rp y), - (dcf y (Co 0 0 0 (S k)) * drate y / vr y))]
          ++ flat_map (fun i => guard (mr y i)
               [(mr y k, mr y i, - (dcf y (Co (S i) 0 0 (S k)) * drate y / vr y))]) (yaxes y))
       ++ when (inS (dpid y 0)) (guard (dmp y 0 k)
            ([(dmp y 0 k, Some (rp y), dcf y (Co 0 0 1 (S k)) * drate y / dvp y 0)]
             ++ flat_map (fun i => guard (mr y i)
               [(mr y k, mr y i, dcf y (Co (S i) 0 1 (S k)) * drate y / dvp y 0)]) (yaxes y)))
       ++ when (inS (dpid y 1)) (guard (dmp y 1 k)
            ([(dmp y 1 k, Some (rp y), dcf y (Co 0 0 2 (S k)) * drate y / dvp y 1)]
             ++ flat_map (fun i => guard (mr y i)
               [(dmp y 1 k, mr y i, dcf y (Co (S i) 0 2 (S k)) * drate y / dvp y 1)]) (yaxes y))))
     (yaxes y).

(** Reaction.tpp:2818-2867: the reactant is out. *)
Definition dconstOut : rcontribs :=
  when (inS (dpid y 0)) [(Some (dpid y 0), None, dfluxSum y conc 0 0 / dvp y 0)]
  ++ when (inS (dpid y 1)) [(Some (dpid y 1), None, dfluxSum y conc 0 0 / dvp y 1)]
  ++ flat_map (fun k =>
       when (inS (dpid y 0)) (guard (dmp y 0 k) [(dmp y 0 k, None, dfluxSum y conc 1 (S k) / dvp y 0)])
       ++ when (inS (dpid y 1)) (guard (dmp y 1 k) [(dmp y 1 k, None, dfluxSum y conc 2 (S k) / dvp y 1)]))
     (yaxes y).

(** Reaction.tpp:2697-2868 computeConstantRates (the same text in
    ReSolutionReaction.tpp:547-718). *)
Definition dissConst : rcontribs :=
  if (negb (inS (rp y)) && negb (inS (dpid y 0)) && negb (inS (dpid y 1)))%bool then []
  else if (inS (rp y) && inS (dpid y 0) && inS (dpid y 1))%bool then []
  else if inS (rp y) then dconstIn else dconstOut.
End DCONST.
