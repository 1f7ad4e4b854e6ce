(** Model of the flux, Jacobian and connectivity routines of
    ProductionReaction and DissociationReaction
    (core/network/impl/Reaction.tpp).

    Right-hand side and Jacobian are accumulated with atomic additions, so the
    effect of a routine is a list of contributions: (unknown, amount) for the
    flux, (row, column, amount) for the Jacobian. The index tables
    [_connEntries] map (participant, moment, reactant, moment) to the entry
    (row, column) (mapJacobianEntries, Reaction.tpp:1835-1955, 3000-3043); an
    entry whose row or column id is invalid is never mapped, which the model
    records as [None].

    NEReaction.tpp (125-229, 231-504, 506-678, 827-890, 892-979, 981-1042) repeats
    Reaction.tpp:690-800, 808-1072, 1078-1245, 2484-2543, 2550-2633, 2640-2700 with the
    same text up to casts to double; its creation term (101-124) is in EnergyModel. *)
From Verif Require Export CoefModel.
Set Implicit Arguments.
Open Scope R_scope.

Definition contribs := list (nat * R).
Definition jcontribs := list (option nat * option nat * R).

(** Accumulated value of one unknown / one entry. *)
Definition acc (l : contribs) (d : nat) : R :=
  Rsum l (fun '(i, x) => if (i =? d)%nat then x else 0).
Definition oeqb (o : option nat) (d : nat) : bool :=
  match o with Some i => (i =? d)%nat | None => false end.
Definition jacc (l : jcontribs) (row col : nat) : R :=
  Rsum l (fun '(o, o', x) => if (oeqb o row && oeqb o' col)%bool then x else 0).

(** [if (id != invalidIndex) body]. *)
Definition guard A (o : option nat) (body : list A) : list A :=
  match o with Some _ => body | None => [] end.
Definition gadd (o : option nat) (x : R) : contribs :=
  match o with Some d => [(d, x)] | None => [] end.
Definition when A (b : bool) (body : list A) : list A := if b then body else [].
(** Equality of two ids as the code tests it (invalidIndex equals itself). *)
Definition ideqb (a b : option nat) : bool :=
  match a, b with Some x, Some y => (x =? y)%nat | None, None => true | _, _ => false end.
Definition cval (conc : nat -> R) (o : option nat) : R :=
  match o with Some d => conc d | None => 0 end.

(** ** Production *)
Record prx := PX {
  xna : nat;                    (* speciesRangeNoI *)
  ra : nat; rb : nat;           (* _reactants *)
  ma : nat -> option nat;       (* _reactantMomentIds[0] *)
  mb : nat -> option nat;       (* _reactantMomentIds[1] *)
  pid : nat -> option nat;      (* _products[p] *)
  mp : nat -> nat -> option nat;(* _productMomentIds[p] *)
  va : R; vb : R;               (* _reactantVolumes *)
  vp : nat -> R;                (* _productVolumes[p] *)
  rate : R;                     (* _rate(gridIndex) *)
  cf : cidx -> R                (* _coefs *)
}.

Section PFLUX.
Variable x : prx.
Variable conc : nat -> R.
Definition xaxes := seq 0 (xna x).
Definition two := seq 0 2.

(** Reaction.tpp:698-716, the concentrations used in the loops. *)
Definition cR1 : R := conc (ra x).
Definition cmR1 (i : nat) : R := cval conc (ma x i).
Definition cR2 : R := conc (rb x).
Definition cmR2 (i : nat) : R := cval conc (mb x i).

(** Reaction.tpp:719-727, 745-754, 761-770, 783-794: the accumulation into f. *)
Definition fluxSum (s k : nat) : R :=
  (cf x (Co 0 0 s k) * cR1 * cR2
   + Rsum xaxes (fun i =>
       cf x (Co (S i) 0 s k) * cmR1 i * cR2
       + cf x (Co 0 (S i) s k) * cR1 * cmR2 i
       + Rsum xaxes (fun j => cf x (Co (S i) (S j) s k) * cmR1 i * cmR2 j)))
  * rate x.

Definition valid (o : option nat) : bool := match o with Some _ => true | None => false end.

(** Reaction.tpp:732-739: the products with a compact counter p. *)
Definition prodCounter (p : nat) : nat :=
  match p with O => O | _ => if valid (pid x 0) then 1%nat else O end.

(** Reaction.tpp:683-800 computeFlux. *)
Definition prodFlux : contribs :=
  [(ra x, - (fluxSum 0 0 / va x)); (rb x, - (fluxSum 0 0 / vb x))]
  ++ flat_map (fun p => gadd (pid x p) (fluxSum 0 0 / vp x (prodCounter p))) two
  ++ flat_map (fun k =>
       gadd (ma x k) (- (fluxSum 0 (S k) / va x))
       ++ gadd (mb x k) (- (fluxSum 1 (S k) / vb x))
       ++ flat_map (fun p => guard (pid x p)
            (gadd (mp x p k) (fluxSum (p + 2) (S k) / vp x p))) two) xaxes.

(** Reaction.tpp:833-836, 854-857, 877-880, 900-903 and their copies for the
    first moments: the values d/dL_0^A, d/dL_0^B, d/dL_1^A, d/dL_1^B. *)
Definition dA0 (s k : nat) : R :=
  cf x (Co 0 0 s k) * cR2 + Rsum xaxes (fun i => cf x (Co 0 (S i) s k) * cmR2 i).
Definition dB0 (s k : nat) : R :=
  cf x (Co 0 0 s k) * cR1 + Rsum xaxes (fun i => cf x (Co (S i) 0 s k) * cmR1 i).
Definition dA1 (i s k : nat) : R :=
  cf x (Co (S i) 0 s k) * cR2 + Rsum xaxes (fun j => cf x (Co (S i) (S j) s k) * cmR2 j).
Definition dB1 (i s k : nat) : R :=
  cf x (Co 0 (S i) s k) * cR1 + Rsum xaxes (fun j => cf x (Co (S j) (S i) s k) * cmR1 j).

(** Reaction.tpp:838-851 and copies: one column, all zeroth-moment rows. *)
Definition zeroRows (col : option nat) (temp : R) : jcontribs :=
  [(Some (ra x), col, - (rate x * temp / va x)); (Some (rb x), col, - (rate x * temp / vb x))]
  ++ flat_map (fun p => guard (pid x p) [(pid x p, col, rate x * temp / vp x p)]) two.

(** Reaction.tpp:921-964 / 973-1012 / 1025-1080: one first-moment row, all columns. *)
Definition momentRow (row : option nat) (w : R) (s k : nat) : jcontribs :=
  guard row (
    [(row, Some (ra x), w * dA0 s (S k)); (row, Some (rb x), w * dB0 s (S k))]
    ++ flat_map (fun i =>
         guard (ma x i) [(row, ma x i, w * dA1 i s (S k))]
         ++ guard (mb x i) [(row, mb x i, w * dB1 i s (S k))]) xaxes).

(** Reaction.tpp:802-1070 computePartialDerivatives. *)
Definition prodPartials : jcontribs :=
  zeroRows (Some (ra x)) (dA0 0 0)
  ++ zeroRows (Some (rb x)) (dB0 0 0)
  ++ flat_map (fun i =>
       guard (ma x i) (zeroRows (ma x i) (dA1 i 0 0))
       ++ guard (mb x i) (zeroRows (mb x i) (dB1 i 0 0))) xaxes
  ++ flat_map (fun k =>
       momentRow (ma x k) (- (rate x / va x)) 0 k
       ++ momentRow (mb x k) (- (rate x / vb x)) 1 k) xaxes
  ++ flat_map (fun p => guard (pid x p)
       (flat_map (fun k => momentRow (mp x p k) (rate x / vp x p) (p + 2) k) xaxes)) two.

(** Reaction.tpp:1101-1144, reduced zeroth-moment rows. *)
Definition redZero : jcontribs :=
  [(Some (ra x), Some (ra x), - (rate x * dA0 0 0 / va x))]
  ++ when (rb x =? ra x)%nat [(Some (rb x), Some (ra x), - (rate x * dA0 0 0 / vb x))]
  ++ flat_map (fun p => when (oeqb (pid x p) (ra x))
       [(pid x p, Some (ra x), rate x * dA0 0 0 / vp x p)]) two
  ++ when (rb x =? ra x)%nat [(Some (ra x), Some (rb x), - (rate x * dB0 0 0 / va x))]
  ++ [(Some (rb x), Some (rb x), - (rate x * dB0 0 0 / vb x))]
  ++ flat_map (fun p => when (oeqb (pid x p) (rb x))
       [(pid x p, Some (rb x), rate x * dB0 0 0 / vp x p)]) two.

(** Reaction.tpp:1072-1239 computeReducedPartialDerivatives. *)
Definition prodReduced : jcontribs :=
  redZero
  ++ flat_map (fun k =>
       guard (ma x k) (flat_map (fun i =>
         when (k =? i)%nat [(ma x k, ma x i, - (rate x * dA1 i 0 (S k) / va x))]
         ++ when (ideqb (ma x k) (mb x i)) [(ma x k, mb x i, - (rate x * dB1 i 0 (S k) / va x))]) xaxes)
       ++ guard (mb x k) (flat_map (fun i =>
         when (ideqb (mb x k) (ma x i)) [(mb x k, ma x i, - (rate x * dA1 i 1 (S k) / vb x))]
         ++ when (k =? i)%nat [(mb x k, mb x i, - (rate x * dB1 i 1 (S k) / vb x))]) xaxes)) xaxes
  ++ flat_map (fun p => guard (pid x p) (flat_map (fun k =>
       guard (mp x p k) (flat_map (fun i =>
         when (ideqb (mp x p k) (ma x i)) [(mp x p k, ma x i, rate x * dA1 i (p + 2) (S k) / vp x p)]
         ++ when (ideqb (mp x p k) (mb x i)) [(mp x p k, mb x i, rate x * dB1 i (p + 2) (S k) / vp x p)])
         xaxes)) xaxes)) two.
End PFLUX.

(** Reaction.tpp:492-615 computeConnectivity: the (row, column) pairs added. *)
Definition pairs := list (option nat * option nat).
Section PCONN.
Variable x : prx.
(** Reaction.tpp:499-515 (and 553-568 for the second reactant): one reactant with itself. *)
Definition connSelf (r : nat) (m : nat -> option nat) : pairs :=
  (Some r, Some r) :: flat_map (fun i => guard (m i)
     ([(Some r, m i); (m i, Some r)]
      ++ flat_map (fun j => guard (m j) [(m i, m j)]) (xaxes x))) (xaxes x).
(** Reaction.tpp:517-533, 535-551, 578-594, 596-612: rows of one cluster, columns of a reactant. *)
Definition connCross (r : nat) (m : nat -> option nat) (r' : nat) (m' : nat -> option nat) : pairs :=
  (Some r, Some r') :: flat_map (fun i =>
     guard (m' i) [(Some r, m' i)]
     ++ guard (m i) ([(m i, Some r')]
          ++ flat_map (fun j => guard (m' j) [(m i, m' j)]) (xaxes x))) (xaxes x).
Definition prodConn : pairs :=
  connSelf (ra x) (ma x)
  ++ connCross (rb x) (mb x) (ra x) (ma x)
  ++ connCross (ra x) (ma x) (rb x) (mb x)
  ++ connSelf (rb x) (mb x)
  ++ flat_map (fun p => match pid x p with
       | None => []
       | Some d => connCross d (mp x p) (ra x) (ma x) ++ connCross d (mp x p) (rb x) (mb x)
       end) two.

(** Reaction.tpp:617-681 computeReducedConnectivity. *)
Definition connSelfRed (r : nat) (m : nat -> option nat) : pairs :=
  (Some r, Some r) :: flat_map (fun i => guard (m i)
     (flat_map (fun j => when (i =? j)%nat [(m i, m j)]) (xaxes x))) (xaxes x).
Definition connCrossRed (d : nat) (m : nat -> option nat) (r' : nat) (m' : nat -> option nat) : pairs :=
  when (d =? r')%nat [(Some d, Some r')]
  ++ flat_map (fun i => guard (m i)
       (flat_map (fun j => when (ideqb (m i) (m' j)) [(m i, m' j)]) (xaxes x))) (xaxes x).
Definition prodConnRed : pairs :=
  connSelfRed (ra x) (ma x) ++ connSelfRed (rb x) (mb x)
  ++ flat_map (fun p => match pid x p with
       | None => []
       | Some d => connCrossRed d (mp x p) (ra x) (ma x) ++ connCrossRed d (mp x p) (rb x) (mb x)
       end) two.
End PCONN.

(** ** Dissociation (and re-solution, ReSolutionReaction.tpp) *)
Record drx := DX {
  yna : nat;
  rp : nat;                      (* _reactant *)
  mr : nat -> option nat;        (* _reactantMomentIds *)
  dpid : nat -> nat;             (* _products[p] *)
  dmp : nat -> nat -> option nat;(* _productMomentIds[p] *)
  vr : R;                        (* _reactantVolume *)
  dvp : nat -> R;                (* _productVolumes[p] *)
  drate : R;
  dcf : cidx -> R
}.

Section DFLUX.
Variable y : drx.
Variable conc : nat -> R.
Definition yaxes := seq 0 (yna y).

Definition cR : R := conc (rp y).
Definition cmR (i : nat) : R := cval conc (mr y i).

(** Reaction.tpp:2497-2501, 2510-2514, ... *)
Definition dfluxSum (s k : nat) : R :=
  (dcf y (Co 0 0 s k) * cR + Rsum yaxes (fun i => dcf y (Co (S i) 0 s k) * cmR i)) * drate y.

(** Reaction.tpp:2477-2541 computeFlux. *)
Definition dissFlux : contribs :=
  [(rp y, - (dfluxSum 0 0 / vr y)); (dpid y 0, dfluxSum 0 0 / dvp y 0);
   (dpid y 1, dfluxSum 0 0 / dvp y 1)]
  ++ flat_map (fun k =>
       gadd (mr y k) (- (dfluxSum 0 (S k) / vr y))
       ++ gadd (dmp y 0 k) (dfluxSum 1 (S k) / dvp y 0)
       ++ gadd (dmp y 1 k) (dfluxSum 2 (S k) / dvp y 1)) yaxes.

(** One row of the Jacobian: Reaction.tpp:2554-2564 and copies. *)
Definition dRow (row : option nat) (df : R) (s k : nat) : jcontribs :=
  (row, Some (rp y), df * dcf y (Co 0 0 s k))
  :: flat_map (fun i => guard (mr y i) [(row, mr y i, df * dcf y (Co (S i) 0 s k))]) yaxes.

(** Reaction.tpp:2543-2631 computePartialDerivatives. *)
Definition dissPartials : jcontribs :=
  dRow (Some (rp y)) (- (drate y / vr y)) 0 0
  ++ dRow (Some (dpid y 0)) (drate y / dvp y 0) 0 0
  ++ dRow (Some (dpid y 1)) (drate y / dvp y 1) 0 0
  ++ flat_map (fun k =>
       guard (mr y k) (dRow (mr y k) (- (drate y / vr y)) 0 (S k))
       ++ guard (dmp y 0 k) (dRow (dmp y 0 k) (drate y / dvp y 0) 1 (S k))
       ++ guard (dmp y 1 k) (dRow (dmp y 1 k) (drate y / dvp y 1) 2 (S k))) yaxes.

(** Reaction.tpp:2633-2695 computeReducedPartialDerivatives. The guard of the
    second product is [_productMomentIds[0]] (line 2685), as in the code. *)
Definition dissReduced : jcontribs :=
  [(Some (rp y), Some (rp y), - (drate y / vr y) * dcf y (Co 0 0 0 0))]
  ++ when (dpid y 0 =? rp y)%nat
       [(Some (dpid y 0), Some (rp y), drate y / dvp y 0 * dcf y (Co 0 0 0 0))]
  ++ when (dpid y 1 =? rp y)%nat
       [(Some (dpid y 1), Some (rp y), drate y / dvp y 1 * dcf y (Co 0 0 0 0))]
  ++ flat_map (fun k =>
       guard (mr y k) (flat_map (fun i => when (k =? i)%nat
         [(mr y k, mr y i, - (drate y / vr y) * dcf y (Co (S i) 0 0 (S k)))]) yaxes)
       ++ guard (dmp y 0 k) (flat_map (fun i => when (ideqb (dmp y 0 k) (mr y i))
         [(dmp y 0 k, mr y i, drate y / dvp y 0 * dcf y (Co (S i) 0 1 (S k)))]) yaxes)
       ++ guard (dmp y 0 k) (flat_map (fun i => when (ideqb (dmp y 1 k) (mr y i))
         [(dmp y 1 k, mr y i, drate y / dvp y 1 * dcf y (Co (S i) 0 2 (S k)))]) yaxes)) yaxes.

(** Reaction.tpp:2360-2421 computeConnectivity. *)
Definition dConnCross (r : nat) (m : nat -> option nat) : pairs :=
  (Some r, Some (rp y)) :: flat_map (fun i =>
     guard (mr y i) [(Some r, mr y i)]
     ++ guard (m i) ([(m i, Some (rp y))]
          ++ flat_map (fun j => guard (mr y j) [(m i, mr y j)]) yaxes)) yaxes.
Definition dissConn : pairs :=
  ((Some (rp y), Some (rp y)) :: flat_map (fun i => guard (mr y i)
     ([(Some (rp y), mr y i); (mr y i, Some (rp y))]
      ++ flat_map (fun j => guard (mr y j) [(mr y i, mr y j)]) yaxes)) yaxes)
  ++ dConnCross (dpid y 0) (dmp y 0) ++ dConnCross (dpid y 1) (dmp y 1).

(** Reaction.tpp:2423-2475 computeReducedConnectivity. *)
Definition dConnCrossRed (d : nat) (m : nat -> option nat) : pairs :=
  when (d =? rp y)%nat [(Some d, Some (rp y))]
  ++ flat_map (fun i => guard (m i)
       (flat_map (fun j => when (ideqb (m i) (mr y j)) [(m i, mr y j)]) yaxes)) yaxes.
Definition dissConnRed : pairs :=
  ((Some (rp y), Some (rp y)) :: flat_map (fun i => guard (mr y i)
     (flat_map (fun j => when (i =? j)%nat [(mr y i, mr y j)]) yaxes)) yaxes)
  ++ dConnCrossRed (dpid y 0) (dmp y 0) ++ dConnCrossRed (dpid y 1) (dmp y 1).
End DFLUX.

(** ** Re-solution: the text of ReSolutionReaction.tpp:198-545 (connectivity,
    reduced connectivity, flux, partials, reduced partials) is that of the
    dissociation, and ReSolutionReaction.tpp:49-146 (coefficients) too. *)
Definition resoFlux := dissFlux.
Definition resoPartials := dissPartials.
Definition resoReduced := dissReduced.
Definition resoConn := dissConn.
Definition resoConnRed := dissConnRed.
Definition resoCoefs := dissCoefs.
