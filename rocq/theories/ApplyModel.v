(** Constant rates in a sub-network: the sparse table of XolotlInterface, the constant reactions of the Alloy and Zr networks and what they add
    to the right-hand side, the Jacobian and the connectivity. Unknowns are numbered as in the sub-network; column [dof] is the constant one.
    Position in the connectivity of the network is identified with the pair (row, column) (c67_position shows that positions and pairs
    correspond for the sparse format in question). *)
From Coq Require Import Reals List Bool Arith.
From Verif Require Import Sums FluxModel ConstModel.
Import ListNotations.
Set Implicit Arguments.
Open Scope R_scope.

(** ** Sparse format: XolotlInterface.cpp:493-508 *)
Definition rowEntries (m : nat) (M : nat -> nat -> bool) (i : nat) : list nat := filter (M i) (seq 0 m).
Fixpoint rowsFrom (m : nat) (M : nat -> nat -> bool) (last : nat) (is : list nat) : list nat :=
  last :: match is with [] => [] | i :: r => rowsFrom m M (last + length (rowEntries m M i)) r end.
Definition csrRows (n m : nat) (M : nat -> nat -> bool) : list nat := rowsFrom m M 0 (seq 0 n).
Definition csrEntries (n m : nat) (M : nat -> nat -> bool) : list nat := flat_map (rowEntries m M) (seq 0 n).
(** Reaction.h:241-252 *)
Fixpoint scan (entries : list nat) (c pos k : nat) : option nat :=
  match k with
  | O => None
  | S k' => match nth_error entries pos with
            | Some e => if e =? c then Some pos else scan entries c (S pos) k'
            | None => None
            end
  end%nat.
Definition getPosition (rows entries : list nat) (r c : nat) : option nat :=
  match nth_error rows r, nth_error rows (S r) with
  | Some a, Some b => scan entries c a (b - a)
  | _, _ => None
  end.

(** ** Which constant reactions there are: AlloyReactionNetwork.tpp:29-67 (the same text in ZrReactionNetwork.tpp:29-67), called for i <= j
    (ReactionGenerator.tpp:36-43); ConstantReactionGenerator.tpp:45-69 (enableConstantReaction). A reaction is its first reactant and its
    second one, if any. *)
Section GENERATE.
Variables (numClusters dof : nat) (enabled : bool) (rows entries : list nat).
Definition listed (r c : nat) : bool :=
  (negb (length rows =? 0))%nat && match getPosition rows entries r c with Some _ => true | None => false end.
Definition visit (i j : nat) : list (nat * option nat) :=
  (if (i =? j)%nat then when (listed i dof) [(i, None)] else [])
  ++ when (listed i j) [(i, Some j)]
  ++ (if (j =? i)%nat then [] else when (listed j i) [(j, Some i)]).
Definition constantReactions : list (nat * option nat) :=
  when enabled (flat_map (fun i => flat_map (fun j => if (j <? i)%nat then [] else visit i j) (seq 0 numClusters)) (seq 0 numClusters)).
End GENERATE.

(** ** One reaction *)
Section REACTION.
Variable na : nat.                        (* speciesRangeNoI *)
Variable mom : nat -> nat -> option nat.  (* copyMomentIds *)
Variable dof : nat.
Definition axes := seq 0 na.
(** ConstantReaction.h:355-393 mapRateEntries and 86-123 setRate: the entries (row, column) with a rate, in this order. *)
Definition slots (q : nat * option nat) : list (nat * nat) :=
  match snd q with
  | None => (fst q, dof) :: flat_map (fun i => match mom (fst q) i with Some m => [(m, dof)] | None => [] end) axes
  | Some r1 =>
      (fst q, r1) :: flat_map (fun i =>
        match mom r1 i with Some m => [(fst q, m)] | None => [] end
        ++ match mom (fst q) i with
           | Some m => (m, r1) :: flat_map (fun j => match mom r1 j with Some m' => [(m, m')] | None => [] end) axes
           | None => []
           end) axes
  end.
(** setRate: rates(getPosition(row, column)); an entry which is not in the table is read out of bounds ([None]). *)
Fixpoint collect {A B} (f : A -> option B) (l : list A) : option (list B) :=
  match l with
  | [] => Some []
  | x :: r => match f x, collect f r with Some y, Some ys => Some (y :: ys) | _, _ => None end
  end.
Definition readRate (rows entries : list nat) (rates : nat -> R) (s : nat * nat) : option (nat * nat * R) :=
  match getPosition rows entries (fst s) (snd s) with
  | Some p => if (p <? length entries)%nat then Some (fst s, snd s, rates p) else None
  | None => None
  end.
Definition setRate rows entries rates (q : nat * option nat) : option (list (nat * nat * R)) :=
  collect (readRate rows entries rates) (slots q).
(** ConstantReaction.h:199-242 computeFlux, 244-273 computePartialDerivatives *)
Definition constFlux (conc : nat -> R) (q : nat * option nat) (ks : list (nat * nat * R)) : contribs :=
  map (fun '(row, col, k) => match snd q with None => (row, k) | Some _ => (row, conc col * k) end) ks.
Definition constPartials (q : nat * option nat) (ks : list (nat * nat * R)) : list (nat * nat * R) :=
  match snd q with None => [] | Some _ => ks end.
(** ConstantReaction.h:133-177 computeConnectivity *)
Definition constConnectivity (q : nat * option nat) : list (nat * nat) :=
  ((fst q, fst q) :: flat_map (fun i => match mom (fst q) i with
     | Some m => (fst q, m) :: (m, fst q) :: flat_map (fun j => match mom (fst q) j with Some m' => [(m, m')] | None => [] end) axes
     | None => [] end) axes)
  ++ match snd q with
     | None => []
     | Some r1 =>
        (fst q, r1) :: flat_map (fun i =>
          match mom r1 i with Some m => [(fst q, m)] | None => [] end
          ++ match mom (fst q) i with
             | Some m => (m, r1) :: flat_map (fun j => match mom r1 j with Some m' => [(m, m')] | None => [] end) axes
             | None => []
             end) axes
     end.
(** 179-197 computeReducedConnectivity *)
Definition constReducedConnectivity (q : nat * option nat) : list (nat * nat) :=
  (fst q, fst q) :: flat_map (fun i => match mom (fst q) i with
     | Some _ => flat_map (fun j => if (i =? j)%nat then match mom (fst q) i, mom (fst q) j with Some m, Some m' => [(m, m')] | _, _ => [] end else []) axes
     | None => [] end) axes.
(** The network's right-hand side and Jacobian: sums over its reactions (AlloyReactionNetwork and ZrReactionNetwork run computeFlux and
    computePartialDerivatives of every reaction, ReactionCollection.h); only the constant reactions are here. [None] in the rates of one
    reaction is outside what is summed (c67_defined shows it does not occur). *)
Definition ratesOf rows entries rates q := match setRate rows entries rates q with Some ks => ks | None => [] end.
Definition networkFlux rows entries rates (qs : list (nat * option nat)) (conc : nat -> R) (d : nat) : R :=
  acc (flat_map (fun q => constFlux conc q (ratesOf rows entries rates q)) qs) d.
Definition networkJacobian rows entries rates (qs : list (nat * option nat)) (d c : nat) : R :=
  Rsum (flat_map (fun q => constPartials q (ratesOf rows entries rates q)) qs)
    (fun '(row, col, k) => if ((row =? d) && (col =? c))%nat then k else 0).
(** 325-352 mapJacobianEntries: _connEntries[0][a][0][b], [None] where it is never assigned. *)
Definition connEntry (r0 r1 a b : nat) : option (nat * nat) :=
  match a, b with
  | O, O => Some (r0, r1)
  | O, S i => match mom r1 i with Some m => Some (r0, m) | None => None end
  | S i, O => match mom r0 i with Some m => Some (m, r1) | None => None end
  | S i, S j => match mom r0 i, mom r1 j with Some m, Some m' => Some (m, m') | _, _ => None end
  end.
(** 275-299 computeReducedPartialDerivatives: the entries which are written, i.e. [values(position of the entry)]. *)
Definition reducedEntries (q : nat * option nat) : list (option (nat * nat)) :=
  match snd q with
  | None => []
  | Some r1 =>
      if (r1 =? fst q)%nat then
        connEntry (fst q) r1 0 0 :: flat_map (fun i => flat_map (fun j => match mom r1 j with Some _ => [connEntry (fst q) r1 (S i) (S j)] | None => [] end) axes) axes
      else []
  end.
End REACTION.

(** ** Filling the vector of rates: rates(entry) += amount, ReactionNetwork.tpp and Reaction.tpp computeConstantRates; the contributions are those of ConstModel. *)
Definition position (dof : nat) (M : nat -> nat -> bool) (row col : option nat) : option nat :=
  match row with
  | Some r => getPosition (csrRows dof (S dof) M) (csrEntries dof (S dof) M) r (match col with Some c => c | None => dof end)
  | None => None
  end.
Definition store (dof : nat) (M : nat -> nat -> bool) (l : rcontribs) (p : nat) : R :=
  Rsum l (fun '(row, col, v) => if oeqb (position dof M row col) p then v else 0).

(** ** The table of entries: Reaction.tpp:1598-1811 getConstantConnectivities of a production, 2869-2981 of a dissociation *)
Section CONNS.
Variable inS : nat -> bool.
Definition conns := list (option nat * option nat).
Section PRODUCTION.
Variable x : prx.
Definition ps (f : nat -> conns) : conns := flat_map (fun p => guard (pid x p) (when (pin inS x p) (f p))) two.
Definition prodConnsOut : conns :=
  ps (fun p => [(pid x p, None)]) ++ flat_map (fun k => ps (fun p => guard (mp x p k) [(mp x p k, None)])) (xaxes x).
(** both cases of a single reactant [c] with moments [m] in the sub-network *)
Definition prodConnsIn (c : nat) (m : nat -> option nat) : conns :=
  [(Some c, Some c)] ++ ps (fun p => [(pid x p, Some c)])
  ++ flat_map (fun i => guard (m i) ([(Some c, m i)] ++ ps (fun p => [(pid x p, m i)]))) (xaxes x)
  ++ flat_map (fun k =>
       guard (m k) ([(m k, Some c)] ++ flat_map (fun i => guard (m i) [(m k, m i)]) (xaxes x))
       ++ ps (fun p => guard (mp x p k) ([(mp x p k, Some c)] ++ flat_map (fun i => guard (m i) [(mp x p k, m i)]) (xaxes x)))) (xaxes x).
Definition prodConns : conns :=
  match inS (ra x), inS (rb x) with
  | false, false => if noProd x then [] else if productInSub inS x then prodConnsOut else []
  | true, true => []
  | true, false => prodConnsIn (ra x) (ma x)
  | false, true => prodConnsIn (rb x) (mb x)
  end.
End PRODUCTION.
Section DISSOCIATION.
Variable y : drx.
Definition dps (f : nat -> conns) : conns := when (inS (dpid y 0)) (f 0%nat) ++ when (inS (dpid y 1)) (f 1%nat).
Definition dissConnsIn : conns :=
  [(Some (rp y), Some (rp y))] ++ dps (fun p => [(Some (dpid y p), Some (rp y))])
  ++ flat_map (fun i => guard (mr y i) ([(Some (rp y), mr y i)] ++ dps (fun p => [(Some (dpid y p), mr y i)]))) (yaxes y)
  ++ flat_map (fun k =>
       guard (mr y k) ([(mr y k, Some (rp y))] ++ flat_map (fun i => guard (mr y i) [(mr y k, mr y i)]) (yaxes y))
       ++ dps (fun p => guard (dmp y p k) ([(dmp y p k, Some (rp y))] ++ flat_map (fun i => guard (mr y i) [(dmp y p k, mr y i)]) (yaxes y)))) (yaxes y).
Definition dissConnsOut : conns :=
  dps (fun p => [(Some (dpid y p), None)]) ++ flat_map (fun k => dps (fun p => guard (dmp y p k) [(dmp y p k, None)])) (yaxes y).
Definition dissConns : conns :=
  if (negb (inS (rp y)) && negb (inS (dpid y 0)) && negb (inS (dpid y 1)))%bool then []
  else if (inS (rp y) && inS (dpid y 0) && inS (dpid y 1))%bool then []
  else if inS (rp y) then dissConnsIn else dissConnsOut.
End DISSOCIATION.
End CONNS.

(** ** Renumbering (backMap, XolotlInterface.cpp getSubInstance maps; Reaction.tpp uses [conns(backMap(row), backMap(column)) = true]) *)
Definition inTable (f : nat -> nat) (dof : nat) (l : conns) (u v : nat) : bool :=
  existsb (fun '(row, col) =>
    match row with Some a => (f a =? u)%nat | None => false end
    && match col with Some b => (f b =? v)%nat | None => (v =? dof)%nat end) l.
Definition renumber (f : nat -> nat) (l : rcontribs) : rcontribs :=
  map (fun '(row, col, v) => (option_map f row, option_map f col, v)) l.
