(** Model of the reaction generators: which products a pair of clusters gets.
    PSIReactionNetwork.tpp:417-702, ZrReactionNetwork.tpp:17-315,
    AlloyReactionNetwork.tpp:17-645, FeReactionNetwork.tpp:17-167,
    NEReactionNetwork.tpp:332-480.

    [findTileId] of a composition which lies on one species axis is modelled by a
    function from the amount to the cluster id ([None] is invalidIndex); [lo]/[hi]
    are the origin and the upper limit of the cluster on that axis. *)
From Coq Require Export List ZArith Lia Bool.
Export ListNotations.
Set Implicit Arguments.
Open Scope Z_scope.

(** for (k = a; k <= b; k++) *)
Definition range (a b : Z) : list Z := map (fun n => a + Z.of_nat n) (seq 0 (Z.to_nat (b - a + 1))).
Definition inRange (x : Z) (p : Z * Z) : bool := (fst p <=? x) && (x <=? snd p).

(** An emitted production reaction {i, j, product} or {i, j}. *)
Definition prods := list (option nat).

(** ** PSI, I + V (PSIReactionNetwork.tpp:485-549). State: prodBounds. *)
Section PSI.
Variables findV findI : Z -> option nat.
Variables loV hiV loI hiI : nat -> Z.

Definition ivStep (pb : Z * Z) (s : Z) : (Z * Z) * prods :=
  if inRange s pb && negb (s =? 0) then (pb, [])
  else if 0 <? s then
    match findV s with Some t => ((loV t, hiV t - 1), [Some t]) | None => (pb, []) end
  else if s <? 0 then
    match findI (- s) with Some t => ((1 - hiI t, - loI t), [Some t]) | None => (pb, []) end
  else ((0, 0), [None]).
Fixpoint ivLoop (pb : Z * Z) (l : list Z) : prods :=
  match l with [] => [] | s :: l' => let '(pb', e) := ivStep pb s in e ++ ivLoop pb' l' end.
(** [vb, ve): the vacancy cluster's range; [ib, ie): the interstitial's. *)
Definition psiIV (vb ve ib ie : Z) : prods := ivLoop (0, 0) (range (vb - ie + 1) (ve - 1 - ib)).

(** PSI, I + I (lines 453-483): the productions and the dissociations. *)
Definition iiStep (pb : Z * Z) (s : Z) : (Z * Z) * list nat :=
  if inRange s pb then (pb, [])
  else match findI s with Some t => ((loI t, hiI t - 1), [t]) | None => (pb, []) end.
Fixpoint iiLoop (pb : Z * Z) (l : list Z) : list nat :=
  match l with [] => [] | s :: l' => let '(pb', e) := iiStep pb s in e ++ iiLoop pb' l' end.
Definition psiII (l1 h1 l2 h2 : Z) : list nat := iiLoop (0, 0) (range (l1 + l2) (h1 + h2 - 2)).
Definition psiIIDiss (l1 h1 l2 h2 : Z) : list nat :=
  if (l1 =? 1) || (l2 =? 1) then psiII l1 h1 l2 h2 else [].
End PSI.

(** ** Zr and Alloy: de-duplication by previousIndex. [Look] is one lookup
    followed by "if (id != invalidIndex && id != previousIndex)"; [Nothing] is the
    branch adding {i, j}. *)
Inductive look := Look (id : option nat) | Nothing.
Fixpoint dedupe (prev : option nat) (l : list look) : prods :=
  match l with
  | [] => []
  | Nothing :: l' => None :: dedupe prev l'
  | Look None :: l' => dedupe prev l'
  | Look (Some t) :: l' =>
      if match prev with Some p => Nat.eqb t p | None => false end then dedupe prev l'
      else Some t :: dedupe (Some t) l'
  end.

Section ZR.
Variables findV findI findB : Z -> option nat.
(** ZrReactionNetwork.tpp:248-290, vac + int. *)
Definition zrLook (s : Z) : look :=
  if 0 <? s then Look (findV s) else if s <? 0 then Look (findI (- s)) else Nothing.
Definition zrIV (vb ve ib ie : Z) : prods := dedupe None (map zrLook (range (vb - ie + 1) (ve - 1 - ib))).
(** ZrReactionNetwork.tpp:192-246, int + Basal. *)
Definition zrBasalLook (s : Z) : look :=
  if 9 <? s then Look (findB s) else zrLook s.
Definition zrIB (bb be ib ie : Z) : prods := dedupe None (map zrBasalLook (range (bb - ie + 1) (be - 1 - ib))).
End ZR.

Section ALLOY.
Variables findV findI findP : Z -> option nat.
(** AlloyReactionNetwork.tpp:212-263, vac + perfect (and 264-315, vac + frank):
    the vacancy cluster has one size, the loop runs over the other's range. *)
Definition alloyLook (s : Z) : list look :=
  if 0 <? s then [Look (findI s); Look (findP s)] else if s <? 0 then [Look (findV (- s))] else [Nothing].
Definition alloyVP (v pb pe : Z) : prods := dedupe None (flat_map (fun k => alloyLook (k - v)) (range pb (pe - 1))).
(** AlloyReactionNetwork.tpp:396-431, int + faulted (and 432-471, int + void). *)
Variable findF : Z -> option nat.
Definition alloyIFLook (s : Z) : list look := if 0 <? s then [Look (findV s); Look (findF s)] else [].
Definition alloyIF (i fb fe : Z) : prods := dedupe None (flat_map (fun k => alloyIFLook (k - i)) (range fb (fe - 1))).
End ALLOY.

(** ** Unsigned 32-bit arithmetic (config.h.in:25). *)
Definition u32 (x : Z) : Z := x mod 4294967296.

(** AlloyReactionNetwork.tpp:472-535, perfect + faulted (and 561-623, perfect +
    void). All variables are AmountType, so k < 0 never holds; the loop stops
    before maxSize. The ranges of a cluster off its own axis are [0, 1). *)
Section ALLOYPF.
Variables findV findF : Z -> option nat.
Definition pfLook (k : Z) : list look :=
  if 0 <? k then [Look (findV k); Look (findF k)] else [Nothing].
Definition alloyPF (pb pe fb fe : Z) : prods :=
  let minSize := u32 (0 + fb - 1 - pe + 2) in
  let maxSize := u32 (1 + fe - 0 - pb - 2) in
  dedupe None (flat_map pfLook (range minSize (maxSize - 1))).
End ALLOYPF.

(** ** The general case. A box: the species other than V and I, then V, then I;
    each [begin, end). *)
Record box := Box { gas : list (Z * Z); vac : Z * Z; int : Z * Z }.

(** PSIReactionNetwork.tpp:552-568 (Fe 109-125, NE 356-372), as uint32. *)
Definition gasBounds (b1 b2 : box) : list (Z * Z) :=
  map (fun '((l1, h1), (l2, h2)) => (u32 (l1 + l2), u32 (h1 + h2 - 2))) (combine (gas b1) (gas b2)).
Definition vacBounds (b1 b2 : box) : Z * Z :=
  let low := u32 (fst (int b1) + fst (int b2)) in
  let high := u32 (snd (int b1) + snd (int b2) - 2) in
  (u32 (u32 (fst (vac b1) + fst (vac b2)) - high), u32 (u32 (snd (vac b1) + snd (vac b2) - 2) - low)).

(** lines 578-587: the loop over speciesNoI. *)
Definition axisGood (p : Z * Z) (bd : Z * Z) : bool :=
  negb (snd bd <? fst p) && negb (u32 (snd p - 1) <? fst bd).
Definition isGood (gb : list (Z * Z)) (vb : Z * Z) (p : box) : bool :=
  forallb (fun '(a, b) => axisGood a b) (combine (gas p) gb) && axisGood (vac p) vb.
Definition accepts (b1 b2 p : box) : bool := isGood (gasBounds b1 b2) (vacBounds b1 b2) p.

(** lines 570-615: the production reactions {i, j, k}, in order of k. *)
Definition generalProducts (b1 b2 : box) (clusters : list box) : list nat :=
  filter (fun k => accepts b1 b2 (nth k clusters b1)) (seq 0 (length clusters)).

(** lines 639-701: special case for trap mutation, entered when no product was
    found. [n] counts from 1 to maxISize = 6; "continue" when I_n does not exist;
    the bounds are shifted by one; stop when something was found. *)
Section TM.
Variable findI : Z -> option nat.
Variables (b1 b2 : box) (clusters : list box).
Fixpoint tmLoop (fuel : nat) (n : Z) (vb : Z * Z) : list (nat * nat) :=
  match fuel with
  | O => []
  | S fuel' =>
      match findI n with
      | None => tmLoop fuel' (n + 1) vb
      | Some ic =>
          let vb' := (u32 (fst vb + 1), u32 (snd vb + 1)) in
          let ks := filter (fun k => isGood (gasBounds b1 b2) vb' (nth k clusters b1)) (seq 0 (length clusters)) in
          match ks with
          | [] => tmLoop fuel' (n + 1) vb'
          | _ => map (fun k => (k, ic)) ks
          end
      end
  end.
Definition tmProducts : list (nat * nat) := tmLoop 6 1 (vacBounds b1 b2).
End TM.
