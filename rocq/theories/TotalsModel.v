(** Model of the totals of ReactionNetwork (impl/ReactionNetwork.tpp:645-1468).
    The parallel reductions are sums over the clusters. *)
From Verif Require Export BurstProofs.
Set Implicit Arguments.
Open Scope R_scope.

(** A cluster: the axes of its region and its reaction radius. *)
Record tcl := Tcl { taxes : list (Z * Z); radius : R }.
Definition axis (c : tcl) (s : nat) : Z * Z := nth s (taxes c) (0, 1)%Z.
Definition tdummy : tcl := Tcl [] 0.

(** for (auto j = max(minSize, ival.begin()); j < ival.end(); ++j) *)
Definition from (minSize : Z) (r : Z * Z) : list Z := inter (Z.max minSize (fst r), snd r).

Section TOTALS.
Variable cs : list tcl.
Variable f : nat -> R.
Definition reduce (body : nat -> tcl -> R) : R := Rsum (seq 0 (length cs)) (fun i => body i (nth i cs tdummy)).
Definition factorOf (c : tcl) (s : nat) : R := IZR (vol (taxes c)) / IZR (len (axis c s)).

(** lines 1218-1241 *)
Definition getTotalConcentration (s : nat) (minSize : Z) : R :=
  reduce (fun i c => Rsum (from minSize (axis c s)) (fun _ => f i * factorOf c s)).
(** lines 1243-1268 *)
Definition getTotalRadiusConcentration (s : nat) (minSize : Z) : R :=
  reduce (fun i c => Rsum (from minSize (axis c s)) (fun _ => f i * radius c * factorOf c s)).
(** lines 1270-1293 *)
Definition getTotalAtomConcentration (s : nat) (minSize : Z) : R :=
  reduce (fun i c => Rsum (from minSize (axis c s)) (fun j => f i * IZR j * factorOf c s)).
(** lines 1295-1334; [vs]: the species for which isVacancy holds, in the order of
    the species range; the last one is used. *)
Definition getTotalTrappedAtomConcentration (vs : list nat) (s : nat) (minSize : Z) : R :=
  match vs with
  | [] => 0
  | v0 :: _ =>
      let v := last vs v0 in
      reduce (fun i c => if (0 <? fst (axis c v))%Z then
        Rsum (inter (axis c s)) (fun j => if (minSize <=? j)%Z then f i * IZR j * factorOf c s else 0) else 0)
  end.
(** lines 1336-1401: numerator and denominator. *)
Definition ratioNumerator (v s : nat) (minSize : Z) : R :=
  reduce (fun i c => if (0 <? fst (axis c v))%Z then
    Rsum (inter (axis c s)) (fun j => if (minSize <=? j)%Z then
      Rsum (inter (axis c v)) (fun l => f i * IZR j * (radius c * radius c * radius c) / IZR l) else 0) else 0).
Definition ratioDenominator (v s : nat) (minSize : Z) : R :=
  reduce (fun i c => if (0 <? fst (axis c v))%Z then
    Rsum (inter (axis c s)) (fun j => if (minSize <=? j)%Z then f i * (radius c * radius c * radius c) * factorOf c s else 0) else 0).
Definition getTotalVolumeRatio (vs : list nat) (s : nat) (minSize : Z) : R :=
  match vs with
  | [] => 0
  | v0 :: _ => let v := last vs v0 in ratioNumerator v s minSize / ratioDenominator v s minSize
  end.
(** lines 1403-1468 *)
Definition varianceNumerator (v s : nat) (mean : R) (minSize : Z) : R :=
  reduce (fun i c => if (0 <? fst (axis c v))%Z then
    Rsum (inter (axis c s)) (fun j => if (minSize <=? j)%Z then
      Rsum (inter (axis c v)) (fun l => (IZR j / IZR l - mean) * (IZR j / IZR l - mean) * f i * (radius c * radius c * radius c)) else 0) else 0).

(** lines 645-843: the methods of getTotals. *)
Inductive tq := QTotal | QAtom | QRadius | QVolume | QTrapped.
Definition updateFactor (q : tq) (factor concentration rad : R) : R :=
  match q with
  | QTotal | QAtom | QTrapped => factor * concentration
  | QRadius => factor * (concentration * rad)
  | QVolume => factor * (concentration * rad * rad * rad)
  end.
Definition contribution (q : tq) (j : Z) (factor : R) : R :=
  match q with QTotal | QRadius | QVolume => factor | QAtom | QTrapped => IZR j * factor end.
Definition tqBase (q : tq) (s : nat) (minSize : Z) (concentration rad : R) (c : tcl) (lsum : R) : R :=
  fold_left (fun acc j => acc + contribution q j (updateFactor q (factorOf c s) concentration rad)) (from minSize (axis c s)) lsum.
(** lines 786-843: QTrapped tests the first vacancy species. *)
Definition tqMethod (vs : list nat) (q : tq) (s : nat) (minSize : Z) (concentration rad : R) (c : tcl) (lsum : R) : R :=
  match q with
  | QTrapped => match vs with
                | [] => lsum
                | v :: _ => if (0 <? fst (axis c v))%Z then tqBase q s minSize concentration rad c lsum else lsum
                end
  | _ => tqBase q s minSize concentration rad c lsum
  end.
(** lines 845-889: the chain; the head's index is the length of the tail. A
    quantity is a species and a minimum size. *)
Variable vs : list nat.
Variable quantities : list (nat * Z).
Fixpoint chain (methods : list tq) (concentration rad : R) (c : tcl) (dst : nat -> R) : nat -> R :=
  match methods with
  | [] => dst
  | q :: tail =>
      let dst' := chain tail concentration rad c dst in
      let '(s, m) := nth (length tail) quantities (0%nat, 0%Z) in
      upd dst' (length tail) (tqMethod vs q s m concentration rad c (dst' (length tail)))
  end.
(** lines 891-1000: the reduction over the clusters; the methods are given in the
    order of the quantities and reversed in the chain. *)
Definition getTotalsImpl (methods : list tq) : nat -> R :=
  fold_left (fun dst i => let c := nth i cs tdummy in chain (rev methods) (f i) (radius c) c dst) (seq 0 (length cs)) (fun _ => 0).
End TOTALS.

(** lines 1040-1174: the supported lists of quantity types. *)
Definition getTotalsTypes : list (list tq) :=
  [ [QTotal]; [QAtom]; [QAtom; QAtom]; [QAtom; QAtom; QAtom]; [QTotal; QRadius; QTotal; QRadius];
    [QAtom; QAtom; QAtom; QAtom]; [QAtom; QAtom; QAtom; QAtom; QAtom];
    [QTotal; QAtom; QRadius; QTotal; QAtom; QRadius]; [QTotal; QAtom; QRadius; QTotal; QRadius; QVolume];
    [QTotal; QAtom; QRadius; QTotal; QAtom; QRadius; QVolume] ].
