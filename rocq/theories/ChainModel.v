(** Model of the chained reaction views (detail/MultiElementCollection.h) and of
    the numbering of the moment unknowns (detail/impl/ClusterData.tpp:189-252). *)
From Coq Require Export List Arith Lia Bool ZArith.
Export ListNotations.
Set Implicit Arguments.

Section CHAIN.
Variable A : Type.

(** ElementSetMixinChain: the empty pack (lines 153-262, it owns only the begin
    index) and the recursive case (lines 305-500: the view, the begin index, the
    tail).  The C++ element types are different in each link; here [A] is their
    disjoint union. *)
Inductive chain :=
| End (begin : nat)
| Link (elems : list A) (begin : nat) (tail : chain).

(** Default construction (lines 165, 338): no element, begin index 0. *)
Fixpoint defaultChain (types : nat) : chain :=
  match types with O => End 0 | S t => Link [] 0 (defaultChain t) end.

(** Construction from views (lines 344-363 and 170). *)
Fixpoint construct (begin : nat) (views : list (list A)) : chain :=
  match views with
  | [] => End begin
  | v :: vs => Link v begin (construct (begin + length v) vs)
  end.

(** getIndexBegin (lines 253-258, 493-498). *)
Definition getIndexBegin (c : chain) : nat :=
  match c with End b => b | Link _ b _ => b end.

(** updateIndices (lines 177-180: "does nothing"; lines 369-374). *)
Fixpoint updateIndices (c : chain) (begin : nat) : chain :=
  match c with
  | End b => End b
  | Link v _ t => Link v begin (updateIndices t (begin + length v))
  end.

(** setView of the k-th element type (lines 391-402). *)
Fixpoint setView (c : chain) (k : nat) (view : list A) : chain :=
  match c, k with
  | End b, _ => End b
  | Link _ b t, O => updateIndices (Link view b t) b
  | Link v b t, S k' => Link v b (setView t k' view)
  end.

(** getNumberOfElements (lines 202-206, 417-421). *)
Fixpoint getNumberOfElements (c : chain) : nat :=
  match c with End _ => 0 | Link v _ t => length v + getNumberOfElements t end.

(** getElementBeginIndices (lines 213-218, 427-433). *)
Fixpoint getElementBeginIndices (c : chain) : list nat :=
  match c with End b => [b] | Link _ b t => b :: getElementBeginIndices t end.

(** apply / reduce (lines 232-247, 455-487): the element the function is called
    with; [Outside] is an access outside the view. [i - begin] is on unsigned
    numbers: below [begin] it wraps and falls outside. *)
Inductive outcome := Called (a : A) | NotCalled | Outside.
Fixpoint apply (c : chain) (i : nat) : outcome :=
  match c with
  | End _ => NotCalled
  | Link v b t =>
      if i <? getIndexBegin t then
        if i <? b then Outside
        else match nth_error v (i - b) with Some a => Called a | None => Outside end
      else apply t i
  end.

(** forEach / reduce of MultiElementCollection (lines 595-613, 672-688): the calls
    made for the flat indices 0 .. _numElems-1; _numElems is kept equal to the
    number of elements of the chain by the constructor and by setView
    (lines 538-546, 579-585). *)
Definition forEach (c : chain) : list outcome := map (apply c) (seq 0 (getNumberOfElements c)).

(** A history of setView calls. *)
Definition setViews (c : chain) (h : list (nat * list A)) : chain :=
  fold_left (fun c kv => setView c (fst kv) (snd kv)) h c.

(** getView of every type (lines 379-389). *)
Fixpoint getViews (c : chain) : list (list A) :=
  match c with End _ => [] | Link v _ t => v :: getViews t end.
End CHAIN.
Arguments End {A}. Arguments NotCalled {A}. Arguments Outside {A}.

(** ** Moment ids: ClusterData::defineMomentIds (ClusterData.tpp:189-252).
    A cluster is given by the widths of its region on the axes of
    getSpeciesRangeForGrouping(); [slot] is TNetwork::mapToMomentId. *)
Section MOMENTS.
Variable slot : nat -> nat.
Variable clusters : list (list Z).
Notation numClusters := (length clusters).

(** lines 200-214 *)
Fixpoint countAxes (ws : list Z) : nat :=
  match ws with [] => 0 | w :: l => (if (w =? 1)%Z then 0 else 1) + countAxes l end.
Definition counts : list nat := map countAxes clusters.
Fixpoint total (l : list nat) : nat := match l with [] => 0 | n :: t => n + total t end.
Definition nMomentIds : nat := total counts.

(** lines 215-223: exclusive scan *)
Definition scanned (i : nat) : nat := total (firstn i counts).

(** lines 225-248: the state is (current, momentIds(i,.)) and the axis number. *)
Definition setSlot (row : nat -> option nat) (s : nat) (v : option nat) : nat -> option nat :=
  fun t => if t =? s then v else row t.
Definition assignAxis (st : nat * nat * (nat -> option nat)) (w : Z) : nat * nat * (nat -> option nat) :=
  let '(k, current, row) := st in
  if (w =? 1)%Z then
    if match row (slot k) with Some id => id =? numClusters + current - 1 | None => false end
    then (S k, current, row)
    else (S k, current, setSlot row (slot k) None)
  else (S k, S current, setSlot row (slot k) (Some (numClusters + current))).
Definition momentIds (i : nat) : nat -> option nat :=
  snd (fold_left assignAxis (nth i clusters []) (0, scanned i, fun _ => None)).
End MOMENTS.

(** The maps of the networks: identity (SpeciesEnumSequence.h:136-148), PSI / Fe
    (interstitials share the vacancy slot [v]: PSITraits.h, FeTraits.h:60-66),
    Zr / Alloy (a single slot: ZrTraits.h:67, AlloyTraits.h:68). *)
Definition slotId (k : nat) : nat := k.
Definition slotPSI (v : nat) (k : nat) : nat := if k =? S v then v else k.
Definition slotOne (k : nat) : nat := 0.
