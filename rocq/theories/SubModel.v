(** Sub-network maps and exported connectivities (XolotlInterface.cpp, ReactionNetwork.tpp). *)
From Coq Require Export List ZArith Lia Bool Arith.
From Verif Require Export ChainModel.
Export ListNotations.
Set Implicit Arguments.
Open Scope nat_scope.

(** ReactionNetwork.tpp:358-380: getAllMomentIdInfo, the valid moment ids of each cluster, slot by slot. *)
Definition somes (A : Type) (l : list (option A)) : list A := flat_map (fun o => match o with Some x => [x] | None => [] end) l.
Definition getAllMomentIdInfo (slot : nat -> nat) (nSlots : nat) (clusters : list (list Z)) : list (list nat) :=
  map (fun i => somes (map (momentIds slot clusters i) (seq 0 nSlots))) (seq 0 (length clusters)).

(** The bounds of a cluster: for each species the first and the last amount (ReactionNetwork.tpp:334-356). *)
Definition bound := list Z.
Definition bound_dec : forall a b : bound, {a = b} + {a <> b} := list_eq_dec Z.eq_dec.

Section MAP.
Variable currentBounds : list bound.
Variable currentMomIdInfo : list (list nat).
(** XolotlInterface.cpp:361-366 *)
Fixpoint searchFrom (j : nat) (cur : list bound) (b : bound) : option nat :=
  match cur with [] => None | x :: cur' => if bound_dec b x then Some j else searchFrom (S j) cur' b end.
(** XolotlInterface.cpp:357-367: a cluster which is not found is passed over. *)
Definition clusterIds (subBounds : list bound) : list nat := somes (map (searchFrom 0 currentBounds) subBounds).
(** XolotlInterface.cpp:372-374; [None]: an index out of range. *)
Fixpoint pushIds (l : nat) (js : list nat) (temp : list nat) : option (list nat) :=
  match js with
  | [] => Some temp
  | j :: js' => match nth_error temp l with
                | Some c => match nth_error currentMomIdInfo c with
                            | Some ids => match nth_error ids j with Some id => pushIds l js' (temp ++ [id]) | None => None end
                            | None => None
                            end
                | None => None
                end
  end.
(** XolotlInterface.cpp:370-375 *)
Fixpoint pushMoments (l : nat) (subMomIdInfo : list (list nat)) (temp : list nat) : option (list nat) :=
  match subMomIdInfo with
  | [] => Some temp
  | idMap :: rest => match pushIds l (seq 0 (length idMap)) temp with Some temp' => pushMoments (S l) rest temp' | None => None end
  end.
(** XolotlInterface.cpp:353-377: one sub-network. *)
Definition fromSubNetwork (subBounds : list bound) (subMomIdInfo : list (list nat)) : option (list nat) :=
  pushMoments 0 subMomIdInfo (clusterIds subBounds).
End MAP.

(** ReactionNetwork.tpp:413-439: isInSub and backMap, filled in order. *)
Definition fill (dof : nat) (m : list nat) : (nat -> bool) * (nat -> nat) :=
  fold_left (fun s (p : nat * nat) => let '(ins, back) := s in
    (fun x => if x =? snd p then true else ins x, fun x => if x =? snd p then fst p else back x))
    (combine (seq 0 (length m)) m) (fun _ => false, fun _ => 0).
Definition isInSub dof m := fst (fill dof m).
Definition backMap dof m := snd (fill dof m).

(** XolotlInterface.cpp:496-507: the connectivity of a sub-network, a matrix of flags, in compressed rows. *)
Fixpoint pushRow (j : nat) (row : list bool) (entries : list nat) (count : nat) : list nat * nat :=
  match row with
  | [] => (entries, count)
  | b :: row' => if b then pushRow (S j) row' (entries ++ [j]) (S count) else pushRow (S j) row' entries count
  end.
Definition pushRows (s : list nat * list nat) (row : list bool) : list nat * list nat :=
  let '(rows, entries) := s in let '(entries', count) := pushRow 0 row entries 0 in (rows ++ [last rows 0 + count], entries').
Definition getConstantConnectivities (conns : list (list bool)) : list nat * list nat := fold_left pushRows conns ([0], []).
