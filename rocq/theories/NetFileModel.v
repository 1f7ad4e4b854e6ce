(** Model of the network which a run writes into its file: XFile.cpp:74-119 (NetworkGroup), 121-127 (readNetworkSize), 162-192 (ClusterGroup), 194-200 (makeGroupName), 202-227 (readCluster),
    ReactionNetwork.tpp:334-356 (getAllClusterBounds), 512-525 (getPhaseSpace) and the tables of labels (AlloyTraits.h:21-37, FeTraits.h:17-29, NETraits.h:28-40, PSITraits.h:56-63, 81-86, 131-137, 150-155, 200-206, 219-224, 269-281, ZrTraits.h:25-37).
    The amounts are unsigned numbers of 32 bits (config.h.in:25), stored with the signed type of HDF5. The energies and factors are of any type: they are copied.
    A group whose name is taken cannot be created (HDF5FileGroup.cpp:10-30), [None]. The ids are taken without the bound of int. *)
From Coq Require Import ZArith String Decimal DecimalString List.
Import ListNotations.
Set Implicit Arguments.

Inductive net := PSIFull | PSIDeuterium | PSITritium | PSIHelium | Fe | NE | Zr | Alloy.
Inductive species := He | D | T | V | I | Xe | Basal | Void | Faulted | Perfect | Frank.
(** The enumerations, in order. *)
Definition speciesRange (n : net) : list species :=
  match n with
  | PSIFull => [He; D; T; V; I] | PSIDeuterium => [He; D; V; I] | PSITritium => [He; T; V; I] | PSIHelium => [He; V; I]
  | Fe => [He; V; I] | NE => [Xe; V; I] | Zr => [V; Basal; I] | Alloy => [V; Void; Faulted; I; Perfect; Frank]
  end.
Definition labelArray (n : net) : list string :=
  match n with
  | PSIFull => ["He"; "D"; "T"; "V"; "I"] | PSIDeuterium => ["He"; "D"; "V"; "I"] | PSITritium => ["He"; "T"; "V"; "I"] | PSIHelium => ["He"; "V"; "I"]
  | Fe => ["He"; "V"; "I"] | NE => ["Xe"; "V"; "I"] | Zr => ["V"; "Basal"; "I"] | Alloy => ["V"; "Void"; "Faulted"; "I"; "Perfect"; "Frank"]
  end%string.
(** ReactionNetwork.tpp:512-525 *)
Definition getPhaseSpace (n : net) : list string := map (fun j => nth j (labelArray n) ""%string) (seq 0 (length (speciesRange n))).

Section FILE.
Variable Value : Type.
Record cluster := Cluster { region : list (Z * Z); formation : Value; migration : Value; factor : Value }.
Record group := Group { gbounds : list Z; gformation : Value; gmigration : Value; gfactor : Value }.
Record networkGroup := NetworkGroup { phaseSpace : list string; totalSize : nat; groups : list (string * group) }.

(** ReactionNetwork.tpp:344-353: the last amounts instead of the limits. *)
Definition boundVector (r : list (Z * Z)) : list Z := flat_map (fun lh => [fst lh; ((snd lh - 1) mod 2 ^ 32)%Z]) r.
(** XFile.cpp:168-173 and 220-227: the 32 bits as a signed number, and back. *)
Definition stored (z : Z) : Z := if (z <? 2 ^ 31)%Z then z else (z - 2 ^ 32)%Z.
Definition loaded (z : Z) : Z := (z mod 2 ^ 32)%Z.
(** XFile.cpp:194-200 *)
Definition makeGroupName (id : nat) : string := NilZero.string_of_uint (Nat.to_uint id).
Fixpoint find (l : list (string * group)) (s : string) : option group :=
  match l with [] => None | (x, g) :: r => if string_dec x s then Some g else find r s end.
Definition clusterGroup (c : cluster) : group := Group (map stored (boundVector (region c))) (formation c) (migration c) (factor c).
(** XFile.cpp:112-118 *)
Fixpoint addClusters (i : nat) (cs : list cluster) (l : list (string * group)) : option (list (string * group)) :=
  match cs with
  | [] => Some l
  | c :: r => match find l (makeGroupName i) with Some _ => None | None => addClusters (S i) r (l ++ [(makeGroupName i, clusterGroup c)]) end
  end.
Definition writeNetwork (n : net) (cs : list cluster) : option networkGroup :=
  match addClusters 0 cs [] with Some l => Some (NetworkGroup (getPhaseSpace n) (length cs) l) | None => None end.
(** XFile.cpp:121-127, 202-227; [None]: there is no such group. *)
Definition readNetworkSize (g : networkGroup) : nat := totalSize g.
Definition readCluster (g : networkGroup) (id : nat) : option (list Z * Value * Value * Value) :=
  match find (groups g) (makeGroupName id) with
  | Some c => Some (map loaded (gbounds c), gformation c, gmigration c, gfactor c)
  | None => None
  end.
End FILE.
