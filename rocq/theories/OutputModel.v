(** Model of what the diagnostic monitors write: the data lines of the Alloy and
    zirconium networks (ZrReactionNetwork.cpp:224-312, AlloyReactionNetwork.cpp:121-206,
    PetscMonitor1D.cpp:1377-1498 computeAlloy and computeAlphaZr, PetscMonitor0D.cpp:455-508,
    XolotlInterface.cpp:539-578 outputData, ReactionNetwork.tpp:1592-1601
    computeMinRadiusSizes, ReactionNetwork.h:259-265 getMonitorDataValues), the
    TRIDYN file (PetscMonitor1D.cpp:2043-2163), the profile of the temperature
    (2165-2260), the snapping of small concentrations (1994-2041) and the points
    of the series plot (2262-2422) and of the scatter plot (1500-1597).
    MPI_Reduce with MPI_SUM is a sum over the processes, HDF5's parallel write puts
    the rows of each process at its offset.  The number of digits of the files,
    the names of the columns and the drawing of plots are not modelled. *)
From Verif Require Import TempGridModel TotalsModel.
From Verif Require RateTempModel.
Open Scope R_scope.

(** ** The data lines *)
(** ReactionNetwork.tpp:1592-1601 *)
Fixpoint setAt (l : list Z) (i : nat) (v : Z) : list Z :=
  match l, i with
  | [], _ => []
  | _ :: r, O => v :: r
  | x :: r, S i => x :: setAt r i v
  end.
Definition minRadiusSizes (numSpecies : nat) (minSizes : list Z) : list Z :=
  fold_left (fun l i => setAt l i (nth i minSizes 0%Z)) (seq 0 (Nat.min (length minSizes) numSpecies))
    (repeat 1%Z numSpecies).

(** One column: the quantity, whether it is taken from the minimum size on, and
    its factor. *)
Definition Column := (tq * bool * R)%type.
(** ZrReactionNetwork.cpp:250-263 *)
Definition zrColumns : list Column :=
  [(QTotal, false, 1); (QAtom, false, 1); (QRadius, false, 2); (QTotal, true, 1); (QAtom, true, 1); (QRadius, true, 2)].
(** AlloyReactionNetwork.cpp:147-158 *)
Definition alloyColumns : list Column :=
  [(QTotal, false, 1); (QRadius, false, 2); (QTotal, true, 1); (QRadius, true, 2)].
(** ZrReactionNetwork.cpp:282-288 and AlloyReactionNetwork.cpp:177-183: the columns which
    are divided, and by which. *)
Definition zrPairs : list (nat * nat) := [(2, 0); (5, 3)]%nat.
Definition alloyPairs : list (nat * nat) := [(1, 0); (3, 2)]%nat.

Section LINE.
Variable columns : list Column.
Variable pairs : list (nat * nat).
Variable cs : list tcl.
Variable numSpecies : nat.
Variable sizes : list Z.

Definition width : nat := length columns.
Definition quantity (c : Column) : tq := fst (fst c).
Definition kind (k : nat) : Column := nth k columns (QTotal, false, 0).
(** the quantities of one species, ZrReactionNetwork.cpp:249-254 *)
Definition quantities (s : nat) : list (nat * Z) :=
  map (fun c : Column => (s, if snd (fst c) then nth s sizes 0%Z else 1%Z)) columns.
(** ZrReactionNetwork.cpp:242-265, AlloyReactionNetwork.cpp:139-160 *)
Definition addSpecies (f : nat -> R) (fac : R) (d : nat -> R) (s : nat) : nat -> R :=
  let totals := getTotalsImpl cs f [] (quantities s) (map quantity columns) in
  fold_left (fun d k => upd d (width * s + k) (d (width * s + k)%nat + totals k * snd (kind k) * fac)) (seq 0 width) d.
Definition addMonitorDataValues (f : nat -> R) (fac : R) (d : nat -> R) : nat -> R :=
  fold_left (addSpecies f fac) (seq 0 numSpecies) d.

(** ZrReactionNetwork.cpp:273-276 *)
Definition reduced (local : list (nat -> R)) : nat -> R := fun j => Rsum local (fun d => d j).
(** ZrReactionNetwork.cpp:280-289 *)
Definition averageSpecies (d : nat -> R) (s : nat) : nat -> R :=
  fold_left (fun d p => if Rlt_dec (1 / 10 ^ 16) (d (width * s + snd p)%nat)
                        then upd d (width * s + fst p) (d (width * s + fst p)%nat / d (width * s + snd p)%nat)
                        else d) pairs d.
(** ZrReactionNetwork.cpp:267-312, AlloyReactionNetwork.cpp:162-206: the numbers which are
    written *)
Definition writeMonitorDataLine (local : list (nat -> R)) (time : R) : list R :=
  let d := fold_left averageSpecies (seq 0 numSpecies) (reduced local) in
  time :: flat_map (fun s => map (fun k => d (width * s + k)%nat) (seq 0 width)) (seq 0 numSpecies).

(** PetscMonitor1D.cpp:1411-1428 and 1475-1492 on the process with the points
    [xs], ..., [xs + xm - 1]; [first] is the left offset, for zirconium added to the
    position of the surface. *)
Definition localLine (g : list R) (conc : nat -> nat -> R) (first Mx right : nat) (p : nat * nat) : nat -> R :=
  fold_left (fun d xi => if orb (Nat.ltb xi first) (Nat.eqb xi (Mx - right)) then d
                         else addMonitorDataValues (conc xi) (g.[xi + 1] - g.[xi]) d)
    (seq (fst p) (snd p)) (fun _ => 0).
Definition monitorLine (g : list R) (conc : nat -> nat -> R) (first Mx right : nat) (ps : list (nat * nat)) (time : R) : list R :=
  writeMonitorDataLine (map (localLine g conc first Mx right) ps) time.
(** PetscMonitor0D.cpp:472-474 and 499-501 *)
Definition monitorLine0 (f : nat -> R) (time : R) : list R :=
  writeMonitorDataLine [addMonitorDataValues f 1 (fun _ => 0)] time.

(** XolotlInterface.cpp:562-566: the concentrations of the sub-networks in the order
    of the full one *)
Definition fullConc (fromSubNetwork : nat -> nat -> nat) (conc : list (list R)) : nat -> R :=
  fold_left (fun f i => fold_left (fun f j => upd f (fromSubNetwork i j) (nth j (nth i conc []) 0))
      (seq 0 (length (nth i conc []))) f)
    (seq 0 (length conc)) (fun _ => 0).
(** XolotlInterface.cpp:558-577; the points of every process *)
Definition outputData (fromSubNetwork : nat -> nat -> nat) (concs : list (list (list (list R)))) (time : R) : list R :=
  writeMonitorDataLine
    (map (fun local => fold_left (fun d c => addMonitorDataValues (fullConc fromSubNetwork c) 1 d) local (fun _ => 0)) concs) time.
End LINE.

(** ** The TRIDYN file *)
Section TRIDYN.
Variable cs : list tcl.
Variable numSpecies : nat.
Variable same : bool.
Variable g tg : list R.
Variable conc : nat -> nat -> R.
Variable nX left : nat.
Variable rs : list rank.

(** PetscMonitor1D.cpp:2138-2148, with getTotalsVec, ReactionNetwork.tpp:1178-1216,
    and getTotals, 1040-1174: lists of one to five atom totals are known. *)
Definition isAtom (q : tq) : bool := match q with QAtom => true | _ => false end.
Definition atomTotals (f : nat -> R) : option (list R) :=
  let types := repeat QAtom numSpecies in
  if existsb (fun l => andb (forallb isAtom l) (Nat.eqb (length l) numSpecies)) getTotalsTypes
  then Some (map (getTotalsImpl cs f [] (map (fun s => (s, 1%Z)) (seq 0 numSpecies)) types) (seq 0 numSpecies))
  else None.
(** 2104-2105: the first point of the process which is written *)
Definition myFirst (r : rank) : nat := Nat.max (localXS r) left.
(** 2122-2151: one row of seven numbers, zero where nothing is stored (the temperature
    is stored behind the totals) *)
Definition tridynRow (r : rank) (xi : nat) : option (list R) :=
  match atomTotals (conc xi) with
  | None => None
  | Some totals =>
      Some (firstn 7 (((g.[xi] + g.[xi + 1]) / 2 - g.[1]) :: totals
                      ++ (RateTempModel.networkTemp same nX g tg rs r).[xi - myFirst r] :: repeat 0 7))
  end.
(** 2106-2110 and 2122: the points of the process *)
Definition myPoints (r : rank) : list nat := seq (myFirst r) (localXS r + localXM r - myFirst r).
(** 2155-2156 with HDF5FileDataSet.h:603-672: the rows of the process start at its first
    point less the left offset. *)
Definition tridynRows (r : rank) : list (nat * option (list R)) :=
  map (fun k => (myFirst r - left + k, tridynRow r (nth k (myPoints r) 0%nat)))%nat (seq 0 (length (myPoints r))).
Definition tridynFile : list (nat * option (list R)) := flat_map tridynRows rs.

(** ** The profile of the temperature *)
(** 2231-2236: what one process adds for the point [xi] *)
Definition profileLocal (xi : nat) (r : rank) : R :=
  if andb (Nat.leb (localXS r) xi) (Nat.ltb xi (localXS r + localXM r))
  then (RateTempModel.networkTemp same nX g tg rs r).[xi - localXS r + 1] else 0.
(** 2228-2247 *)
Definition profileTemperature (right : nat) : list R :=
  map (fun xi => Rsum rs (profileLocal xi)) (seq left (nX - right - left)).
End TRIDYN.

(** ** Small concentrations *)
(** PetscMonitor1D.cpp:2026-2033 *)
Definition snap (thr c : R) : R :=
  if Rlt_dec c thr then
    if Rlt_dec 0 c then thr
    else if Rlt_dec (- thr) c then if Rlt_dec c 0 then - thr else c else c
  else if Rlt_dec (- thr) c then if Rlt_dec c 0 then - thr else c else c.
(** 2021-2035: the entries of one point; the moments and the temperature follow the
    [nClusters] first entries *)
Definition checkNegative (thr : R) (nClusters : nat) (c : nat -> R) : nat -> R :=
  fold_left (fun c l => upd c l (snap thr (c l))) (seq 0 nClusters) c.

(** ** The points of the plots *)
(** 2334-2336 and 2396: a message is received if it fits; MPI_INT has 4 bytes, MPI_DOUBLE
    8; [None]: the error MPI_ERR_TRUNCATE, at which PETSc's communicators abort. *)
Definition receive {A} (capacity size : nat) (v : A) : option A := if Nat.leb size capacity then Some v else None.
(** 2314-2329, 2398-2415: the points of one process, with the concentrations which
    are shown *)
Definition seriesPoints (g : list R) (conc : nat -> nat -> R) (networkSize : nat) (p : nat * nat) : list (R * list R) :=
  map (fun xi => ((g.[xi] + g.[xi + 1]) / 2 - g.[1], map (conc xi) (seq 0 (Nat.min 18 networkSize)))) (seq (fst p) (snd p)).
(** 2308-2360: the master process, then the others in their order *)
Definition monitorSeries (g : list R) (conc : nat -> nat -> R) (networkSize : nat) (ps : list (nat * nat)) : option (list (R * list R)) :=
  match ps with
  | [] => None
  | p0 :: others =>
      fold_left (fun acc p =>
          match acc, receive 4 8 (snd p) with
          | Some l, Some localSize => Some (l ++ firstn localSize (seriesPoints g conc networkSize p))
          | _, _ => None
          end) others (Some (seriesPoints g conc networkSize p0))
  end.
(** 1538-1542: who draws the size distribution *)
Definition drawsScatter (Mx : nat) (p : nat * nat) : bool :=
  andb (Nat.leb (fst p) (Nat.div Mx 2)) (Nat.ltb (Nat.div Mx 2) (fst p + snd p)).
(** 1552-1564, PetscMonitor0D.cpp:545-557: the points (size, value); the axis of xenon is
    the species [xe]. *)
Definition scatterPoints (cs : list tcl) (xe : nat) (f : nat -> R) : list (Z * R) :=
  flat_map (fun i => map (fun j => (j, f i)) (inter (axis (nth i cs tdummy) xe))) (seq 0 (length cs)).
