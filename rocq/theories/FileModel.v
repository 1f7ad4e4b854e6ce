(** Model of the checkpoint file: time-step groups (xolotl/io/src/XFile.cpp), ragged data
    sets written and read in parallel (xolotl/io/include/xolotl/io/HDF5FileDataSet.h) and
    the exchange of concentration vectors (PetscSolver1DHandler.cpp). *)
From Verif Require Export Sums.
Open Scope R_scope.

(** ** Time-step groups *)
(** A group is named after control step, loop and time step (XFile.cpp:386-394; different
    numbers give different names). Its attributes: time, previous time, time step. *)
Definition key := (Z * Z * Z)%type.
Definition key_dec : forall a b : key, {a = b} + {a <> b}.
Proof. decide equality; [apply Z.eq_dec|]. decide equality; apply Z.eq_dec. Defined.
Definition attrs := (R * R * R)%type.
(** The concentration group: its sub-groups and the attributes lastCtrlStep, lastLoop,
    lastTimeStep. *)
Record cgroup := CGroup { groups : list (key * attrs); last : key }.
(** XFile.cpp:239-264. *)
Definition emptyGroup : cgroup := CGroup [] (-1, -1, -1)%Z.
Fixpoint get (g : list (key * attrs)) (k : key) : option attrs :=
  match g with [] => None | (k', a) :: r => if key_dec k' k then Some a else get r k end.
Fixpoint set (g : list (key * attrs)) (k : key) (a : attrs) : list (key * attrs) :=
  match g with [] => [] | (k', a') :: r => if key_dec k' k then (k', a) :: r else (k', a') :: set r k a end.
(** XFile.cpp:319-336: the control step is always 0; [None] is the null pointer. *)
Definition getTimestepGroup (f : cgroup) (loop ts : Z) : option key :=
  match get (groups f) (0%Z, loop, ts) with Some _ => Some (0%Z, loop, ts) | None => None end.
(** XFile.cpp:266-296: the file afterwards and the group which is handed back. The result is
    [None] when updateTimestepGroup (XFile.cpp:428-443) is called on a null pointer. *)
Definition addTimestepGroup (f : cgroup) (ctrlStep loop ts : Z) (a : attrs) : option (cgroup * key) :=
  let k := (ctrlStep, loop, ts) in
  match get (groups f) k with
  | Some _ => match getTimestepGroup f loop ts with
              | Some k' => Some (CGroup (set (groups f) k' a) k, k')
              | None => None
              end
  | None => Some (CGroup (groups f ++ [(k, a)]) k, k)
  end.
(** XFile.cpp:338-360. *)
Definition getLastTimestepGroup (f : cgroup) : option key :=
  let '(ctrlStep, loop, ts) := last f in
  if ((0 <=? ts) && (0 <=? loop) && (0 <=? ctrlStep))%Z%bool
  then match get (groups f) (last f) with Some _ => Some (last f) | None => None end
  else None.
Definition addition := (Z * Z * Z * attrs)%type.
Fixpoint addAll (f : cgroup) (h : list addition) : option cgroup :=
  match h with
  | [] => Some f
  | (c', l, t, a) :: r => match addTimestepGroup f c' l t a with Some (f', _) => addAll f' r | None => None end
  end.

(** ** Ragged data sets *)
Section RAGGED.
Variable T : Type.
(** A part of a data set is selected and written (H5Sselect_hyperslab, H5Dwrite). Unwritten
    entries are [None]. *)
Definition writeSlab {A} (ds : list (option A)) (off : nat) (l : list A) : list (option A) :=
  firstn off ds ++ map Some l ++ skipn (off + length l) ds.
(** The selected part is read; [None] when the selection leaves the data set (the error of
    H5Dread is not looked at) or contains unwritten entries. *)
Fixpoint allSome {A} (l : list (option A)) : option (list A) :=
  match l with [] => Some [] | Some x :: r => option_map (cons x) (allSome r) | None :: _ => None end.
Definition readSlab {A} (ds : list (option A)) (off cnt : nat) : option (list A) :=
  if (off + cnt <=? length ds)%nat then allSome (firstn cnt (skipn off ds)) else None.

(** The data of a process: its first point and the items of each of its points. Indices are
    uint32_t in the code; they are not wrapped here. *)
Definition part := (nat * list (list T))%type.
(** HDF5FileDataSet.h:183-192. *)
Definition findNumItemsByPoint (data : list (list T)) : list nat := map (@length T) data.
(** HDF5FileDataSet.h:288-292: the partial sums, shifted by one and without the last. *)
Fixpoint starts (from : nat) (counts : list nat) : list nat :=
  match counts with [] => [] | k :: r => from :: starts (from + k) r end.
(** HDF5FileDataSet.h:308: back() of both vectors, [None] (undefined) for no point. *)
Definition myNumItems (data : list (list T)) : option nat :=
  match data with [] => None | _ :: _ => Some (List.last (starts 0 (findNumItemsByPoint data)) 0%nat + List.last (findNumItemsByPoint data) 0%nat)%nat end.
(** MPI_Exscan with sum. *)
Fixpoint exscan (from : nat) (l : list nat) : list nat := match l with [] => [] | k :: r => from :: exscan (from + k) r end.
Record dataset := DataSet { items : list (option T); index : list (option nat) }.
(** One process: HDF5FileDataSet.h:317-322, 356-399 (index) and 404-447 (items). *)
Definition writeOne (lastRank : bool) (p : part) (globalBaseIdx totalNumItems : nat) (ds : dataset) : dataset :=
  let '(baseX, data) := p in
  let globalStartingIndices := map (fun i => (i + globalBaseIdx)%nat) (starts 0 (findNumItemsByPoint data)) ++ (if lastRank then [totalNumItems] else []) in
  DataSet (writeSlab (items ds) globalBaseIdx (concat data)) (writeSlab (index ds) baseX globalStartingIndices).
Fixpoint writeFrom (parts : list (part * nat)) (totalNumItems : nat) (ds : dataset) : dataset :=
  match parts with
  | [] => ds
  | (p, base) :: r => writeFrom r totalNumItems (writeOne (match r with [] => true | _ => false end) p base totalNumItems ds)
  end.
(** The constructor for writing: HDF5FileDataSet.h:154-172 with buildDataSpace (194-230). *)
Definition writeRagged (parts : list part) : option dataset :=
  match allSome (map (fun p => myNumItems (snd p)) parts) with
  | None => None
  | Some ns =>
      let totalNumItems := list_sum (map (fun p => list_sum (findNumItemsByPoint (snd p))) parts) in
      let totalNumPoints := list_sum (map (fun p => length (snd p)) parts) in
      Some (writeFrom (combine parts (exscan 0 ns)) totalNumItems (DataSet (repeat None totalNumItems) (repeat None (totalNumPoints + 1))))
  end.
(** HDF5FileDataSet.h:449-600. [None] also when an entry beyond flatData is used. *)
Definition readRagged (ds : dataset) (baseX numX : nat) : option (list (list T)) :=
  match readSlab (index ds) baseX (numX + 1) with
  | None => None
  | Some gsi =>
      match readSlab (items ds) (nth 0 gsi 0%nat) (List.last gsi 0%nat - nth 0 gsi 0%nat) with
      | None => None
      | Some flatData =>
          let lsi := map (fun v => (v - nth 0 gsi 0%nat)%nat) gsi in
          allSome (map (fun pt => let b := nth pt lsi 0%nat in let e := nth (pt + 1) lsi 0%nat in
            allSome (map (fun j => nth_error flatData (b + j)) (seq 0 (e - b)))) (seq 0 (length gsi - 1)))
      end
  end.
End RAGGED.

(** ** Concentration vectors *)
(** One grid point: the unknowns of the network and the temperature (dof + 1 numbers). *)
Definition cutoff := 1e-16.
(** PetscSolver1DHandler.cpp:669-673. *)
Definition exportPoint (sol : list R) : list (nat * R) :=
  filter (fun lv => if Rlt_dec cutoff (Rabs (snd lv)) then true else false) (combine (seq 0 (length sol)) sol).
Definition setEntry (sol : list R) (l : nat) (v : R) : list R := firstn l sol ++ (if (l <? length sol)%nat then [v] else []) ++ skipn (S l) sol.
(** PetscSolver1DHandler.cpp:703-706. *)
Definition importPoint (sol : list R) (vec : list (nat * R)) : list R := fold_left (fun s lv => setEntry s (fst lv) (snd lv)) vec sol.
(** PetscSolver1DHandler.cpp:664-675, 698-707: all local grid points. *)
Definition getConcVector (conc : list (list R)) : list (list (nat * R)) := map exportPoint conc.
Definition setConcVector (conc : list (list R)) (vec : list (list (nat * R))) : list (list R) := map (fun sv => importPoint (fst sv) (snd sv)) (combine conc vec).
(** The loop PetscSolver1DHandler.cpp:727-732 over i = -1, ..., localXM. localXM is an unsigned
    IdType (SolverHandler.h:88), to which the int i is converted for the comparison. *)
Definition unsignedOf (width : Z) (i : Z) : Z := (i mod 2 ^ width)%Z.
(** The points visited, at most [fuel] of them: i is incremented as long as it is at most localXM. *)
Fixpoint visited (width localXM : Z) (fuel : nat) (i : Z) : list Z :=
  match fuel with
  | O => []
  | S n => if (unsignedOf width i <=? localXM)%Z then i :: visited width localXM n (i + 1)%Z else []
  end.
(** temperature[i + 1] for the visited points; [temps] are the values of the solution at
    i = -1, ..., localXM. *)
Definition importTemperatures (width : Z) (old temps : list R) : list R :=
  fold_left (fun t i => setEntry t (Z.to_nat (i + 1)) (nth (Z.to_nat (i + 1)) temps 0))
    (visited width (Z.of_nat (length temps) - 2) (length temps) (-1)) old.
