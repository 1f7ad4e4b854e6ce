(** Model of the separate temperature grid: SolverHandler.cpp interpolateTemperature (735-830)
    and generateTemperatureGrid (568-700). MPI_Allgather and MPI_Allgatherv with the
    displacements of 766-773 are the concatenation of the sent values in rank order. *)
From Coq Require Export Reals List Lia Lra.
From Verif Require Export GridModel.
Set Implicit Arguments.
Open Scope R_scope.

(** ** Gathering *)
(** A process: first grid point, number of grid points, its temperatures with both ghosts. *)
Record rank := Rank { localXS : nat; localXM : nat; localTemp : list R }.
(** lines 755-760 and 623-628; [nX] is the number of grid points of the handler *)
Definition toSend (nX : nat) (r : rank) : nat :=
  let f := Nat.eqb (localXS r) 0 in let l := Nat.eqb (localXS r + localXM r) nX in
  (localXM r + (if orb f l then 1 else 0) + (if andb f l then 1 else 0))%nat.
(** lines 777-787 *)
Definition valuesToSend (nX : nat) (r : rank) : list R :=
  map (fun i => (localTemp r).[if Nat.eqb (localXS r) 0 then i else (i + 1)%nat]) (seq 0 (toSend nX r)).
(** lines 788-789 *)
Definition gathered (nX : nat) (rs : list rank) : list R := flat_map (valuesToSend nX) rs.

(** ** Interpolation *)
(** lines 797-800 and 805-813: position of the entry [i] of a temperature vector with ghosts *)
Definition loc (g : list R) (i : nat) : R :=
  match i with O => g.[0] - g.[1] | S j => (g.[j] + g.[S j]) / 2 - g.[1] end.
(** lines 804-822 *)
Fixpoint search (tg : list R) (temps : list R) (x : R) (js : list nat) : option R :=
  match js with
  | [] => None
  | j :: r =>
      if Rle_dec (loc tg j) x then
        if Rlt_dec x (loc tg (S j)) then
          let xLoc := (x - loc tg j) / (loc tg (S j) - loc tg j) in
          Some (temps.[j] + xLoc * (temps.[S j] - temps.[j]))
        else search tg temps x r
      else search tg temps x r
  end.
(** lines 795-826: the network temperature of entry [i] of the grid [g] *)
Definition interpolated (nX : nat) (g tg temps : list R) (i : nat) : R :=
  match search tg temps (loc g i) (seq 0 (nX + 1)) with Some v => v | None => temps.[nX + 1] end.

(** ** The temperature grid, lines 588-605; tempGridPower is 2.5 (line 24) *)
Definition tempGridPower : R := 2.5.
Definition newH (g : list R) : R :=
  let n := (length g - 2)%nat in
  let width := (g.[length g - 3] + g.[length g - 2]) / 2 - g.[1] in
  Rpower width (1 / tempGridPower) / (INR n - 1.5).
Definition temperatureGrid (g : list R) : list R :=
  let first := Rpower (newH g) tempGridPower in
  [0; first] ++ map (fun i => first + Rpower (INR (i - 1) * newH g) tempGridPower) (seq 2 (length g - 2)).
