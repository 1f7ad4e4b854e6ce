(** The amounts which have left through the surfaces and through bursting, in the files of a run and in the monitors made from them, in one, two and three dimensions.

    Modelled code: PetscMonitor1D.cpp:143-153, 227-260, 404-462, 762-777; PetscMonitor2D.cpp:89-102, 164-196, 256-319, 607-622;
    PetscMonitor3D.cpp:119-132, 180-212, 272-334, 663-679 (setup and startStopImpl); XFile.cpp:515-853 (writeSurface1D, 2D, 3D, writeBottom1D, 2D, 3D, writeBursting), 1026-1077 (readData1D, 2D, 3D).
    A group of the file is a list of names with what is stored there; creating a name which exists fails, as does reading one which does not. [None]: a failure of the library or an entry outside
    of an array. Left out: the next solver loop of a run (EventModel), the positions of the surface and the concentrations (RestartModel), the times and the fluence (RestartModel). *)
From Coq Require Import Reals List Bool String.
Import ListNotations.
Set Implicit Arguments.
Open Scope R_scope.

(** ** The group of a time step *)
Section GROUP.
Variable E : Type.
Definition group := list (string * E).
Fixpoint find (g : group) (k : string) : option E := match g with [] => None | (k', v) :: r => if String.eqb k' k then Some v else find r k end.
Definition create (g : group) (k : string) (v : E) : option group := match find g k with Some _ => None | None => Some (g ++ [(k, v)]) end.
End GROUP.

(** ** Amounts of one species: a number, one for each row, one for each row and plane *)
(** [D]: the amount of a species, [X]: its extent in the file, [E]: what is stored. [encode x d]: the entries of [d] inside of the extent. *)
Record format (D X E : Type) := Format { zeros : X -> D; encode : X -> D -> option E; decode : E -> D; extent : D -> option X }.
(** XFile.cpp:515-541, 689-715: attributes *)
Definition format1 : format R unit R := Format (fun _ => 0) (fun _ x => Some x) (fun x => x) (fun _ => Some tt).
(** XFile.cpp:572-576, 593-595, 735-738: as many entries as rows; 722: the rows of the first species *)
Definition encode2 (n : nat) (d : list R) : option (list R) := if (n <=? List.length d)%nat then Some (firstn n d) else None.
Definition format2 : format (list R) nat (list R) := Format (fun n => repeat 0 n) encode2 (fun x => x) (fun d => Some (List.length d)).
(** XFile.cpp:650-655, 672-676, 790-796: row after row; 779-780; 1056-1070: cut into rows *)
Fixpoint rows (n : nat) (d : list (list R)) (m : nat) : option (list R) :=
  match n with
  | O => Some []
  | S n' => match d with
            | [] => None
            | r :: q => match encode2 m r, rows n' q m with Some a, Some b => Some (a ++ b) | _, _ => None end
            end
  end.
Definition encode3 (x : nat * nat) (d : list (list R)) : option (nat * nat * list R) := match rows (fst x) d (snd x) with Some l => Some (x, l) | None => None end.
Definition decode3 (e : nat * nat * list R) : list (list R) := map (fun i => firstn (snd (fst e)) (skipn (i * snd (fst e)) (snd e))) (seq 0 (fst (fst e))).
Definition format3 : format (list (list R)) (nat * nat) (nat * nat * list R) :=
  Format (fun x => repeat (repeat 0 (snd x)) (fst x)) encode3 decode3 (fun d => match d with [] => None | r :: _ => Some (List.length d, List.length r) end).

(** ** Writing *)
Record monitor (D : Type) := Monitor { nSurf : list D; fluxSurf : list D; nBulk : list D; fluxBulk : list D; bursts : R * R * R }.
Record options := Options { left : bool; right : bool; moving : bool; bursting : bool; retention : bool }.
Section RUN.
Variables D X E : Type.
Variable fmt : format D X E.
Definition nName (s : string) (side : string) : string := ("n" ++ s ++ side)%string.
Definition fluxName (s : string) (side : string) : string := ("previousFlux" ++ s ++ side)%string.
(** The loop on the names in writeSurface and writeBottom: [i] is the index of the first name. *)
Fixpoint writeSpecies (x : X) (n flux : list D) (side : string) (i : nat) (names : list string) (g : group E) : option (group E) :=
  match names with
  | [] => Some g
  | s :: q =>
    match nth_error n i, nth_error flux i with
    | Some d, Some f =>
      match encode fmt x d, encode fmt x f with
      | Some e, Some e' =>
        match create g (nName s side) e with
        | Some g1 => match create g1 (fluxName s side) e' with Some g2 => writeSpecies x n flux side (S i) q g2 | None => None end
        | None => None
        end
      | _, _ => None
      end
    | _, _ => None
    end
  end.
(** The file: what is stored for the species, and the three amounts of bursting (attributes). *)
Record file := File { amounts : group E; burst : option (R * R * R) }.
(** startStopImpl: [x] is the extent of the surface. writeBottom takes the extent of the first species. *)
Definition checkpoint (o : options) (x : X) (names : list string) (m : monitor D) : option file :=
  match (if moving o || left o then writeSpecies x (nSurf m) (fluxSurf m) "Surf" 0 names [] else Some []) with
  | None => None
  | Some g1 =>
    match (if right o then
             match nBulk m with
             | [] => None
             | d :: _ => match extent fmt d with Some y => writeSpecies y (nBulk m) (fluxBulk m) "Bulk" 0 names g1 | None => None end
             end
           else Some g1) with
    | None => None
    | Some g2 => Some (File g2 (if bursting o then Some (bursts m) else None))
    end
  end.

(** ** Reading *)
Fixpoint setNth (l : list D) (i : nat) (d : D) : option (list D) :=
  match l, i with
  | [], _ => None
  | _ :: r, O => Some (d :: r)
  | a :: r, S i' => match setNth r i' d with Some q => Some (a :: q) | None => None end
  end.
Fixpoint readSpecies (g : group E) (side : string) (i : nat) (names : list string) (n flux : list D) : option (list D * list D) :=
  match names with
  | [] => Some (n, flux)
  | s :: q =>
    match find g (nName s side), find g (fluxName s side) with
    | Some e, Some e' =>
      match setNth n i (decode fmt e), setNth flux i (decode fmt e') with Some n', Some f' => readSpecies g side (S i) q n' f' | _, _ => None end
    | _, _ => None
    end
  end.
(** The vectors of a new monitor. *)
Definition fresh (o : options) (x : X) (count : nat) : monitor D :=
  let z (b : bool) := if b then repeat (zeros fmt x) count else [] in
  Monitor (z (left o)) (z (left o)) (z (right o)) (z (right o)) (0, 0, 0).
Definition readSurface (g : group E) (names : list string) (m : monitor D) : option (monitor D) :=
  match readSpecies g "Surf" 0 names (nSurf m) (fluxSurf m) with Some (n, f) => Some (Monitor n f (nBulk m) (fluxBulk m) (bursts m)) | None => None end.
Definition readBottom (g : group E) (names : list string) (m : monitor D) : option (monitor D) :=
  match readSpecies g "Bulk" 0 names (nBulk m) (fluxBulk m) with Some (n, f) => Some (Monitor (nSurf m) (fluxSurf m) n f (bursts m)) | None => None end.
Definition andThen A B (a : option A) (f : A -> option B) : option B := match a with Some x => f x | None => None end.
(** setup in the first solver loop of a restart: for the moving surface, then for the retention. *)
Definition restart (o : options) (x : X) (names : list string) (f : file) : option (monitor D) :=
  let g := amounts f in
  andThen (if moving o then readSurface g names (fresh o x (List.length names)) else Some (fresh o x (List.length names))) (fun m1 =>
  if retention o then
    andThen (if left o then readSurface g names m1 else Some m1) (fun m2 =>
    andThen (if right o then readBottom g names m2 else Some m2) (fun m3 =>
    if bursting o then
      match burst f with Some b => Some (Monitor (nSurf m3) (fluxSurf m3) (nBulk m3) (fluxBulk m3) b) | None => None end
    else Some m3))
  else Some m1).
End RUN.
