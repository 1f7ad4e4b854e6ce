(** Reading parameter lists: StreamTokenizer.h, Tokenizer.h (xolotl/util), the setters of
    Options.cpp and the comment stripping of JSONOptions.cpp (xolotl/options). *)
From Coq Require Export Ascii String List ZArith Lia Bool.
Export ListNotations.
Set Implicit Arguments.
Open Scope nat_scope.

Definition text := list ascii.
Definition t (s : string) : text := list_ascii_of_string s.
Definition nl : ascii := "010"%char.
Infix "=c" := Ascii.eqb (at level 70).

(** ** Lines and tokens *)
(** std::getline: [None] when nothing is left; the end of line is consumed and not returned. *)
Fixpoint cutLine (s : text) : text * text :=
  match s with
  | [] => ([], [])
  | c :: s' => if c =c nl then ([], s') else let '(l, r) := cutLine s' in (c :: l, r)
  end.
Definition getline (s : text) : option (text * text) := match s with [] => None | _ => Some (cutLine s) end.
(** std::string::find(p) == 0. *)
Fixpoint startsWith (p s : text) : bool :=
  match p, s with
  | [], _ => true
  | _, [] => false
  | a :: p', c :: s' => (a =c c) && startsWith p' s'
  end.
(** Tokenizer.h:44-54: boost::char_separator with dropped delimiters only, dropping empty
    tokens: delimiters are skipped, characters are collected up to the next delimiter. *)
Definition isDelim (delim : text) (c : ascii) : bool := existsb (fun d => d =c c) delim.
Definition flush (cur : text) : list text := match cur with [] => [] | _ => [cur] end.
Fixpoint tokensFrom (delim cur s : text) : list text :=
  match s with
  | [] => flush cur
  | c :: s' => if isDelim delim c then flush cur ++ tokensFrom delim [] s' else tokensFrom delim (cur ++ [c]) s'
  end.
Definition tokens (delim line : text) : list text := tokensFrom delim [] line.
(** StreamTokenizer.h:36-59: the data vector afterwards and what is left of the stream. Each
    call consumes a character, so that the number of characters bounds the depth. *)
Fixpoint load (fuel : nat) (delim comment : text) (s : text) (data : list text) : option (list text * text) :=
  match fuel with
  | 0 => None
  | S fuel' =>
    match getline s with
    | None => Some (data, [])
    | Some (line, rest) =>
      match line with
      | [] => Some (data, rest)
      | _ => if startsWith comment line then load fuel' delim comment rest data else Some (data ++ tokens delim line, rest)
      end
    end
  end.
Definition loadLine (delim comment s : text) (data : list text) : option (list text * text) := load (S (length s)) delim comment s data.

(** Tokenizer.h:15-25 for integral types, extraction as in the C++ library: white space is
    skipped; an optional sign and decimal digits are read; without digits the result is 0, out of
    range the nearest limit (signed types). [None]: only white space, nothing is written and the
    uninitialised variable is returned. *)
Definition isSpace (c : ascii) : bool := existsb (fun d => d =c c) (t " " ++ ["009"; "010"; "011"; "012"; "013"]%char).
Fixpoint skipSpace (s : text) : text := match s with c :: s' => if isSpace c then skipSpace s' else s | [] => [] end.
Definition digit (c : ascii) : option Z := let n := nat_of_ascii c in if (48 <=? n) && (n <=? 57) then Some (Z.of_nat n - 48)%Z else None.
Fixpoint readDigits (acc : Z) (s : text) : Z :=
  match s with c :: s' => match digit c with Some d => readDigits (10 * acc + d)%Z s' | None => acc end | [] => acc end.
Definition extractInt (lowest highest : Z) (s : text) : option Z :=
  match skipSpace s with
  | [] => None
  | c :: s' => let z := if c =c "-"%char then (- readDigits 0 s')%Z else if c =c "+"%char then readDigits 0 s' else readDigits 0 (c :: s') in
               Some (Z.max lowest (Z.min highest z))
  end.

(** ** Comments in JSON parameter files *)
(** JSONOptions.cpp:25-47: one line; what is kept and whether a /* comment is open. *)
Fixpoint stripLine (cCommenting : bool) (line : text) : text * bool :=
  match line with
  | [] => ([], cCommenting)
  | c :: line' =>
    if cCommenting then
      match line' with
      | d :: line'' => if (c =c "*"%char) && (d =c "/"%char) then stripLine false line'' else stripLine true line'
      | [] => ([], true)
      end
    else if c =c "#"%char then ([], false)
    else if c =c "/"%char then
      match line' with
      | d :: line'' => if d =c "/"%char then ([], false) else if d =c "*"%char then stripLine true line''
                       else let '(o, b) := stripLine false line' in (c :: o, b)
      | [] => ([c], false)
      end
    else let '(o, b) := stripLine false line' in (c :: o, b)
  end.
(** JSONOptions.cpp:18-50: all lines, run together. *)
Fixpoint stripFrom (fuel : nat) (cCommenting : bool) (s : text) : option text :=
  match fuel with
  | 0 => None
  | S fuel' => match getline s with
               | None => Some []
               | Some (line, rest) => let '(o, b) := stripLine cCommenting line in option_map (app o) (stripFrom fuel' b rest)
               end
  end.
Definition stripComments (s : text) : option text := stripFrom (S (length s)) false s.

(** ** Options.cpp: parameter lists *)
(** Outcome of a setter: the new values, an InvalidOptionValue, or an access past the end of
    the list (undefined behaviour). *)
Inductive outcome (A : Type) := Done (a : A) | Thrown | Undefined.
Arguments Thrown {A}. Arguments Undefined {A}.
Definition bind (A B : Type) (o : outcome A) (f : A -> outcome B) : outcome B := match o with Done a => f a | Thrown => Thrown | Undefined => Undefined end.
Definition at_ (A : Type) (l : list A) (i : nat) : outcome A := match nth_error l i with Some x => Done x | None => Undefined end.
Notation "x <- o ; f" := (bind o (fun x => f)) (at level 60, right associativity, o at level 50).

(** Options.cpp:201-232 *)
Record net := Net { maxImpurity : Z; maxD : Z; maxT : Z; maxV : Z; maxI : Z; maxPureV : Z }.
Definition setNetworkParameters (p : list Z) : outcome net :=
  imp <- at_ p 0;
  if 1 <? length p then
    d <- at_ p 1; tr <- at_ p 2; v <- at_ p 3; i <- at_ p 4;
    if 5 <? length p then pv <- at_ p 5; Done (Net imp d tr v i pv) else Done (Net imp d tr v i v)
  else Done (Net imp 0 0 20 6 20).
(** Options.cpp:259-269 and 324-334: an array of n values, of which the first are replaced. *)
Definition setArray (A : Type) (n : nat) (old params : list A) : outcome (list A) :=
  if n <? length params then Thrown else Done (params ++ skipn (length params) old).
Definition setTempParam (A : Type) := @setArray A 2.
Definition setGridParam (A : Type) := @setArray A 6.
(** Options.cpp:371-395: left, right, bottom, top, front, back. *)
Definition setBoundaries (old params : list Z) : outcome (list Z) :=
  if length params <? 2 then Done old
  else Done (firstn 6 params ++ skipn (length params) old).
(** Options.cpp:464-483: the first five values and the number of steps; [toSteps] is the conversion to IdType. *)
Definition setCouplingTimeStepParams (A : Type) (nonPositive : A -> bool) (toSteps : A -> Z) (params : list A) : outcome (list A * Z) :=
  if negb (length params =? 6) then Thrown
  else m <- at_ params 5; if nonPositive m then Thrown else Done (firstn 5 params, toSteps m).
(** Options.cpp:493-501 *)
Definition setPulseParams (A : Type) (params : list A) : outcome (A * A) := x <- at_ params 0; y <- at_ params 1; Done (x, y).
(** Options.cpp:503-514: minimum, first width, second width (unchanged when not given). *)
Definition setGroupingParams (oldWidthB : Z) (params : list Z) : outcome (Z * Z * Z) :=
  x <- at_ params 0; y <- at_ params 1;
  if 2 <? length params then z <- at_ params 2; Done (x, y, z) else Done (x, y, oldWidthB).
(** Options.cpp:405-431: the seed, if given, and whether it is printed; [strtoul] is the
    conversion of a token, [None] when not all of it is a number. *)
Definition processRNGParam (strtoul : text -> option Z) (tokens : list text) : outcome (option Z * bool) :=
  f <- at_ tokens 0;
  let print := if list_eq_dec ascii_dec f (t "print") then true else false in
  let i := if print then 1 else 0 in
  if i <? length tokens then s <- at_ tokens i; match strtoul s with Some n => Done (Some n, print) | None => Thrown end
  else Done (None, print).

(** A value in a JSON file: a single value, or a list of values. *)
Inductive node := Scalar (s : text) | Items (l : list text).
(** Options.cpp:524-531 *)
Definition appendPetscArg (petscArg arg : text) : text := (match petscArg with [] => [] | _ => petscArg ++ t " " end) ++ arg.
(** JSONOptions.cpp:294-298: only the items of a list are visited. *)
Definition petscArgs (old : text) (n : node) : text := match n with Scalar _ => old | Items l => fold_left appendPetscArg l old end.

(** Options.cpp:240-257, 433-462: the processes. *)
Definition processNames : list text := map t
  ["reaction"; "diff"; "advec"; "modifiedTM"; "movingSurface"; "bursting"; "attenuation"; "resolution"; "heterogeneous"; "sink"; "soret"; "constant"; "noSolve"]%string.
Definition text_dec : forall a b : text, {a = b} + {a <> b} := list_eq_dec ascii_dec.
(** A map of flags: [None] for a key which is not in the map. *)
Definition pmap := list (text * bool).
Fixpoint find (m : pmap) (k : text) : option bool := match m with [] => None | (k', b) :: m' => if text_dec k' k then Some b else find m' k end.
Fixpoint assign (m : pmap) (k : text) (b : bool) : pmap :=
  match m with [] => [(k, b)] | (k', b') :: m' => if text_dec k' k then (k', b) :: m' else (k', b') :: assign m' k b end.
Definition initMap (m : pmap) : pmap := fold_left (fun m k => assign m k false) processNames m.
Definition addProcess (m : pmap) (k : text) : outcome pmap :=
  let m := match m with [] => initMap [] | _ => m end in
  match find m k with Some _ => Done (assign m k true) | None => Thrown end.
Fixpoint setProcessList (m : pmap) (ks : list text) : outcome pmap :=
  match ks with [] => Done m | k :: ks' => m' <- addProcess m k; setProcessList m' ks' end.
Definition setProcesses (m : pmap) (s : text) : outcome pmap := setProcessList (initMap m) (tokens (t " ") s).

(** SolverHandler.cpp:454-478: the initial concentrations, three tokens each; [species] parses a
    species, [lookup] finds the cluster of a species and a size ([None]: an error is thrown),
    [toDouble] converts. *)
Fixpoint initialConc (A B C : Type) (species : text -> option C) (lookup : C -> text -> option A) (toDouble : text -> B) (tokens : list text) : outcome (list (A * B)) :=
  match tokens with
  | [] => Done []
  | s :: rest =>
    match species s with
    | None => Thrown
    | Some sp =>
      match rest with
      | [] => Undefined
      | n :: rest' =>
        match lookup sp n with
        | None => Thrown
        | Some id => match rest' with [] => Undefined | c :: rest'' => r <- initialConc species lookup toDouble rest''; Done ((id, toDouble c) :: r) end
        end
      end
    end
  end.
(** MaterialHandler.cpp:107-147: the grain boundaries, direction and place. *)
Inductive dir := DX | DY | DZ.
Definition direction (dim : Z) (s : text) : outcome dir :=
  if text_dec s (t "X") then Done DX
  else if text_dec s (t "Y") then (if (dim <? 2)%Z then Thrown else Done DY)
  else if text_dec s (t "Z") then (if (dim <? 2)%Z then Thrown else Done DZ)
  else Thrown.
Fixpoint grainBoundaries (dim : Z) (tokens : list text) : outcome (list (dir * text)) :=
  match tokens with
  | [] => Done []
  | s :: p :: rest => d <- direction dim s; r <- grainBoundaries dim rest; Done ((d, p) :: r)
  | [s] => d <- direction dim s; Undefined
  end.
