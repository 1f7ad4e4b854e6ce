(** Reading a parameter file, in the JSON format (options/src/JSONOptions.cpp) and in the older one (ConfOptions.cpp). A member of Options is
    named by its C++ name; the setters of lists are those of TokenModel, applied to the words of the list. The text of the file has been parsed (JSON: labels with
    a value or a list of values; the older format: labels with a text). *)
From Verif Require Import TokenModel.
From Coq Require Import Reals String.
Open Scope string_scope.

Inductive val := VS (s : string) | VD (x : R) | VI (n : Z) | VB (b : bool) | VInf | VL (words : list string).
Definition opts := string -> val.
Definition set (o : opts) (f : string) (v : val) : opts := fun g => if String.eqb g f then v else o g.

(** ** Conversions of a text *)
Inductive kind := KS | KD | KI | KB | KP.
Definition words (s : string) : list string := map string_of_list_ascii (tokens (t " ") (t s)).
(** operator>> for int (32 bits), of a text which has to be used up *)
Definition allDigits (l : text) : bool := match l with [] => false | _ => forallb (fun c => match digit c with Some _ => true | None => false end) l end.
Definition unsignedOf (l : text) : option Z := if allDigits l then Some (readDigits 0 l) else None.
Definition signedOf (l : text) : option Z :=
  match l with
  | c :: r => if Ascii.eqb c "-" then option_map Z.opp (unsignedOf r) else if Ascii.eqb c "+" then unsignedOf r else unsignedOf l
  | [] => None
  end.
Definition intOf (s : string) : option Z :=
  match words s with
  | [w] => match signedOf (t w) with Some z => if (-2147483648 <=? z)%Z && (z <=? 2147483647)%Z then Some z else None | None => None end
  | _ => None
  end.
(** boost::property_tree::stream_translator for bool: a number, else true or false *)
Definition boolTree (s : string) : option bool :=
  match words s with
  | [w] => if String.eqb w "true" || String.eqb w "1" then Some true else if String.eqb w "false" || String.eqb w "0" then Some false else None
  | _ => None
  end.
Definition lower (c : ascii) : ascii := let n := nat_of_ascii c in if (Nat.leb 65 n && Nat.leb n 90)%bool then ascii_of_nat (n + 32) else c.
Definition lowercase (s : string) : string := string_of_list_ascii (map lower (t s)).
(** boost::program_options::validate for bool *)
Definition boolConf (s : string) : option bool :=
  let w := lowercase s in
  if existsb (String.eqb w) [""; "on"; "yes"; "1"; "true"] then Some true else if existsb (String.eqb w) ["off"; "no"; "0"; "false"] then Some false else None.
(** operator>> for std::filesystem::path, up to a space (texts without quotation marks) *)
Definition pathOf (s : string) : option string := match words s with [w] => Some w | _ => None end.

(** The texts of the older format have no blanks at their ends (boost::program_options trims them). *)
Section READ.
Variable num : string -> option R.           (* the conversion to double *)
Variable opens : string -> bool.             (* whether a file can be opened *)
Variable nonPositive : text -> bool.         (* a word which is a number <= 0 *)
Variable strtoul : text -> option Z.

Definition convert (boolOf : string -> option bool) (k : kind) (s : string) : option val :=
  match k with
  | KS => Some (VS s)
  | KD => option_map VD (num s)
  | KI => option_map VI (intOf s)
  | KB => option_map VB (boolOf s)
  | KP => option_map VS (pathOf s)
  end.

(** What a setter of a list does with its words (TokenModel); the words are kept as the value. *)
Definition done {A} (o : outcome A) : outcome unit := bind o (fun _ => Done tt).
Definition setter (label : string) (ws : list string) : outcome unit :=
  let ts := map t ws in
  if String.eqb label "tempParam" then done (setTempParam [] ts)
  else if String.eqb label "gridParam" then done (setGridParam [] ts)
  else if String.eqb label "process" then done (setProcessList (initMap []) ts)
  else if String.eqb label "couplingTimeStepParams" then done (setCouplingTimeStepParams nonPositive (fun _ => 0%Z) ts)
  else if String.eqb label "grouping" then done (setGroupingParams 0 (map (fun _ => 0%Z) ts))
  else if String.eqb label "netParam" then done (setNetworkParameters (map (fun _ => 0%Z) ts))
  else if String.eqb label "rng" then done (processRNGParam strtoul ts)
  else if String.eqb label "pulse" then done (setPulseParams ts)
  else Done tt. (* radiusSize, boundary *)
(** Options.cpp:278-317, 345-354: the checks of names *)
Inductive check := CFile (field : string) | CName (field : string) (allowed : list string).
Definition stringAt (o : opts) (f : string) : string := match o f with VS s => s | _ => "" end.
Definition checked (c : check) (o : opts) : bool :=
  match c with CFile f => opens (stringAt o f) | CName f names => existsb (String.eqb (stringAt o f)) names end.

(** ** JSON *)
(** boost::property_tree::iptree: labels are compared without case, the first one counts. A list has no text of its own. *)
Definition tree := list (string * node).
Definition same (a b : string) : bool := String.eqb (lowercase a) (lowercase b).
Definition child (f : tree) (label : string) : option node := option_map snd (List.find (fun p => same (fst p) label) f).
Definition data (n : node) : string := match n with Scalar s => string_of_list_ascii s | Items _ => "" end.

Inductive stmt :=
  | Check (k : kind) (label field : string)                     (* checkSetParam, lines 52-63 *)
  | GetOr (label field : string) (otherwise : string)           (* field = tree.get(label, otherwise) *)
  | Given (label : string) (flags : list (string * bool))       (* if (tree.count(label)) flags *)
  | Strict (k : kind) (label field : string)                    (* if (tree.count(label)) field = tree.get<T>(label) *)
  | Verify (label : string) (c : check)                         (* a check of a name; the empty label: always *)
  | ListOf (k : kind) (label field : string)                    (* if (tree.count(label)): a setter, of the text or of the vector of k *)
  | TextOf (label field : string)                               (* if (tree.count(label)): a setter, of tree.get<std::string> *)
  | Petsc (label field : string).
Definition ofKind (k : kind) (ws : list string) : bool := forallb (fun w => match convert boolTree k w with Some _ => true | None => false end) ws.
Definition applySetter (label field : string) (ws : list string) (o : opts) : outcome opts := bind (setter label ws) (fun _ => Done (set o field (VL ws))).
Definition step (f : tree) (s : stmt) (o : opts) : outcome opts :=
  match s with
  | Check k label field =>
      Done match child f label with Some n => match convert boolTree k (data n) with Some v => set o field v | None => o end | None => o end
  | GetOr label field otherwise => Done (set o field (VS match child f label with Some n => data n | None => otherwise end))
  | Given label flags => Done match child f label with Some _ => fold_left (fun o fb => set o (fst fb) (VB (snd fb))) flags o | None => o end
  | Strict k label field =>
      match child f label with Some n => match convert boolTree k (data n) with Some v => Done (set o field v) | None => Thrown end | None => Done o end
  | Verify label c =>
      if String.eqb label "" then (if checked c o then Done o else Thrown)
      else match child f label with Some _ => if checked c o then Done o else Thrown | None => Done o end
  | ListOf k label field =>
      match child f label with
      | Some (Scalar s) => applySetter label field (words (string_of_list_ascii s)) o
      | Some (Items []) => applySetter label field [] o
      | Some (Items l) => let ws := map string_of_list_ascii l in if ofKind k ws then applySetter label field ws o else Thrown
      | None => Done o
      end
  | TextOf label field => match child f label with Some n => applySetter label field (words (data n)) o | None => Done o end
  | Petsc label field =>
      Done match child f label with Some n => set o field (VS (string_of_list_ascii (petscArgs (t (stringAt o field)) n))) | None => o end
  end.
Fixpoint run (f : tree) (p : list stmt) (o : opts) : outcome opts :=
  match p with [] => Done o | s :: r => bind (step f s o) (run f r) end.

(** Options.cpp:20-89, the constructor *)
Definition constructed : list (string * val) :=
  [("petscArg", VS ""); ("restartFile", VS ""); ("tempHandlerName", VS ""); ("tempProfileFilename", VS ""); ("tempGridPower", VD 2.5); ("fluxFlag", VB false);
   ("fluxAmplitude", VD 0); ("fluxTimeProfileFlag", VB false); ("perfHandlerName", VS ""); ("perfOutputYAMLFlag", VB false); ("vizHandlerName", VS "");
   ("materialName", VS ""); ("initialConcentration", VS ""); ("interfaceLocation", VD (-1000)); ("dimensionNumber", VI 1); ("gridTypeName", VS "");
   ("gridFilename", VS ""); ("subnetworksFlag", VB false); ("gbList", VS ""); ("sputteringYield", VD 0); ("useHDF5Flag", VB true); ("xBC", VS "mirror");
   ("heatLossPortion", VD (-1)); ("burstingDepth", VD 10); ("burstingFactor", VD 0.1); ("zeta", VD 0.73); ("density", VD 10.162795276841); ("latticeParameter", VD (-1));
   ("impurityRadius", VD (-1)); ("biasFactor", VD 1.15); ("hydrogenFactor", VD 0.25); ("xenonDiffusivity", VD (-1)); ("fissionYield", VD 0.25);
   ("heVRatio", VD 4); ("migrationThreshold", VInf); ("basalPortion", VD 0.1); ("transitionSize", VI 325); ("cascadeDose", VD (-1)); ("cascadeEfficiency", VD 0);
   ("fluxTimeProfileFilePath", VS ""); ("fluxDepthProfileFilePath", VS ""); ("reactionFilePath", VS "")].
Definition lookup {A} (l : list (string * A)) (f : string) : option A := option_map snd (List.find (fun p => String.eqb (fst p) f) l).
(** The members which the setters of lists write have no words yet. *)
Definition start : opts := fun f => match lookup constructed f with Some v => v | None => VL [] end.

(** JSONOptions.cpp:113-299 *)
Definition jsonProgram : list stmt :=
  [GetOr "logLevel" "logLevel" "info"; Check KS "restartFile" "restartFile"; GetOr "tempHandler" "tempHandlerName" "constant"; ListOf KD "tempParam" "tempParam";
   Strict KS "tempFile" "tempProfileFilename"; Verify "tempFile" (CFile "tempProfileFilename"); Check KD "tempGridPower" "tempGridPower";
   Given "flux" [("fluxFlag", true)]; Strict KD "flux" "fluxAmplitude";
   Strict KS "fluxFile" "fluxTimeProfileFilePath"; Verify "fluxFile" (CFile "fluxTimeProfileFilePath"); Given "fluxFile" [("fluxTimeProfileFlag", true)];
   GetOr "perfHandler" "perfHandlerName" "os"; Verify "" (CName "perfHandlerName" ["dummy"; "os"; "papi"]); Check KB "perfOutputYAML" "perfOutputYAMLFlag";
   GetOr "vizHandler" "vizHandlerName" "dummy"; Verify "" (CName "vizHandlerName" ["std"; "dummy"]);
   Check KI "dimensions" "dimensionNumber"; Check KS "material" "materialName"; Check KS "initialConc" "initialConcentration"; Check KD "zeta" "zeta";
   Check KD "interfaceLoc" "interfaceLocation"; GetOr "gridType" "gridTypeName" "uniform"; ListOf KD "gridParam" "gridParam";
   Check KS "gridFile" "gridFilename"; Verify "gridFile" (CFile "gridFilename"); ListOf KS "process" "processMap"; Check KS "grain" "gbList";
   Check KB "useSubnetworks" "subnetworksFlag"; ListOf KD "couplingTimeStepParams" "couplingTimeStepParams"; ListOf KI "grouping" "grouping";
   Check KD "sputtering" "sputteringYield"; Given "netParam" [("useHDF5Flag", false)]; ListOf KI "netParam" "networkParams"; ListOf KI "radiusSize" "radiusMinSizes";
   ListOf KI "boundary" "boundary"; Check KS "xBCType" "xBC"; Check KD "heatLossPortion" "heatLossPortion"; Check KD "burstingDepth" "burstingDepth";
   Check KD "burstingFactor" "burstingFactor"; TextOf "rng" "rng"; Check KD "density" "density"; TextOf "pulse" "pulse"; Check KD "lattice" "latticeParameter";
   Check KD "impurityRadius" "impurityRadius"; Check KD "biasFactor" "biasFactor"; Check KD "hydrogenFactor" "hydrogenFactor"; Check KD "xenonDiffusivity" "xenonDiffusivity";
   Check KD "fissionYield" "fissionYield"; Check KD "heVRatio" "heVRatio"; Check KD "migrationThreshold" "migrationThreshold";
   Check KP "fluxDepthProfileFilePath" "fluxDepthProfileFilePath"; Check KP "reactionFilePath" "reactionFilePath"; Check KD "basalPortion" "basalPortion";
   Check KI "transitionSize" "transitionSize"; Check KD "cascadeDose" "cascadeDose"; Check KD "cascadeEfficiency" "cascadeEfficiency"; Petsc "petscArgs" "petscArg"].
Definition readJSON (f : tree) : outcome opts := run f jsonProgram start.

(** ** The older format *)
(** ConfOptions.cpp:71-234: label, type, member (none: the text is used later), value otherwise *)
Definition confTable : list (string * kind * string * option val) :=
  [("logLevel", KS, "logLevel", Some (VS "info")); ("restartFile", KS, "restartFile", None); ("tempHandler", KS, "tempHandlerName", Some (VS "constant"));
   ("tempParam", KS, "", None); ("tempFile", KS, "tempProfileFilename", None); ("tempGridPower", KD, "tempGridPower", None); ("flux", KD, "fluxAmplitude", None);
   ("fluxFile", KS, "fluxTimeProfileFilePath", None); ("perfHandler", KS, "perfHandlerName", Some (VS "os")); ("perfOutputYAML", KB, "perfOutputYAMLFlag", None);
   ("vizHandler", KS, "vizHandlerName", Some (VS "dummy")); ("dimensions", KI, "dimensionNumber", None); ("material", KS, "materialName", None);
   ("initialConc", KS, "initialConcentration", None); ("zeta", KD, "zeta", Some (VD 0.73)); ("interfaceLoc", KD, "interfaceLocation", None);
   ("gridType", KS, "gridTypeName", Some (VS "uniform")); ("gridParam", KS, "", None); ("gridFile", KS, "gridFilename", None); ("petscArgs", KS, "petscArg", None);
   ("process", KS, "", None); ("grain", KS, "gbList", None); ("useSubnetworks", KB, "subnetworksFlag", None); ("couplingTimeStepParams", KS, "", None);
   ("grouping", KS, "", None); ("sputtering", KD, "sputteringYield", None); ("netParam", KS, "", None); ("radiusSize", KS, "", None); ("boundary", KS, "", None);
   ("xBCType", KS, "xBC", None); ("heatLossPortion", KD, "heatLossPortion", None); ("burstingDepth", KD, "burstingDepth", None); ("burstingFactor", KD, "burstingFactor", None);
   ("rng", KS, "", None); ("density", KD, "density", None); ("pulse", KS, "", None); ("lattice", KD, "latticeParameter", None); ("impurityRadius", KD, "impurityRadius", None);
   ("biasFactor", KD, "biasFactor", None); ("hydrogenFactor", KD, "hydrogenFactor", None); ("xenonDiffusivity", KD, "xenonDiffusivity", None);
   ("fissionYield", KD, "fissionYield", None); ("heVRatio", KD, "heVRatio", None); ("migrationThreshold", KD, "migrationThreshold", None);
   ("fluxDepthProfileFilePath", KP, "fluxDepthProfileFilePath", None); ("reactionFilePath", KP, "reactionFilePath", None); ("basalPortion", KD, "basalPortion", Some (VD 0.1));
   ("transitionSize", KI, "transitionSize", Some (VI 325)); ("cascadeDose", KD, "cascadeDose", Some (VD (-1))); ("cascadeEfficiency", KD, "cascadeEfficiency", Some (VD 0))].
(** ConfOptions.cpp:258-341, after the members have been written; the texts are not lists here. *)
Definition confProgram : list stmt :=
  [TextOf "tempParam" "tempParam"; Verify "tempFile" (CFile "tempProfileFilename"); Given "flux" [("fluxFlag", true)]; Verify "fluxFile" (CFile "fluxTimeProfileFilePath");
   Given "fluxFile" [("fluxTimeProfileFlag", true)]; Verify "" (CName "perfHandlerName" ["dummy"; "os"; "papi"]); Verify "" (CName "vizHandlerName" ["std"; "dummy"]);
   TextOf "gridParam" "gridParam"; Verify "gridFile" (CFile "gridFilename"); TextOf "process" "processMap"; TextOf "couplingTimeStepParams" "couplingTimeStepParams";
   TextOf "grouping" "grouping"; Given "netParam" [("useHDF5Flag", false)]; TextOf "netParam" "networkParams"; TextOf "radiusSize" "radiusMinSizes"; TextOf "boundary" "boundary";
   TextOf "rng" "rng"; TextOf "pulse" "pulse"].
(** ConfOptions.cpp:253-254, store and notify of boost::program_options: an unknown label, a label given twice and a text which cannot be converted throw. *)
Fixpoint repeated (l : list string) : bool := match l with [] => false | a :: r => existsb (String.eqb a) r || repeated r end.
Fixpoint notify (f : list (string * string)) (table : list (string * kind * string * option val)) (o : opts) : outcome opts :=
  match table with
  | [] => Done o
  | (label, k, field, otherwise) :: r =>
      match lookup f label with
      | Some s => match convert boolConf k s with Some v => notify f r (if String.eqb field "" then o else set o field v) | None => Thrown end
      | None => notify f r (match otherwise with Some v => set o field v | None => o end)
      end
  end.
Definition readConf (f : list (string * string)) : outcome opts :=
  if repeated (map fst f) || negb (forallb (fun l => existsb (fun e => String.eqb (fst (fst (fst e))) l) confTable) (map fst f)) then Thrown
  else bind (notify f confTable start) (fun o =>
    run (map (fun p => (fst p, Scalar (t (snd p)))) f) confProgram o).
End READ.
