(** The sources of defects of the materials other than tungsten: cascades in alloys (core/include/xolotl/core/flux/AlloyFitFluxHandler.h and
    AlloySRIMData.h), iron (FeFitFluxHandler.h), zirconium (AlphaZrFitFluxHandler.h). The network is seen through findCluster: [Some id], or
    [None] for the invalid index. The vectors which are copied to device views are not distinguished from them. *)
From Verif Require Export Sums.
From Coq Require Export Rtrigo_def.
Set Implicit Arguments.
Open Scope R_scope.

(** AlloyFitFluxHandler.h:341-350, AlphaZrFitFluxHandler.h:174-181 *)
Definition attenuation (dose efficiency amplitude t : R) : R :=
  if Rlt_dec 0 dose then ((1.0 - efficiency) / 2.0) * (1.0 - tanh (47.0 * (t * amplitude - dose))) + efficiency else 1.0.

(** *** Alloy *)
(** AlloySRIMData.h:22-28 *)
Definition clusterSizes : list Z := ([
    45; 44; 43; 42; 41; 40; 39; 38; 37; 36; 35; 34; 33; 32; 31; 30; 29; 28; 27; 26; 25; 24; 23; 22; 21; 20; 19; 18;
    17; 16; 15; 14; 13; 12; 11; 10; 9; 8; 7; 6; 5; 4; 3; 2; 1; -1; -2; -3; -4; -5; -6; -7; -8; -9; -10; -11; -12; -13;
    -14; -15; -16; -17; -18; -19; -20; -21; -22; -23; -24; -25; -26; -27; -28; -29; -30; -31; -32; -33; -34; -35; -36;
    -37; -38; -39; -40; -41; -42; -43; -44; -45])%Z.
(** AlloySRIMData.h:35-51, 54-70: setBulk and setOverlap have the same numbers, one column each *)
Definition clusterFraction : list (list R) := map (fun x => [x]) [
    0.000; 0.000; 0.019; 0.021; 0.001; 0.006; 0.003; 0.002; 0.003; 0.000; 0.003; 0.002; 0.010; 0.003; 0.013; 0.003;
    0.003; 0.010; 0.001; 0.002; 0.002; 0.005; 0.003; 0.006; 0.003; 0.006; 0.002; 0.003; 0.013; 0.003; 0.005; 0.016;
    0.008; 0.014; 0.011; 0.032; 0.016; 0.016; 0.019; 0.039; 0.035; 0.066; 0.120; 0.100; 0.350; 0.350; 0.100; 0.120;
    0.066; 0.035; 0.039; 0.019; 0.016; 0.016; 0.032; 0.011; 0.014; 0.008; 0.016; 0.005; 0.003; 0.013; 0.003; 0.002;
    0.006; 0.003; 0.006; 0.003; 0.005; 0.002; 0.002; 0.001; 0.010; 0.003; 0.003; 0.013; 0.003; 0.010; 0.002; 0.003;
    0.000; 0.003; 0.002; 0.003; 0.006; 0.001; 0.021; 0.019; 0.000; 0.000].
Definition cascadeEfficiencies : list R := [0.15].
Definition perfectFraction : R := 0.8.
(** AlloySRIMData.h:194, 234, of setBulk and setOverlap *)
Definition srimDamage : list (list R) := [[8.57e+01; 0.0]].
(** AlloyFitFluxHandler.h:43-55 *)
Definition damageFunction (damage : list (list R)) (x : R) : list R :=
  map (fun row => fold_left (fun d kc => d + snd kc * x ^ fst kc) (tl (combine (seq 0 (length row)) row)) (hd 0 row)) damage.
(** AlloyFitFluxHandler.h:89-96, 109-116 *)
Definition generation (amplitude fraction : R) (size : Z) (fractions : list R) (x : R) : R :=
  fold_left (fun rate j => rate + nth j cascadeEfficiencies 0 * nth j (damageFunction srimDamage x) 0 * nth j fractions 0)
    (seq 0 (length (damageFunction srimDamage x))) 0 * fraction * amplitude / IZR size.
(** AlloyFitFluxHandler.h:83-123, AlloySetGeneration; the grid has no points in 0D. *)
Definition setGeneration (grid : list R) (amplitude fraction : R) (size : Z) (fractions : list R) : list R :=
  match grid with
  | [] => [generation amplitude fraction size fractions 0]
  | _ => 0.0 :: map (fun i => generation amplitude fraction size fractions (nth (i + 1) grid 0 - nth 1 grid 0)) (seq 1 (length grid - 4)) ++ [0.0]
  end.
Record alloyNet := AlloyNet { findI : Z -> option nat; findFrank : Z -> option nat; findPerfect : Z -> option nat; findV : Z -> option nat; findFaulted : Z -> option nat }.
(** AlloyFitFluxHandler.h:209-291, one step of the loop; [None]: throws. implant is false (line 188). *)
Definition cascadeStep (net : alloyNet) (grid : list R) (amplitude : R) (size : Z) (fractions : list R) : option (list (nat * list R)) :=
  if (0 <? size)%Z then
    match findI net size with
    | Some id => Some [(id, setGeneration grid amplitude 1.0 size fractions)]
    | None =>
        match findFrank net size, findPerfect net size with
        | Some f, Some p => Some [(f, setGeneration grid amplitude (1.0 - perfectFraction) size fractions); (p, setGeneration grid amplitude perfectFraction size fractions)]
        | _, _ => Some []
        end
    end
  else if (size <? 0)%Z then
    match findV net (- size) with
    | Some id => Some [(id, setGeneration grid amplitude 1.0 (- size) fractions)]
    | None => match findFaulted net (- size) with Some id => Some [(id, setGeneration grid amplitude 1.0 (- size) fractions)] | None => Some [] end
    end
  else None.
(** lines 204-292 *)
Fixpoint cascadeLoop (net : alloyNet) (grid : list R) (amplitude : R) (cascade : list (Z * list R)) : option (list (nat * list R)) :=
  match cascade with
  | [] => Some []
  | (size, fr) :: r =>
      match cascadeStep net grid amplitude size fr, cascadeLoop net grid amplitude r with
      | Some a, Some b => Some (a ++ b)
      | _, _ => None
      end
  end.
Definition damages (net : alloyNet) (grid : list R) (amplitude : R) : option (list (nat * list R)) :=
  cascadeLoop net grid amplitude (combine clusterSizes clusterFraction).
(** lines 299-311, the file alloyFlux.dat, written by process 0: the values read from the vector of a damage; [None]: outside of it. *)
Definition written (grid : list R) (surfacePos : nat) (rates : list R) : option (list R) :=
  let idx := map (fun xi => (xi - surfacePos)%nat) (seq surfacePos (Nat.max (length grid) 1 - surfacePos)) in
  if forallb (fun i => (i <? length rates)%nat) idx then Some (map (fun i => nth i rates 0) idx) else None.
(** lines 317-329: a row of the view, zero at first; [None]: written outside of it *)
Definition viewRow (grid : list R) (surfacePos : nat) (rates : list R) : option (list R) :=
  let inner := match grid with [] => 1%nat | _ => (length grid - surfacePos + 1)%nat end in
  if (length rates <=? inner)%nat then Some (rates ++ repeat 0 (inner - length rates)) else None.
(** lines 352-359: what is added at the point xi *)
Definition alloyAt (rows : list (nat * list R)) (att : R) (xi surfacePos : nat) : list (nat * R) :=
  map (fun r => (fst r, att * nth (xi - surfacePos) (snd r) 0)) rows.

(** *** Iron: FeFitFluxHandler.h:158-168 *)
Inductive feKind := FeHe | FeI | FeV.
Definition feSources : list ((feKind * Z) * R) :=
  [((FeHe, 1%Z), 2.11e-11); ((FeI, 1%Z), 1.49e-05); ((FeV, 1%Z), 9.91e-06); ((FeV, 2%Z), 1.51e-06); ((FeV, 3%Z), 2.60e-07); ((FeV, 4%Z), 1.58e-07);
   ((FeV, 5%Z), 6.29e-08); ((FeV, 9%Z), 3.16e-08)].
(** lines 50-138: initializeFluxHandler. The first vector of incidentFluxVec, and the indices; [None]: throws. xGrid is not set in
    this function and has no points. *)
Record feState := FeState { xGridLength : nat; incidentFluxVec : list (list R); feIndices : list nat }.
Definition feStart : feState := FeState 0 [] [].
Fixpoint feFind (find : feKind * Z -> option nat) (l : list (feKind * Z)) : option (list nat) :=
  match l with
  | [] => Some []
  | c :: r => match find c, feFind find r with Some id, Some b => Some (id :: b) | _, _ => None end
  end.
Definition feInit (find : feKind * Z -> option nat) (grid : list R) (st : feState) : option feState :=
  match feFind find (map fst feSources) with
  | Some ids => Some (FeState (xGridLength st) (if Nat.eqb (xGridLength st) 0 then incidentFluxVec st ++ [[]] else incidentFluxVec st) (feIndices st ++ ids))
  | None => None
  end.
(** lines 144-169: [None]: throws, or reads outside of incidentFluxVec *)
Definition feAt (st : feState) (amplitude : R) : option (list (nat * R)) :=
  match incidentFluxVec st with
  | [] :: _ => Some (combine (firstn 8 (feIndices st)) (map snd feSources))
  | _ => None
  end.

(** *** Zirconium *)
(** AlphaZrFitFluxHandler.h:35-48 *)
Definition fluxI : list R := [
    4.141478088722051e-07; 3.961706397610119e-08; 1.2106952158361212e-08; 7.648435047264139e-09;
    4.0244599086078205e-09; 3.3920182333877126e-09; 2.973973662425018e-09; 1.2417969019237562e-09;
    8.851070516960898e-10; 1.3603816064935588e-09; 7.755269088868743e-10; 2.8874033916240647e-10;
    4.672779143981795e-10; 3.2236846376884343e-10; 7.656476570683874e-10; 3.573797643046147e-10;
    2.1021120447778106e-10; 1.539555427405712e-10; 3.782044331935486e-10; 2.568277326339155e-10;
    1.585689463091986e-10; 5.5696756415877455e-11; 3.3550319027591227e-10; 1.069608242891428e-10;
    8.354513462381556e-11; 2.4778164052265936e-10; 0.0; 7.911244608120112e-11; 2.7848378207938727e-11;
    7.911244608120112e-11; 2.7848378207938727e-11; 0.0; 5.1264067873265366e-11; 5.1264067873265366e-11; 0.0;
    5.1264067873265366e-11; 0.0; 2.7848378207938727e-11; 0.0; 0.0; 2.7848378207938727e-11; 0.0; 5.1264067873265366e-11].
(** AlphaZrFitFluxHandler.h:50-69 *)
Definition fluxV : list R := [
    3.000166061596907e-07; 3.261617020215222e-08; 1.125375463678962e-08; 6.367679929976148e-09;
    3.6816615428727384e-09; 2.9269034006169983e-09; 3.359947468090799e-09; 1.8195145694037134e-09;
    1.3135561927353992e-09; 1.0449271185930001e-09; 1.1127620938895e-09; 1.474853409405799e-09;
    1.1821355154481997e-09; 8.466205016950002e-10; 4.427436436175002e-10; 8.012900146363999e-10;
    3.0815704976440003e-10; 3.241739333764998e-10; 4.196949035263e-10; 3.490487822005e-10; 3.084457042192001e-10;
    3.664849375693001e-10; 2.1650475950509992e-10; 1.625140160880999e-10; 9.524908203469999e-11;
    2.125413615481001e-10; 3.2572815399419994e-10; 7.668920153209999e-11; 6.825371032619996e-11;
    2.292135057965999e-10; 0.0; 1.5371191870060005e-10; 1.4494291185829992e-10; 1.036845732406e-10;
    1.7151468025099992e-10; 6.825371032619996e-11; 0.0; 1.6797488560979994e-10; 8.098611512549996e-11; 0.0;
    7.668920153209999e-11; 0.0; 9.972117528360005e-11; 0.0; 2.699537170850001e-11; 0.0; 2.699537170850001e-11;
    5.399074341700002e-11; 5.399074341700002e-11; 6.825371032619996e-11; 2.699537170850001e-11; 5.399074341700002e-11;
    0.0; 0.0; 0.0; 4.9693829823599966e-11; 4.9693829823599966e-11; 1.4494291185829992e-10; 2.699537170850001e-11; 0.0;
    0.0; 0.0; 4.9693829823599966e-11; 0.0; 0.0; 5.399074341700002e-11].
Record zrNet := ZrNet { zrI : nat -> option nat; zrV : nat -> option nat; zrB : nat -> option nat }.
(** AlphaZrFitFluxHandler.h:119-127, 131-143, 147-159: one of the three loops *)
Definition zrLoop (find : nat -> option nat) (max : nat) (table : list R) (value : nat -> R -> R) : list (nat * R) :=
  flat_map (fun i => match find i with Some id => [(id, value i (nth (i - 1) table 0))] | None => [] end) (seq 1 (Nat.min max (length table))).
(** lines 86-91: the constructor *)
Definition basalShare (maxB : nat) (portion : R) : R := if (18 <? maxB)%nat then portion else 0.
(** lines 104-164: initializeFluxHandler; the vectors are extended. *)
Definition zrInit (net : zrNet) (maxI maxV maxB : nat) (portion : R) (st : list (nat * R)) : list (nat * R) :=
  let Qb := basalShare maxB portion in
  st ++ zrLoop (zrI net) maxI fluxI (fun _ f => f)
     ++ zrLoop (zrV net) maxV fluxV (fun i f => if (18 <? i)%nat then f * (1 - Qb) else f)
     ++ zrLoop (zrB net) maxB fluxV (fun i f => if (18 <? i)%nat then f * Qb else 0.0).
(** lines 183-189 *)
Definition zrAt (st : list (nat * R)) (att : R) : list (nat * R) := map (fun s => (fst s, snd s * att)) st.
