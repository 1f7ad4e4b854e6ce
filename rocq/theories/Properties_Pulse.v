(** C79: the sources of nuclear fuel and of pulses, and time profiles. *)
From Coq Require Import Reals List Lra Lia ZArith R_Ifp.
From Verif Require Import Sums EnergyModel RatesModel ProfileModel ImplantModel ImplantProofs SourceModel PulseModel.
Import ListNotations.
Open Scope R_scope.

(** ** The number of sites of vacancies and divacancies, from the reaction file *)
(** A line of the file for a cluster of Xe, V and I: for each of its states the enthalpy, the entropy, and two numbers for the diffusion. *)
Definition fileLine (xe v i : Z) (states : list (R * R * R * R)) : line :=
  IZR xe :: IZR v :: IZR i :: flat_map (fun '(h, s, d, q) => [h; s; d; q]) states.
Definition free (T : R) (st : R * R * R * R) : R := let '(h, s, _, _) := st in h - 8.6173324e-5 * T * s.
Definition ground (T : R) (states : list (R * R * R * R)) (g : R) : Prop := In g (map (free T) states) /\ forall st, In st states -> g <= free T st.
(** The partition function relative to the ground state. *)
Definition sites (T : R) (states : list (R * R * R * R)) (g : R) : R := Rsum states (fun st => exp ((g - free T st) / (8.6173324e-5 * T))).

Lemma Int_part_Z z : Int_part (IZR z) = z.
Proof. destruct (base_Int_part (IZR z)) as [A B]. apply Z.le_antisymm; [apply le_IZR; exact A|]. assert (C : IZR z < IZR (Int_part (IZR z) + 1)) by (rewrite plus_IZR; lra). apply lt_IZR in C. lia. Qed.
Lemma compAt_file xe v i states : (0 <= xe)%Z -> (0 <= v)%Z -> (0 <= i)%Z -> compAt (fileLine xe v i states) 0 = Some (xe, v, i).
Proof.
  intros H1 H2 H3. unfold compAt, fileLine. cbn [nth_error plus]. unfold unsigned.
  destruct (Rle_dec 0 (IZR xe)) as [_|N]; [|destruct N; apply IZR_le; exact H1]. destruct (Rle_dec 0 (IZR v)) as [_|N]; [|destruct N; apply IZR_le; exact H2].
  destruct (Rle_dec 0 (IZR i)) as [_|N]; [|destruct N; apply IZR_le; exact H3]. rewrite !Int_part_Z. reflexivity.
Qed.
Lemma kB_eq : kB = 8.6173324e-5. Proof. unfold kB. lra. Qed.
Lemma energies_file T states : energies T (flat_map (fun '(h, s, d, q) => [h; s; d; q]) states) = Some (map (free T) states).
Proof. induction states as [|[[[h s] d] q] states IH]; [reflexivity|]. cbn [flat_map app energies map free]. rewrite IH, kB_eq. reflexivity. Qed.
Lemma lowest_spec : forall gs g, (In (lowest g gs) (g :: gs)) /\ lowest g gs <= g /\ forall x, In x gs -> lowest g gs <= x.
Proof.
  induction gs as [|a gs IH]; intros g; cbn [lowest]; [split; [left; reflexivity|split; [lra|intros x []]]|].
  destruct (IH (if Rlt_dec a g then a else g)) as (A & B & C). split; [|split].
  - destruct A as [A|A]; [|right; right; exact A]. rewrite <- A. destruct (Rlt_dec a g); [right; left|left]; reflexivity.
  - destruct (Rlt_dec a g); lra.
  - intros x [<-|H]; [destruct (Rlt_dec a g); lra|apply C; exact H].
Qed.
Lemma lowest_ground T states g st r : states = st :: r -> ground T states g -> lowest (free T st) (map (free T) states) = g.
Proof.
  intros E [HI HG]. destruct (lowest_spec (map (free T) states) (free T st)) as (A & B & C). apply Rle_antisym; [apply C; exact HI|].
  assert (I : In (lowest (free T st) (map (free T) states)) (map (free T) states)) by (destruct A as [<-|A]; [rewrite E; left; reflexivity|exact A]).
  apply in_map_iff in I as (s & <- & Hs). apply HG. exact Hs.
Qed.
Lemma fold_add (f : R -> R) : forall l a, fold_left (fun x g => x + f g) l a = a + Rsum l f.
Proof. induction l as [|g l IH]; intros a; cbn [fold_left Rsum]; [lra|]. rewrite IH. lra. Qed.
Lemma sites_bounds T states g : 0 < T -> ground T states g -> 1 <= sites T states g <= INR (length states).
Proof.
  intros HT [HI HG]. assert (K : 0 < 8.6173324e-5 * T) by lra.
  assert (U : forall st, In st states -> 0 < exp ((g - free T st) / (8.6173324e-5 * T)) <= 1).
  { intros st Hs. split; [apply exp_pos|]. rewrite <- exp_0. specialize (HG st Hs). destruct (Req_dec g (free T st)) as [->|N]; [right; f_equal; unfold Rdiv; rewrite Rminus_diag_eq by reflexivity; ring|].
    left. apply exp_increasing. unfold Rdiv. assert (0 < / (8.6173324e-5 * T)) by (apply Rinv_0_lt_compat; exact K). assert (0 < (free T st - g) * / (8.6173324e-5 * T)) by (apply Rmult_lt_0_compat; lra). lra. }
  unfold sites. apply in_map_iff in HI as (st & Eg & Hs). split.
  - assert (one : exp ((g - free T st) / (8.6173324e-5 * T)) = 1) by (rewrite Eg, Rminus_diag_eq by reflexivity; unfold Rdiv; rewrite Rmult_0_l; apply exp_0). clear Eg HG.
    revert Hs U. induction states as [|a states IH]; intros Hs U; [destruct Hs|]. cbn [Rsum].
    assert (P : 0 <= Rsum states (fun st => exp ((g - free T st) / (8.6173324e-5 * T)))) by (clear; induction states as [|b l IH]; cbn [Rsum]; [lra|]; pose proof (exp_pos ((g - free T b) / (8.6173324e-5 * T))); lra).
    destruct Hs as [->|Hs]; [lra|]. specialize (IH Hs (fun s H => U s (or_intror H))). destruct (U a (or_introl eq_refl)). lra.
  - clear -U. induction states as [|a states IH]; [cbn; lra|]. cbn [length Rsum]. rewrite S_INR. specialize (IH (fun s H => U s (or_intror H))). destruct (U a (or_introl eq_refl)). lra.
Qed.
Lemma fuelLine_pure T states g fs v : ground T states g -> v = 1%Z \/ v = 2%Z ->
  fuelLine T (fileLine 0 v 0 states) fs = Some (if (v =? 1)%Z then (fst fs + sites T states g, snd fs) else (fst fs, snd fs + 2 * sites T states g)).
Proof.
  intros HG Hv. unfold fuelLine. rewrite compAt_file by lia. cbn [Z.ltb Z.compare orb]. change (skipn 3 (fileLine 0 v 0 states)) with (flat_map (fun '(h, s, d, q) => [h; s; d; q]) states).
  rewrite energies_file. destruct states as [|st r] eqn:E; [destruct HG as [[] _]|]. rewrite <- E in *. replace (map (free T) states) with (free T st :: map (free T) r) by (rewrite E; reflexivity).
  cbv zeta iota beta. replace (free T st :: map (free T) r) with (map (free T) states) by (rewrite E; reflexivity). rewrite (lowest_ground T states g st r E HG), !fold_add, !Rsum_map.
  assert (S : forall c, Rsum states (fun x => c * exp ((g - free T x) / (kB * T))) = c * sites T states g) by (intros c; rewrite Rsum_scal, kB_eq; reflexivity).
  destruct Hv as [->| ->]; cbn [Z.eqb Pos.eqb]; rewrite S; [|reflexivity]. rewrite Rmult_1_l. reflexivity.
Qed.
Lemma fuelLine_other T states fs xe v i : (0 <= xe)%Z -> (0 <= v)%Z -> (0 <= i)%Z -> (0 < xe \/ 0 < i)%Z -> fuelLine T (fileLine xe v i states) fs = Some fs.
Proof. intros H1 H2 H3 H. unfold fuelLine. rewrite compAt_file by assumption. destruct (Z.ltb_spec 0 xe), (Z.ltb_spec 0 i); try reflexivity; lia. Qed.
(** Any file whose clusters are one V, one V2, and clusters with Xe or I, in any order. *)
Inductive fuelFile (T : R) : list line -> option R -> option R -> Prop :=
| ff_nil : fuelFile T [] None None
| ff_v states g ls f2 : ground T states g -> fuelFile T ls None f2 -> fuelFile T (fileLine 0 1 0 states :: ls) (Some (sites T states g)) f2
| ff_v2 states g ls f1 : ground T states g -> fuelFile T ls f1 None -> fuelFile T (fileLine 0 2 0 states :: ls) f1 (Some (sites T states g))
| ff_other xe v i states ls f1 f2 : (0 <= xe)%Z -> (0 <= v)%Z -> (0 <= i)%Z -> (0 < xe \/ 0 < i)%Z -> fuelFile T ls f1 f2 -> fuelFile T (fileLine xe v i states :: ls) f1 f2.
Definition orZero (o : option R) : R := match o with Some x => x | None => 0 end.
Lemma fuelLines_file T ls f1 f2 : fuelFile T ls f1 f2 -> forall fs, fuelLines T ls fs = Some (fst fs + orZero f1, snd fs + 2 * orZero f2).
Proof.
  induction 1 as [|states g ls f2 HG HF IH|states g ls f1 HG HF IH|xe v i states ls f1 f2 A B C D HF IH]; intros fs; cbn [fuelLines].
  - cbn [orZero]. destruct fs. cbn [fst snd]. f_equal. f_equal; lra.
  - rewrite (fuelLine_pure T states g fs 1 HG (or_introl eq_refl)), IH. cbn [Z.eqb Pos.eqb fst snd orZero]. f_equal. f_equal; lra.
  - rewrite (fuelLine_pure T states g fs 2 HG (or_intror eq_refl)), IH. cbn [Z.eqb Pos.eqb fst snd orZero]. f_equal. f_equal; lra.
  - rewrite fuelLine_other by assumption. apply IH.
Qed.
Lemma sections_file ls rest : (forall l, In l ls -> l <> []) -> ls <> [] -> fst (sections (map Toks ls ++ Marker :: rest)) = ls.
Proof.
  intros HN HE. destruct ls as [|l ls]; [congruence|]. cbn [map app sections tokens].
  assert (G : forall ls l, (forall x, In x (l :: ls) -> x <> []) -> fst (clusterLoop l (map Toks ls ++ Marker :: rest)) = l :: ls).
  { clear. induction ls as [|a ls IH]; intros l HN; cbn [map app clusterLoop].
    - destruct l; [destruct (HN [] (or_introl eq_refl) eq_refl)|reflexivity].
    - destruct l as [|x l]; [destruct (HN [] (or_introl eq_refl) eq_refl)|]. specialize (IH a (fun y H => HN y (or_intror H))). destruct a as [|z a]; [destruct (HN [] (or_intror (or_introl eq_refl)) eq_refl)|].
      destruct (clusterLoop (z :: a) (map Toks ls ++ Marker :: rest)) as [q w]. cbn [fst] in *. rewrite IH. reflexivity. }
  specialize (G ls l HN). destruct (clusterLoop l (map Toks ls ++ Marker :: rest)) as [q w]. exact G.
Qed.

(** ** Fuel: the same number of vacancies and interstitials, 10^4 for each fission and each free site, and the xenon *)
Theorem c79_fuel v v2 i xe T ls rest f1 f2 amplitude xeYield : fuelFile T ls (Some f1) (Some f2) -> 0 < T -> / 4503599627370496 <= Rabs amplitude ->
  exists st, fuelInit (FuelNet (Some v) (Some v2) (Some i) (Some xe)) T (map Toks ls ++ Marker :: rest) amplitude false fuelStart = Ready st /\
    forall conc, fuelAt st amplitude xeYield conc =
      [(v, 10000 * amplitude * (1 - (f1 * conc v + 2 * f2 * conc v2) / 24.44)); (i, 10000 * amplitude * (1 - (f1 * conc v + 2 * f2 * conc v2) / 24.44)); (xe, xeYield * amplitude)].
Proof.
  intros HF HT HA. unfold fuelInit, isZero. destruct (Rlt_dec (Rabs amplitude) (/ 4503599627370496)); [lra|]. cbn [andb fV fV2 fI fXe].
  rewrite sections_file.
  2: { clear -HF. induction HF as [| | |]; intros l HL; [destruct HL|..]; (destruct HL as [<-|HL]; [discriminate|auto]). }
  2: { inversion HF; discriminate. }
  rewrite (fuelLines_file _ _ _ _ HF). cbn [orZero fst snd]. eexists. split; [reflexivity|]. intros conc. unfold fuelAt, available. cbn [fuelStart fuelIndices pureIds app nth factors fst snd].
  repeat (f_equal; try lra).
Qed.
Print Assumptions c79_fuel.
(** The factors: at least one site for each, at most as many as the states. *)
Theorem c79_fuel_sites T ls f1 f2 : 0 < T -> fuelFile T ls (Some f1) (Some f2) -> 1 <= f1 /\ 1 <= f2.
Proof.
  intros HT. assert (G : forall ls o1 o2, fuelFile T ls o1 o2 -> (forall f, o1 = Some f -> 1 <= f) /\ (forall f, o2 = Some f -> 1 <= f)).
  { induction 1 as [|states g l o2 HG HF IH|states g l o1 HG HF IH|xe v i states l o1 o2 A B C D HF IH]; [split; discriminate| | |exact IH]; destruct IH as [I1 I2]; split; intros f E; auto; injection E as <-; apply sites_bounds; assumption. }
  intros H. destruct (G ls _ _ H) as [G1 G2]. split; auto.
Qed.
Print Assumptions c79_fuel_sites.

(** The last state may do without the two numbers for the diffusion. *)
Theorem c79_fuel_short T n states h s d q fs : (0 <= n)%Z ->
  fuelLine T ([0; IZR n; 0] ++ flat_map (fun '(h, s, d, q) => [h; s; d; q]) states ++ [h; s]) fs = fuelLine T (fileLine 0 n 0 (states ++ [(h, s, d, q)])) fs.
Proof.
  intros Hn. assert (E : energies T (flat_map (fun '(h, s, d, q) => [h; s; d; q]) states ++ [h; s]) = energies T (flat_map (fun '(h, s, d, q) => [h; s; d; q]) (states ++ [(h, s, d, q)]))).
  { induction states as [|[[[h' s'] d'] q'] states IH]; [reflexivity|]. cbn [app flat_map energies]. rewrite IH. reflexivity. }
  unfold fuelLine. change (compAt (fileLine 0 n 0 (states ++ [(h, s, d, q)])) 0) with (compAt ([0; IZR n; 0] ++ flat_map (fun '(h, s, d, q) => [h; s; d; q]) states ++ [h; s]) 0).
  destruct (compAt _ 0) as [[[xe v] i]|]; [|reflexivity]. destruct (_ || _)%bool; [reflexivity|].
  change (skipn 3 ([0; IZR n; 0] ++ flat_map (fun '(h, s, d, q) => [h; s; d; q]) states ++ [h; s])) with (flat_map (fun '(h, s, d, q) => [h; s; d; q]) states ++ [h; s]).
  change (skipn 3 (fileLine 0 n 0 (states ++ [(h, s, d, q)]))) with (flat_map (fun '(h, s, d, q) => [h; s; d; q]) (states ++ [(h, s, d, q)])). rewrite E. reflexivity.
Qed.
Example c79_fuel_short_ok : exists fs, fuelLine 1000 [0; 1; 0; 5; 1; 2; 3; 7; 8] (0, 0) = Some fs /\ fuelLine 1000 (fileLine 0 1 0 [(5, 1, 2, 3); (7, 8, 9, 9)]) (0, 0) = Some fs.
Proof.
  destruct (fuelLine_other 1000 [] (0, 0) 1 0 0) ; try lia. assert (H : exists fs, fuelLine 1000 (fileLine 0 1 0 [(5, 1, 2, 3); (7, 8, 9, 9)]) (0, 0) = Some fs).
  { unfold fuelLine. rewrite compAt_file by lia. eexists. reflexivity. }
  destruct H as (fs & E). exists fs. split; [|exact E]. rewrite <- E. exact (c79_fuel_short 1000 1 [(5, 1, 2, 3)] 7 8 9 9 (0, 0) ltac:(lia)).
Qed.
Print Assumptions c79_fuel_short.
(** Between zero and 10^4 for each fission while the vacancies take no more than the sites of uranium, and falling with both. *)
Theorem c79_fuel_range amplitude f1 f2 x x2 y y2 : 0 < amplitude -> 1 <= f1 -> 1 <= f2 -> 0 <= x <= y -> 0 <= x2 <= y2 -> f1 * y + 2 * f2 * y2 <= 24.44 ->
  let source a b := 10000 * amplitude * (1 - (f1 * a + 2 * f2 * b) / 24.44) in 0 <= source y y2 <= source x x2 /\ source x x2 <= 10000 * amplitude.
Proof.
  intros HA H1 H2 HX HX2 HO source. unfold source. assert (P : 0 <= f1 * x + 2 * f2 * x2 <= f1 * y + 2 * f2 * y2) by (split; [nra|apply Rplus_le_compat; apply Rmult_le_compat_l; lra]).
  set (p := f1 * x + 2 * f2 * x2) in *. set (q := f1 * y + 2 * f2 * y2) in *. clearbody p q. assert (0 < 10000 * amplitude) by lra. split; [split|].
  - apply Rmult_le_pos; lra.
  - apply Rmult_le_compat_l; lra.
  - rewrite <- (Rmult_1_r (10000 * amplitude)) at 2. apply Rmult_le_compat_l; lra.
Qed.
Print Assumptions c79_fuel_range.
(** Above, defects are removed: also interstitials of which there are none. *)
Theorem c79_fuel_negative_refuted v v2 i xe T ls rest f1 f2 amplitude xeYield conc : fuelFile T ls (Some f1) (Some f2) -> 0 < T -> / 4503599627370496 <= amplitude ->
  conc i = 0 -> 0 <= conc v2 -> 24.44 < conc v -> 
  exists st r rest_, fuelInit (FuelNet (Some v) (Some v2) (Some i) (Some xe)) T (map Toks ls ++ Marker :: rest) amplitude false fuelStart = Ready st /\
    fuelAt st amplitude xeYield conc = (v, r) :: (i, r) :: rest_ /\ r < 0.
Proof.
  intros HF HT HA HI H2 H1. assert (A : 0 < / 4503599627370496) by (apply Rinv_0_lt_compat; lra).
  destruct (c79_fuel v v2 i xe T ls rest f1 f2 amplitude xeYield HF HT) as (st & E & S); [rewrite Rabs_pos_eq; lra|]. destruct (c79_fuel_sites T ls f1 f2 HT HF) as [F1 F2].
  exists st. eexists _, _. split; [exact E|]. split; [apply S|]. assert (P : 24.44 < f1 * conc v + 2 * f2 * conc v2) by nra. set (p := f1 * conc v + 2 * f2 * conc v2) in *. clearbody p.
  apply Ropp_lt_cancel. rewrite Ropp_0, Ropp_mult_distr_r. apply Rmult_lt_0_compat; lra.
Qed.
Print Assumptions c79_fuel_negative_refuted.
(** The derivative of the source by the vacancies, for which the solver has no entry in the Jacobian. *)
Theorem c79_fuel_jacobian_refuted v v2 i xe T ls rest f1 f2 amplitude xeYield conc : fuelFile T ls (Some f1) (Some f2) -> 0 < T -> / 4503599627370496 <= amplitude -> v <> v2 ->
  exists st d, fuelInit (FuelNet (Some v) (Some v2) (Some i) (Some xe)) T (map Toks ls ++ Marker :: rest) amplitude false fuelStart = Ready st /\
    derivable_pt_lim (fun x => snd (hd (0%nat, 0) (fuelAt st amplitude xeYield (fun k => if Nat.eqb k v then x else conc k)))) (conc v) d /\ d <= - (10000 * amplitude / 24.44).
Proof.
  intros HF HT HA HN. assert (A : 0 < / 4503599627370496) by (apply Rinv_0_lt_compat; lra).
  destruct (c79_fuel v v2 i xe T ls rest f1 f2 amplitude xeYield HF HT) as (st & E & S); [rewrite Rabs_pos_eq; lra|]. destruct (c79_fuel_sites T ls f1 f2 HT HF) as [F1 F2].
  exists st, (- (10000 * amplitude * f1 / 24.44)). split; [exact E|]. split.
  - intros eps He. exists (mkposreal 1 Rlt_0_1). intros h Hh _. rewrite !S. cbn [hd snd]. rewrite Nat.eqb_refl. replace (Nat.eqb v2 v) with false by (symmetry; apply Nat.eqb_neq; congruence).
    match goal with |- Rabs ?x < _ => replace x with 0 end; [rewrite Rabs_R0; exact He|]. assert (U : 24.44 <> 0) by lra. revert U. generalize 24.44. intros u U. field. split; assumption.
  - assert (10000 * amplitude <= 10000 * amplitude * f1) by (rewrite <- (Rmult_1_r (10000 * amplitude)) at 1; apply Rmult_le_compat_l; lra). lra.
Qed.
Print Assumptions c79_fuel_jacobian_refuted.
(** A file with a line for a larger vacancy cluster: written outside of the two factors. *)
Theorem c79_fuel_file_refuted v v2 i xe T ls states n more rest f1 f2 amplitude : fuelFile T ls f1 f2 -> (n = 0 \/ 3 <= n)%Z -> states <> [] -> / 4503599627370496 <= Rabs amplitude ->
  (forall l, In l more -> l <> []) ->
  fuelInit (FuelNet (Some v) (Some v2) (Some i) (Some xe)) T (map Toks (ls ++ fileLine 0 n 0 states :: more) ++ Marker :: rest) amplitude false fuelStart = Undefined.
Proof.
  intros HF Hn HS HA HM. unfold fuelInit, isZero. destruct (Rlt_dec (Rabs amplitude) (/ 4503599627370496)); [lra|]. cbn [andb fV fV2 fI fXe]. rewrite sections_file.
  - assert (L : forall a b fs, fuelLines T (a ++ b) fs = match fuelLines T a fs with Some fs' => fuelLines T b fs' | None => None end).
    { clear. induction a as [|l a IH]; intros b fs; [reflexivity|]. cbn [app fuelLines]. destruct (fuelLine T l fs); [apply IH|reflexivity]. }
    rewrite L, (fuelLines_file _ _ _ _ HF). cbn [fuelLines]. unfold fuelLine. rewrite compAt_file by lia. cbn [Z.ltb Z.compare orb].
    change (skipn 3 (fileLine 0 n 0 states)) with (flat_map (fun '(h, s, d, q) => [h; s; d; q]) states). rewrite energies_file. destruct states as [|s r]; [congruence|]. cbn [map].
    destruct (Z.eqb_spec n 1); [lia|]. destruct (Z.eqb_spec n 2); [lia|]. reflexivity.
  - intros l Hl. apply in_app_iff in Hl as [Hl|[<-|Hl]]; [|discriminate|apply HM; exact Hl]. revert l Hl. clear -HF. induction HF as [| | |]; intros l HL; [destruct HL|..]; (destruct HL as [<-|HL]; [discriminate|auto]).
  - destruct ls; discriminate.
Qed.
Print Assumptions c79_fuel_file_refuted.

(** ** Pulses *)
Definition pulseReady (st : pulseState) (v i xi surfacePos : nat) (value : R) : Prop := nth_error (pulseVec st) (xi - surfacePos) = Some value /\ exists r, pulseIndices st = v :: i :: r.
(** In the cycle k, at the time s after its start: on up to the proportion of the cycle, off behind it. *)
Theorem c79_pulse st v i xi sp value deltaTime alpha k s : pulseReady st v i xi sp value -> / 4503599627370496 <= deltaTime -> / 4503599627370496 <= alpha -> (0 <= k < 2 ^ 31)%Z -> 0 <= s < deltaTime ->
  pulseAt st deltaTime alpha (IZR k * deltaTime + s) xi sp = Some (if Rle_dec s (alpha * deltaTime) then [(v, value); (i, value)] else []).
Proof.
  intros (HV & r & HI) HD HAl Hk Hs. assert (A : 0 < / 4503599627370496) by (apply Rinv_0_lt_compat; lra). unfold pulseAt. destruct (Req_EM_T deltaTime 0); [lra|].
  assert (F : Int_part ((IZR k * deltaTime + s) / deltaTime) = k).
  { replace ((IZR k * deltaTime + s) / deltaTime) with (IZR k + s / deltaTime) by (field; lra).
    assert (B : 0 <= s / deltaTime < 1) by (split; [apply Rmult_le_pos; [lra|left; apply Rinv_0_lt_compat; lra]|apply Rmult_lt_reg_r with deltaTime; [lra|]; unfold Rdiv; rewrite Rmult_assoc, Rinv_l; lra]).
    destruct (base_Int_part (IZR k + s / deltaTime)) as [P Q]. apply Z.le_antisymm.
    - assert (C : IZR (Int_part (IZR k + s / deltaTime)) < IZR (k + 1)) by (rewrite plus_IZR; lra). apply lt_IZR in C. lia.
    - assert (C : IZR k < IZR (Int_part (IZR k + s / deltaTime) + 1)) by (rewrite plus_IZR; lra). apply lt_IZR in C. lia. }
  assert (K0 : 0 <= IZR k) by (apply IZR_le; lia).
  unfold toInt. destruct (Rle_dec 0 ((IZR k * deltaTime + s) / deltaTime)) as [_|N].
  2: { destruct N. apply Rmult_le_pos; [|left; apply Rinv_0_lt_compat; lra]. assert (0 <= IZR k * deltaTime) by (apply Rmult_le_pos; lra). lra. }
  rewrite F. change (2 ^ 31)%Z with 2147483648%Z in Hk. destruct (Z.leb_spec (-2147483648) k), (Z.leb_spec k 2147483647); cbn [andb]; try lia.
  replace (IZR k * deltaTime + s - IZR k * deltaTime) with s by ring. unfold isZero. rewrite !Rabs_pos_eq by lra.
  destruct (Rlt_dec deltaTime (/ 4503599627370496)); [lra|]. destruct (Rlt_dec alpha (/ 4503599627370496)); [lra|]. cbn [orb]. rewrite HV, HI.
  destruct (Rlt_dec (alpha * deltaTime) s), (Rle_dec s (alpha * deltaTime)); try lra; reflexivity.
Qed.
Print Assumptions c79_pulse.
(** When it is on, the same amount of vacancies and interstitials, which adds up to the amplitude over the grid. *)
Lemma pulseFit_pos x : 0 < pulseFit x.
Proof. unfold pulseFit. eapply Rlt_le_trans; [apply exp_pos|apply Rmax_l]. Qed.
Theorem c79_pulse_amount v i grid sp amplitude : (sp + 5 <= length grid)%nat -> gincr grid -> / 4503599627370496 <= Rabs amplitude ->
  let st := pulseInit v i grid sp amplitude false in implanted (pulseVec st) sp grid = Some amplitude /\
    forall xi, (sp <= xi < length grid - 2)%nat -> exists value, pulseReady st v i xi sp value.
Proof.
  intros HL HG HA st. unfold st, pulseInit. destruct grid as [|g0 grid]; [cbn in HL; lia|]. set (g := g0 :: grid) in *. cbn [pulseVec]. split.
  - rewrite initVec_implanted; [rewrite Rmult_1_r; reflexivity|lia|]. apply (@norm_pos _ g sp (sp + 1)); [exact HG|intros; left; apply pulseFit_pos|apply in_seq; lia|apply pulseFit_pos].
  - intros xi Hx. unfold pulseReady. cbn [pulseVec pulseIndices].
    unfold isZero. destruct (Rlt_dec (Rabs amplitude) (/ 4503599627370496)); [lra|]. cbn [andb].
    destruct (nth_error (initVec pulseFit amplitude 1 (norm pulseFit g sp) g sp) (xi - sp)) as [x|] eqn:E.
    + exists x. split; [reflexivity|]. exists []. reflexivity.
    + apply nth_error_None in E. exfalso. unfold initVec, cells in E. cbn [length] in E. rewrite app_length, map_length, seq_length in E. cbn [length] in E. lia.
Qed.
Print Assumptions c79_pulse_amount.

(** Without the option pulse the length is zero, and the division by it is before the test for it. *)
Theorem c79_pulse_none_refuted st alpha t xi sp : pulseAt st 0 alpha t xi sp = None.
Proof. unfold pulseAt. destruct (Req_EM_T 0 0); [reflexivity|congruence]. Qed.
Print Assumptions c79_pulse_none_refuted.
(** The shape over the depth: a Gaussian around 2000 nm of width 100 nm; two cells get what they have to get relative to each other. *)
Theorem c79_pulse_shape v i grid sp amplitude use xi xj a b : (sp + 4 <= length grid)%nat -> (sp < xi < length grid - 3)%nat -> (sp < xj < length grid - 3)%nat -> gincr grid ->
  nth_error (pulseVec (pulseInit v i grid sp amplitude use)) (xi - sp) = Some a -> nth_error (pulseVec (pulseInit v i grid sp amplitude use)) (xj - sp) = Some b ->
  let centre k := (nth k grid 0 + nth (k + 1) grid 0) / 2 - nth (sp + 1) grid 0 in let gauss x := exp (- (x - 2000) ^ 2 / (2 * 100 ^ 2)) in
  a * gauss (centre xj) = b * gauss (centre xi) /\ (0 < amplitude -> 0 < a).
Proof.
  intros HL Hi Hj HG Ha Hb centre gauss.
  assert (F : forall x, pulseFit x = gauss x).
  { intros x. unfold pulseFit. rewrite Rmax_left by (left; replace 0.0 with 0 by lra; apply exp_pos). unfold gauss. f_equal. replace 2000.0 with 2000 by lra. replace 100.0 with 100 by lra. replace 2.0 with 2 by lra.
    assert (S : sqrt 2 * sqrt 2 = 2) by (apply sqrt_sqrt; lra). assert (P : 0 < sqrt 2) by (apply sqrt_lt_R0; lra).
    replace (((x - 2000) / (sqrt 2 * 100)) ^ 2) with ((x - 2000) ^ 2 / ((sqrt 2 * sqrt 2) * 100 ^ 2)) by (field; lra). rewrite S. field. }
  assert (N : 0 < norm pulseFit grid sp) by (apply (@norm_pos _ grid sp xi); [exact HG|intros; rewrite F; left; apply exp_pos|apply in_seq; lia|rewrite F; apply exp_pos]).
  unfold pulseInit in Ha, Hb. destruct grid as [|g0 grid]; [cbn in HL; lia|]. set (g := g0 :: grid) in *. cbn [pulseVec] in Ha, Hb.
  assert (V : forall k y, (sp < k < length g - 3)%nat -> nth_error (initVec pulseFit amplitude 1 (norm pulseFit g sp) g sp) (k - sp) = Some y -> y = amplitude / norm pulseFit g sp * gauss (centre k)).
  { intros k y Hk Hy. change (incident (initVec pulseFit amplitude 1 (norm pulseFit g sp) g sp) sp k = Some y) in Hy. unfold initVec in Hy. rewrite vec_at in Hy by (try exact HL; lia).
    destruct (Nat.eqb_spec k sp); [lia|]. destruct (Nat.eqb_spec k (length g - 3)); [lia|]. injection Hy as <-. unfold normalized. destruct (Rlt_dec 0 (norm pulseFit g sp)); [|contradiction].
    change (depth g sp k) with (centre k). rewrite F. field. lra. }
  rewrite (V xi a Hi Ha), (V xj b Hj Hb). split; [ring|]. intros HA. apply Rmult_lt_0_compat; [apply Rdiv_lt_0_compat; assumption|apply exp_pos].
Qed.
Example c79_pulse_shape_ok : nth_error (pulseVec (pulseInit 0 1 [0; 1000; 1950; 2050; 3000; 4000] 0 5 false)) 1 <> None /\ (0 < 1 < length [0; 1000; 1950; 2050; 3000; 4000] - 3)%nat.
Proof. split; [discriminate|cbn; lia]. Qed.
Print Assumptions c79_pulse_shape.
(** From the cycle 2^31 on its number is not an int. *)
Theorem c79_pulse_late_refuted st deltaTime alpha t xi sp : 0 < deltaTime -> 2147483648 * deltaTime <= t -> pulseAt st deltaTime alpha t xi sp = None.
Proof.
  intros HD HT. unfold pulseAt. destruct (Req_EM_T deltaTime 0); [lra|]. assert (Q : 2147483648 <= t / deltaTime) by (apply Rmult_le_reg_r with deltaTime; [exact HD|]; unfold Rdiv; rewrite Rmult_assoc, Rinv_l; lra).
  unfold toInt. destruct (Rle_dec 0 (t / deltaTime)); [|lra]. destruct (base_Int_part (t / deltaTime)) as [P1 P2].
  assert (C : IZR 2147483648 < IZR (Int_part (t / deltaTime) + 1)) by (rewrite plus_IZR; lra). apply lt_IZR in C.
  destruct (Z.leb_spec (-2147483648) (Int_part (t / deltaTime))), (Z.leb_spec (Int_part (t / deltaTime)) 2147483647); try lia; reflexivity.
Qed.
Print Assumptions c79_pulse_late_refuted.
(** Without grid, or without amplitude: a vector without entries is read when the pulse is on. *)
Theorem c79_pulse_read_refuted v i grid amplitude deltaTime alpha xi sp : grid = [] \/ Rabs amplitude < / 4503599627370496 -> / 4503599627370496 <= deltaTime -> / 4503599627370496 <= alpha ->
  pulseAt (pulseInit v i grid sp amplitude false) deltaTime alpha 0 xi sp = None.
Proof.
  intros H HD HAl. assert (A : 0 < / 4503599627370496) by (apply Rinv_0_lt_compat; lra). unfold pulseAt. destruct (Req_EM_T deltaTime 0); [lra|]. replace (0 / deltaTime) with (IZR 0) by (unfold Rdiv; rewrite Rmult_0_l; reflexivity).
  unfold toInt. destruct (Rle_dec 0 (IZR 0)) as [_|N]; [|destruct N; lra]. rewrite Int_part_Z. cbn [Z.leb Z.compare andb].
  destruct (Rlt_dec (alpha * deltaTime) (0 - 0 * deltaTime)) as [N|_]; [exfalso; assert (0 < alpha * deltaTime) by (apply Rmult_lt_0_compat; lra); lra|].
  unfold isZero at 1 2. rewrite !Rabs_pos_eq by lra. destruct (Rlt_dec deltaTime (/ 4503599627370496)); [lra|]. destruct (Rlt_dec alpha (/ 4503599627370496)); [lra|]. cbn [orb].
  unfold pulseInit. destruct H as [->|H].
  - cbn [pulseVec]. destruct (xi - sp)%nat; reflexivity.
  - unfold isZero. destruct (Rlt_dec (Rabs amplitude) (/ 4503599627370496)); [|lra]. cbn [andb negb pulseIndices]. destruct (nth_error _ _); reflexivity.
Qed.
Print Assumptions c79_pulse_read_refuted.

(** ** Time profiles *)
(** The handlers of the base class follow the profile. *)
Theorem c79_profile id profile t a : lookup (fst profile) (snd profile) t = Some a -> exists amplitude use, constructor None (Some profile) = Some (amplitude, use) /\ baseAt id amplitude use profile t = Some [(id, a)].
Proof. intros E. exists 0, true. split; [reflexivity|]. unfold baseAt. rewrite Bool.andb_false_r. cbn [andb negb]. rewrite E. reflexivity. Qed.
Print Assumptions c79_profile.
(** Without profile: an amplitude is the source, both options are refused, none is no source in any handler. *)
Theorem c79_options id profile t a : / 4503599627370496 <= Rabs a ->
  (exists use, constructor (Some a) None = Some (a, use) /\ baseAt id a use profile t = Some [(id, a)]) /\ constructor (Some a) (Some profile) = None /\
  exists amplitude use, constructor None None = Some (amplitude, use) /\ baseAt id amplitude use profile t = Some [] /\
    forall net T file st xeYield conc, fuelInit net T file amplitude use fuelStart = Ready st -> fuelAt st amplitude xeYield conc = [].
Proof.
  intros H. assert (A : 0 < / 4503599627370496) by (apply Rinv_0_lt_compat; lra). split; [|split; [reflexivity|]].
  - exists false. split; [reflexivity|]. unfold baseAt, isZero. destruct (Rlt_dec (Rabs a) (/ 4503599627370496)); [lra|]. reflexivity.
  - exists 0, false. split; [reflexivity|]. assert (Z : isZero 0 = true) by (unfold isZero; rewrite Rabs_R0; destruct (Rlt_dec 0 (/ 4503599627370496)); [reflexivity|contradiction]).
    split; [unfold baseAt; rewrite Z; reflexivity|]. intros net T file st xeYield conc E. unfold fuelInit in E. rewrite Z in E. injection E as <-. reflexivity.
Qed.
Example c79_options_ok : / 4503599627370496 <= Rabs 3.
Proof. rewrite Rabs_pos_eq by lra. apply Rmult_le_reg_l with 4503599627370496; [lra|]. rewrite Rinv_r; lra. Qed.
Print Assumptions c79_options.
(** Those of fuel, pulses and alloys have no source at all, whatever the profile; that of zirconium is not changed by the dose. *)
Theorem c79_profile_refuted profile amplitude use : constructor None (Some profile) = Some (amplitude, use) ->
  (forall net T file st xeYield conc s, fuelInit net T file amplitude use fuelStart = Ready st -> In s (fuelAt st amplitude xeYield conc) -> snd s = 0) /\
    (forall v i grid sp deltaTime alpha t xi l s, pulseAt (pulseInit v i grid sp amplitude use) deltaTime alpha t xi sp = Some l -> In s l -> snd s = 0) /\
    (forall net grid ds d j, damages net grid amplitude = Some ds -> In d ds -> nth j (snd d) 0 = 0) /\
    (forall dose efficiency t t', attenuation dose efficiency amplitude t = attenuation dose efficiency amplitude t').
Proof.
  intros E. injection E as <- <-. split; [|split; [|split]].
  - intros net T file st xeYield conc s _ Hs. unfold fuelAt in Hs. destruct (fuelIndices st) as [|a [|b [|c r]]]; try (destruct Hs; fail). cbn [In] in Hs. destruct Hs as [<-|[<-|[<-|[]]]]; cbn [snd]; ring.
  - intros v i grid sp deltaTime alpha t xi l s HP Hs. unfold pulseAt in HP. destruct (Req_EM_T deltaTime 0); [discriminate|]. destruct (toInt (t / deltaTime)); [|discriminate].
    destruct (Rlt_dec _ _); [injection HP as <-; destruct Hs|]. destruct (_ || _)%bool; [injection HP as <-; destruct Hs|].
    destruct (nth_error (pulseVec (pulseInit v i grid sp 0 true)) (xi - sp)) as [x|] eqn:EN; [|discriminate].
    assert (Z : x = 0).
    { apply nth_error_In in EN. unfold pulseInit in EN. cbn [pulseVec] in EN. destruct grid as [|g0 grid]; [destruct EN|]. unfold initVec in EN. destruct EN as [<-|EN]; [reflexivity|].
      apply in_app_iff in EN as [EN|[<-|[]]]; [|reflexivity]. apply in_map_iff in EN as (k & <- & _). unfold normalized. destruct (Rlt_dec _ _); unfold Rdiv; ring. }
    destruct (pulseIndices _) as [|a [|b r]]; try discriminate. injection HP as <-. cbn [In] in Hs. destruct Hs as [<-|[<-|[]]]; exact Z.
  - intros net grid ds d j HD. unfold damages in HD. assert (G : forall fr s fs j, nth j (setGeneration grid 0 fr s fs) 0 = 0).
    { intros fr s fs j'. assert (Z : forall x, In x (setGeneration grid 0 fr s fs) -> x = 0).
      { assert (Y : forall x, generation 0 fr s fs x = 0) by (intros x; unfold generation; unfold Rdiv; ring). intros x. unfold setGeneration. destruct grid as [|g0 grid].
        - intros [<-|[]]. apply Y.
        - intros [<-|H]; [lra|]. apply in_app_iff in H as [H|[<-|[]]]; [|lra]. apply in_map_iff in H as (k & <- & _). apply Y. }
      destruct (Nat.lt_ge_cases j' (length (setGeneration grid 0 fr s fs))); [apply Z, nth_In; assumption|apply nth_overflow; assumption]. }
    revert ds HD d. generalize (combine clusterSizes clusterFraction). intros l. induction l as [|[s fr] l IH]; intros ds HD d Hd; cbn [cascadeLoop] in HD; [injection HD as <-; destruct Hd|].
    destruct (cascadeStep net grid 0 s fr) as [a|] eqn:EA; [|discriminate]. destruct (cascadeLoop net grid 0 l) as [b|] eqn:EB; [|discriminate]. injection HD as <-.
    apply in_app_iff in Hd as [Hd|Hd]; [|exact (IH b eq_refl d Hd)]. clear IH EB. unfold cascadeStep in EA. destruct (0 <? s)%Z.
    + destruct (findI net s) as [x|]; [|destruct (findFrank net s) as [y|]; [destruct (findPerfect net s) as [z|]|]]; inversion EA; subst a; cbn [In] in Hd; intuition (subst d; cbn [snd]; apply G).
    + destruct (s <? 0)%Z; [|discriminate]. destruct (findV net (- s)) as [x|]; [|destruct (findFaulted net (- s)) as [y|]]; inversion EA; subst a; cbn [In] in Hd; intuition (subst d; cbn [snd]; apply G).
  - intros dose efficiency t t'. unfold attenuation. rewrite !Rmult_0_r. reflexivity.
Qed.
Print Assumptions c79_profile_refuted.

(** ** Examples *)
Example c79_fuel_ex : exists f1 f2, fuelFile 1000 [fileLine 0 0 1 [(1, 2, 3, 4)]; fileLine 0 1 0 [(2, 0, 1, 1); (1, 0, 1, 1)]; fileLine 1 2 0 [(0, 0, 0, 0)]; fileLine 0 2 0 [(3, 1, 0, 0)]] (Some f1) (Some f2) /\ 1 < f1 < 2 /\ f2 = 1.
Proof.
  exists (sites 1000 [(2, 0, 1, 1); (1, 0, 1, 1)] 1), (sites 1000 [(3, 1, 0, 0)] (3 - 8.6173324e-5 * 1000 * 1)). split; [|split].
  - apply ff_other; [lia..|]. apply ff_v.
    { split; [right; left; cbn [free]; lra|]. intros st [<-|[<-|[]]]; cbn [free]; lra. }
    apply ff_other; [lia..|]. apply ff_v2; [|apply ff_nil]. split; [left; reflexivity|]. intros st [<-|[]]. cbn [free]. lra.
  - unfold sites. cbn [Rsum free]. replace ((1 - (1 - 8.6173324e-5 * 1000 * 0)) / (8.6173324e-5 * 1000)) with 0 by (unfold Rdiv; rewrite Rmult_0_r; ring). rewrite exp_0.
    pose proof (exp_pos ((1 - (2 - 8.6173324e-5 * 1000 * 0)) / (8.6173324e-5 * 1000))). assert (exp ((1 - (2 - 8.6173324e-5 * 1000 * 0)) / (8.6173324e-5 * 1000)) < 1); [|lra].
    apply Rlt_le_trans with (exp 0); [|rewrite exp_0; lra]. apply exp_increasing. unfold Rdiv. assert (P : 0 < / (8.6173324e-5 * 1000)) by (apply Rinv_0_lt_compat; lra). set (q := / (8.6173324e-5 * 1000)) in *. clearbody q. lra.
  - unfold sites. cbn [Rsum free]. rewrite Rminus_diag_eq by reflexivity. unfold Rdiv. rewrite Rmult_0_l, exp_0. lra.
Qed.
Example c79_pulse_ex : pulseReady (pulseInit 7 8 [0; 1; 2; 3; 4; 5] 0 1 false) 7 8 0 0 0 /\ gincr [0; 1; 2; 3; 4; 5] /\ / 4503599627370496 <= 0.5.
Proof.
  split; [|split].
  - split; [reflexivity|]. exists []. cbn [pulseInit pulseIndices]. unfold isZero. rewrite Rabs_R1. destruct (Rlt_dec 1 (/ 4503599627370496)) as [H|_]; [exfalso; lra|reflexivity].
  - intros i Hi. unfold gr. cbn [length] in Hi. do 5 (destruct i as [|i]; [cbn [nth]; lra|]). lia.
  - lra.
Qed.
Example c79_profile_ex : lookup [0; 10] [1; 3] 5 = Some 2.
Proof. unfold lookup. cbn [last length Nat.sub]. destruct (Rle_dec 5 0); [lra|]. destruct (Rle_dec 10 5); [lra|]. cbn [loop]. destruct (Rlt_dec 5 0); [lra|]. destruct (Rlt_dec 10 5); [lra|]. unfold rdiv. destruct (Req_EM_T (10 - 0) 0); [lra|]. f_equal. lra. Qed.
