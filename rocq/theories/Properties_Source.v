(** C78: the sources of defects in alloys, iron and zirconium. *)
From Verif Require Import SourceModel.
From Coq Require Import Lra Lia.
Open Scope R_scope.

(** ** Alloy *)
(** The share of the displaced atoms which end in clusters of n = 1, 2, ..., 45, for interstitials and for vacancies. *)
Definition share (n : nat) : R := nth (n - 1) [0.350; 0.100; 0.120; 0.066; 0.035; 0.039; 0.019; 0.016; 0.016; 0.032; 0.011; 0.014; 0.008; 0.016; 0.005; 0.003; 0.013; 0.003; 0.002; 0.006; 0.003; 0.006; 0.003; 0.005; 0.002; 0.002; 0.001; 0.010; 0.003; 0.003; 0.013; 0.003; 0.010; 0.002; 0.003; 0.000; 0.003; 0.002; 0.003; 0.006; 0.001; 0.021; 0.019; 0.000; 0.000] 0.
(** 85.7 displaced atoms, of which 15 % survive. *)
Definition displaced (amplitude : R) : R := 0.15 * 85.7 * amplitude.
(** A weight for each cluster, proportional to the number of atoms, with one factor for the interstitial types and one for the vacancy types. *)
Definition weighs (net : alloyNet) (w : nat -> R) (aI aV : R) : Prop := forall n id,
  (findI net n = Some id \/ findFrank net n = Some id \/ findPerfect net n = Some id -> w id = aI * IZR n) /\
  (findV net n = Some id \/ findFaulted net n = Some id -> w id = aV * IZR n).
(** A place inside of the grid, at which the source is looked at. *)
Definition place (grid : list R) (i : nat) : Prop := (grid = [] /\ i = 0%nat) \/ (1 <= i <= length grid - 4)%nat.
Definition hasI (net : alloyNet) (n : nat) : bool :=
  match findI net (Z.of_nat n), findFrank net (Z.of_nat n), findPerfect net (Z.of_nat n) with Some _, _, _ => true | None, Some _, Some _ => true | _, _, _ => false end.
Definition hasV (net : alloyNet) (n : nat) : bool :=
  match findV net (Z.of_nat n), findFaulted net (Z.of_nat n) with None, None => false | _, _ => true end.

Lemma generation_eq amplitude fraction size x fr : generation amplitude fraction size [fr] x = displaced amplitude * fr * fraction / IZR size.
Proof. unfold generation, damageFunction, srimDamage, cascadeEfficiencies, displaced. cbn [map length combine seq tl hd fold_left fst snd nth pow].
  replace (8.57e+01) with 85.7 by lra. replace 0.0 with 0 by lra. generalize 85.7 0.15. intros a b. unfold Rdiv. ring.
Qed.
Lemma nth_map_seq (f : nat -> R) : forall n a i, (i < n)%nat -> nth i (map f (seq a n)) 0 = f (a + i)%nat.
Proof. induction n as [|n IH]; intros a i H; [lia|]. cbn [seq map]. destruct i as [|i]; cbn [nth]; [f_equal; lia|]. rewrite IH by lia. f_equal. lia. Qed.
Lemma set_at grid i amplitude fraction size fr : place grid i -> nth i (setGeneration grid amplitude fraction size [fr]) 0 = displaced amplitude * fr * fraction / IZR size.
Proof.
  intros [[-> ->]|H]; [apply generation_eq|]. destruct grid as [|g grid]; [cbn in H; lia|]. unfold setGeneration.
  destruct i as [|i]; [lia|]. set (f := fun i => generation _ _ _ _ _). set (n := length (g :: grid)) in *. clearbody n.
  change (nth i (map f (seq 1 (n - 4)) ++ [0.0]) 0 = displaced amplitude * fr * fraction / IZR size). rewrite app_nth1 by (rewrite map_length, seq_length; lia).
  rewrite nth_map_seq by lia. apply generation_eq.
Qed.
Lemma step_weight net grid amplitude w aI aV i n fr (positive : bool) : weighs net w aI aV -> place grid i -> (0 < n)%nat ->
  exists ds, cascadeStep net grid amplitude (if positive then Z.of_nat n else - Z.of_nat n) [fr] = Some ds /\
    Rsum ds (fun d => w (fst d) * nth i (snd d) 0) = (if positive then if hasI net n then aI else 0 else if hasV net n then aV else 0) * fr * displaced amplitude.
Proof.
  intros HW HP Hn. assert (NZ : IZR (Z.of_nat n) <> 0) by (apply not_0_IZR; lia). unfold cascadeStep, hasI, hasV. destruct positive.
  - destruct (Z.ltb_spec 0 (Z.of_nat n)); [|lia].
    destruct (findI net (Z.of_nat n)) as [id|] eqn:E1.
    { eexists. split; [reflexivity|]. cbn [Rsum fst snd]. rewrite set_at by exact HP. destruct (HW (Z.of_nat n) id) as [H1 _]. rewrite H1 by tauto. replace 1.0 with 1 by lra. generalize (displaced amplitude). intros dd. field. exact NZ. }
    destruct (findFrank net (Z.of_nat n)) as [f|] eqn:E2; [|eexists; split; [reflexivity|cbn; ring]].
    destruct (findPerfect net (Z.of_nat n)) as [p|] eqn:E3; [|eexists; split; [reflexivity|cbn; ring]].
    eexists. split; [reflexivity|]. cbn [Rsum fst snd]. rewrite !set_at by exact HP. destruct (HW (Z.of_nat n) f) as [H1 _]. destruct (HW (Z.of_nat n) p) as [H2 _]. rewrite H1, H2 by tauto.
    replace 1.0 with 1 by lra. generalize (displaced amplitude) perfectFraction. intros dd pf. field. exact NZ.
  - destruct (Z.ltb_spec 0 (- Z.of_nat n)); [lia|]. destruct (Z.ltb_spec (- Z.of_nat n) 0); [|lia]. rewrite Z.opp_involutive.
    destruct (findV net (Z.of_nat n)) as [id|] eqn:E1.
    { eexists. split; [reflexivity|]. cbn [Rsum fst snd]. rewrite set_at by exact HP. destruct (HW (Z.of_nat n) id) as [_ H1]. rewrite H1 by tauto. replace 1.0 with 1 by lra. generalize (displaced amplitude). intros dd. field. exact NZ. }
    destruct (findFaulted net (Z.of_nat n)) as [f|] eqn:E2; [|eexists; split; [reflexivity|cbn; ring]].
    eexists. split; [reflexivity|]. cbn [Rsum fst snd]. rewrite set_at by exact HP. destruct (HW (Z.of_nat n) f) as [_ H1]. rewrite H1 by tauto. replace 1.0 with 1 by lra. generalize (displaced amplitude). intros dd. field. exact NZ.
Qed.
Lemma Rsum_rev A (l : list A) f : Rsum (rev l) f = Rsum l f.
Proof. induction l as [|x l IH]; [reflexivity|]. cbn [rev]. rewrite Rsum_app, IH. cbn [Rsum]. ring. Qed.
Lemma loop_app net grid amplitude l1 l2 a b : cascadeLoop net grid amplitude l1 = Some a -> cascadeLoop net grid amplitude l2 = Some b -> cascadeLoop net grid amplitude (l1 ++ l2) = Some (a ++ b).
Proof.
  revert a. induction l1 as [|[s fr] l1 IH]; intros a E1 E2; cbn [cascadeLoop app] in *; [injection E1 as <-; exact E2|].
  destruct (cascadeStep net grid amplitude s fr) as [x|]; [|discriminate]. destruct (cascadeLoop net grid amplitude l1) as [y|]; [|discriminate]. injection E1 as <-.
  rewrite (IH y eq_refl E2), app_assoc. reflexivity.
Qed.
Lemma loop_weight net grid amplitude w aI aV i (positive : bool) (sh : nat -> R) : weighs net w aI aV -> place grid i -> forall l, (forall n, In n l -> (0 < n)%nat) ->
  exists ds, cascadeLoop net grid amplitude (map (fun n => ((if positive then Z.of_nat n else - Z.of_nat n)%Z, [sh n])) l) = Some ds /\
    Rsum ds (fun d => w (fst d) * nth i (snd d) 0) = displaced amplitude * Rsum l (fun n => (if positive then if hasI net n then aI else 0 else if hasV net n then aV else 0) * sh n).
Proof.
  intros HW HP. induction l as [|n l IH]; intros HL; [exists []; split; [reflexivity|cbn; ring]|].
  destruct (IH (fun m Hm => HL m (or_intror Hm))) as (b & E & S). destruct (step_weight net grid amplitude w aI aV i n (sh n) positive HW HP (HL n (or_introl eq_refl))) as (a & E' & S').
  exists (a ++ b). cbn [map cascadeLoop]. rewrite E', E. split; [reflexivity|]. rewrite Rsum_app, S, S'. cbn [Rsum]. ring.
Qed.
Lemma cascade_data : combine clusterSizes clusterFraction =
  map (fun n => (Z.of_nat n, [share n])) (rev (seq 1 45)) ++ map (fun n => ((- Z.of_nat n)%Z, [share n])) (seq 1 45).
Proof. reflexivity. Qed.

(** What the cascades put into the clusters of the network, at any place, in any weight proportional to the atoms. *)
Theorem c78_alloy net grid amplitude w aI aV i : weighs net w aI aV -> place grid i ->
  exists ds, damages net grid amplitude = Some ds /\
    Rsum ds (fun d => w (fst d) * nth i (snd d) 0) =
    displaced amplitude * Rsum (seq 1 45) (fun n => ((if hasI net n then aI else 0) + (if hasV net n then aV else 0)) * share n).
Proof.
  intros HW HP. unfold damages. rewrite cascade_data.
  destruct (loop_weight net grid amplitude w aI aV i true share HW HP (rev (seq 1 45))) as (a & E1 & S1); [intros n Hn; apply in_rev, in_seq in Hn; lia|].
  destruct (loop_weight net grid amplitude w aI aV i false share HW HP (seq 1 45)) as (b & E2 & S2); [intros n Hn; apply in_seq in Hn; lia|].
  exists (a ++ b). split; [apply loop_app; assumption|]. rewrite Rsum_app, S1, S2. cbv iota. rewrite Rsum_rev, <- Rmult_plus_distr_l, <- Rsum_plus. f_equal. apply Rsum_ext. intros n _. ring.
Qed.
Print Assumptions c78_alloy.

(** When the network has all the clusters, as many vacancies as interstitials, and 99.8 % of the atoms. *)
Theorem c78_alloy_balance net grid amplitude w aI aV i : weighs net w aI aV -> place grid i ->
  (forall n, (1 <= n <= 45)%Z -> (findI net n <> None \/ (findFrank net n <> None /\ findPerfect net n <> None)) /\ (findV net n <> None \/ findFaulted net n <> None)) ->
  exists ds, damages net grid amplitude = Some ds /\ Rsum ds (fun d => w (fst d) * nth i (snd d) 0) = (aI + aV) * 0.998 * 0.15 * 85.7 * amplitude.
Proof.
  intros HW HP HA. destruct (c78_alloy net grid amplitude w aI aV i HW HP) as (ds & E & S). exists ds. split; [exact E|]. rewrite S.
  rewrite (Rsum_ext _ _ (fun n => (aI + aV) * share n)).
  - rewrite Rsum_scal. replace (Rsum (seq 1 45) share) with 0.998 by (unfold share; cbn [seq Rsum nth Nat.sub]; lra). unfold displaced. lra.
  - intros n Hn. apply in_seq in Hn. destruct (HA (Z.of_nat n)) as [H1 H2]; [lia|]. unfold hasI, hasV.
    destruct (findI net (Z.of_nat n)), (findFrank net (Z.of_nat n)), (findPerfect net (Z.of_nat n)), (findV net (Z.of_nat n)), (findFaulted net (Z.of_nat n)); try reflexivity; exfalso; destruct H1 as [|[]], H2; congruence.
Qed.
Print Assumptions c78_alloy_balance.

(** Sizes which the network has not are left out, on one side only: interstitials up to 20 and vacancy types up to 45 give 0.874 of the
    atoms as interstitials, and 0.998 as vacancies. *)
Theorem c78_alloy_lost_refuted : exists net, (forall n, (1 <= n <= 45)%Z -> findV net n <> None \/ findFaulted net n <> None) /\ (forall n, (1 <= n <= 20)%Z -> findI net n <> None) /\
  forall grid amplitude w i, weighs net w 1 (-1) -> place grid i ->
  exists ds, damages net grid amplitude = Some ds /\ Rsum ds (fun d => w (fst d) * nth i (snd d) 0) = - (0.124 * 0.15 * 85.7 * amplitude).
Proof.
  exists (AlloyNet (fun n => if (n <=? 20)%Z then Some (Z.to_nat n) else None) (fun _ => None) (fun _ => None) (fun n => if (n <=? 20)%Z then Some (100 + Z.to_nat n)%nat else None) (fun n => Some (100 + Z.to_nat n)%nat)).
  split; [intros n _; right; discriminate|]. split; [intros n Hn; cbn; destruct (Z.leb_spec n 20); [discriminate|lia]|].
  intros grid amplitude w i HW HP. destruct (c78_alloy _ grid amplitude w 1 (-1) i HW HP) as (ds & E & S). exists ds. split; [exact E|]. rewrite S. unfold displaced.
  match goal with |- _ * ?s = _ => replace s with (-0.124) by (unfold share, hasI, hasV; cbn [findI findFrank findPerfect findV findFaulted seq Rsum nth Nat.sub Z.of_nat Pos.of_succ_nat Pos.succ Z.leb Z.compare Pos.compare Pos.compare_cont]; lra) end. lra.
Qed.
Print Assumptions c78_alloy_lost_refuted.

(** Interstitials for which the network has no cluster I n become loops, four perfect ones for each Frank loop. *)
Theorem c78_alloy_loops net grid amplitude n f p i : place grid i -> (1 <= n <= 45)%nat ->
  findI net (Z.of_nat n) = None -> findFrank net (Z.of_nat n) = Some f -> findPerfect net (Z.of_nat n) = Some p ->
  exists ds lf lp, damages net grid amplitude = Some ds /\ In (f, lf) ds /\ In (p, lp) ds /\
    nth i lf 0 = 0.2 * (displaced amplitude * share n / INR n) /\ nth i lp 0 = 0.8 * (displaced amplitude * share n / INR n).
Proof.
  intros HP Hn E1 E2 E3.
  assert (HW : weighs net (fun _ => 0) 0 0) by (intros m id; split; intros _; ring).
  destruct (c78_alloy net grid amplitude (fun _ => 0) 0 0 i HW HP) as (ds & E & _).
  exists ds, (setGeneration grid amplitude (1.0 - perfectFraction) (Z.of_nat n) [share n]), (setGeneration grid amplitude perfectFraction (Z.of_nat n) [share n]).
  split; [exact E|].
  assert (IN : forall l, In (Z.of_nat n, [share n]) l -> forall ds, cascadeLoop net grid amplitude l = Some ds ->
     In (f, setGeneration grid amplitude (1.0 - perfectFraction) (Z.of_nat n) [share n]) ds /\ In (p, setGeneration grid amplitude perfectFraction (Z.of_nat n) [share n]) ds).
  { induction l as [|[s fr] l IH]; intros HI ds' EL; [destruct HI|]. cbn [cascadeLoop] in EL.
    destruct (cascadeStep net grid amplitude s fr) as [a|] eqn:EA; [|discriminate]. destruct (cascadeLoop net grid amplitude l) as [b|] eqn:EB; [|discriminate]. injection EL as <-.
    destruct HI as [HI|HI].
    - injection HI as -> ->. unfold cascadeStep in EA. destruct (Z.ltb_spec 0 (Z.of_nat n)); [|lia]. rewrite E1, E2, E3 in EA. injection EA as <-. cbn [app In]. tauto.
    - destruct (IH HI b eq_refl). rewrite !in_app_iff. tauto. }
  assert (HI : In (Z.of_nat n, [share n]) (combine clusterSizes clusterFraction)).
  { rewrite cascade_data. apply in_app_iff. left. apply in_map_iff. exists n. split; [reflexivity|]. apply in_rev. rewrite rev_involutive. apply in_seq. lia. }
  destruct (IN _ HI ds E) as [I1 I2]. split; [exact I1|]. split; [exact I2|]. rewrite !set_at by exact HP. rewrite <- INR_IZR_INZ. unfold perfectFraction. split; lra.
Qed.
Print Assumptions c78_alloy_loops.

(** Nothing at the surface and at the last of the places. *)
Theorem c78_alloy_ends net grid amplitude ds d : (4 <= length grid)%nat -> damages net grid amplitude = Some ds -> In d ds ->
  length (snd d) = (length grid - 2)%nat /\ nth 0 (snd d) 0 = 0 /\ nth (length grid - 3) (snd d) 0 = 0.
Proof.
  intros HG HD. assert (L : forall l ds, cascadeLoop net grid amplitude l = Some ds -> forall d, In d ds -> exists fr s fs, snd d = setGeneration grid amplitude fr s fs).
  { induction l as [|[s fr] l IH]; intros ds' EL d' Hd; cbn [cascadeLoop] in EL; [injection EL as <-; destruct Hd|].
    destruct (cascadeStep net grid amplitude s fr) as [a|] eqn:EA; [|discriminate]. destruct (cascadeLoop net grid amplitude l) as [b|] eqn:EB; [|discriminate]. injection EL as <-.
    apply in_app_iff in Hd as [Hd|Hd]; [|exact (IH b eq_refl d' Hd)]. clear IH EB. unfold cascadeStep in EA.
    destruct (0 <? s)%Z.
    - destruct (findI net s) as [x|]; [|destruct (findFrank net s) as [y|]; [destruct (findPerfect net s) as [z|]|]]; inversion EA; subst a; cbn [In] in Hd; intuition (subst d'; cbn [snd]; eauto).
    - destruct (s <? 0)%Z; [|discriminate]. destruct (findV net (- s)) as [x|]; [|destruct (findFaulted net (- s)) as [y|]]; inversion EA; subst a; cbn [In] in Hd; intuition (subst d'; cbn [snd]; eauto). }
  intros Hd. destruct (L _ ds HD d Hd) as (fr & s & fs & ->). unfold setGeneration. destruct grid as [|g grid]; [cbn in HG; lia|]. set (n := length (g :: grid)) in *. clearbody n.
  set (l := map _ _). assert (HL : length l = (n - 4)%nat) by (unfold l; rewrite map_length, seq_length; reflexivity).
  split; [|split].
  - cbn [length]. rewrite app_length, HL. cbn [length]. lia.
  - cbn [nth]. lra.
  - replace (n - 3)%nat with (S (n - 4)) by lia. change (nth (n - 4) (l ++ [0.0]) 0 = 0). rewrite app_nth2 by lia. rewrite HL, Nat.sub_diag. cbn [nth]. lra.
Qed.
Print Assumptions c78_alloy_ends.

(** The values are in the view at their place while the surface is not below the third point. *)
Theorem c78_alloy_view grid s rates : (4 <= length grid)%nat -> (s <= 3)%nat -> length rates = (length grid - 2)%nat ->
  exists row, viewRow grid s rates = Some row /\ length row = (length grid - s + 1)%nat /\ forall i, nth i row 0 = nth i rates 0.
Proof.
  intros HG Hs HL. unfold viewRow. destruct grid as [|g grid]; [cbn in HG; lia|]. set (n := length (g :: grid)) in *. clearbody n.
  destruct (Nat.leb_spec (length rates) (n - s + 1)); [|lia]. eexists. split; [reflexivity|]. split; [rewrite app_length, repeat_length; lia|]. intros i.
  destruct (Nat.lt_ge_cases i (length rates)); [apply app_nth1; assumption|]. rewrite app_nth2 by assumption. rewrite nth_repeat. symmetry. apply nth_overflow. assumption.
Qed.
Print Assumptions c78_alloy_view.
(** What the points get: the values of the places behind the surface, attenuated. *)
Theorem c78_alloy_source net grid amplitude w aI aV att s xi : weighs net w aI aV -> (4 <= length grid)%nat -> (s <= 3)%nat -> (s <= xi)%nat -> place grid (xi - s) ->
  (forall n, (1 <= n <= 45)%Z -> (findI net n <> None \/ (findFrank net n <> None /\ findPerfect net n <> None)) /\ (findV net n <> None \/ findFaulted net n <> None)) ->
  exists ds, damages net grid amplitude = Some ds /\
    forall rows, Forall2 (fun d r => fst r = fst d /\ viewRow grid s (snd d) = Some (snd r)) ds rows ->
      map fst (alloyAt rows att xi s) = map fst ds /\
      Rsum (alloyAt rows att xi s) (fun c => w (fst c) * snd c) = att * ((aI + aV) * 0.998 * 0.15 * 85.7 * amplitude).
Proof.
  intros HW HG Hs Hx HP HA. destruct (c78_alloy_balance net grid amplitude w aI aV (xi - s) HW HP HA) as (ds & E & S). exists ds. split; [exact E|]. intros rows HR. rewrite <- S.
  assert (HE : forall d, In d ds -> length (snd d) = (length grid - 2)%nat) by (intros d Hd; destruct (c78_alloy_ends net grid amplitude ds d HG E Hd) as (L & _); exact L).
  clear E S. induction HR as [|d r ds rows [H1 H2] HR IH]; [cbn; split; [reflexivity|ring]|].
  destruct (c78_alloy_view grid s (snd d) HG Hs (HE d (or_introl eq_refl))) as (row & V & _ & N). rewrite H2 in V. injection V as V. destruct IH as [I1 I2]; [intros d' Hd'; apply HE; right; exact Hd'|].
  unfold alloyAt in *. cbn [map Rsum fst snd]. rewrite I1, I2, H1, V, N. split; [reflexivity|ring].
Qed.
Print Assumptions c78_alloy_source.
(** Below, they are written outside of the view. *)
Theorem c78_alloy_view_refuted net grid amplitude s ds d : (4 <= length grid)%nat -> (3 < s < length grid)%nat -> damages net grid amplitude = Some ds -> In d ds -> viewRow grid s (snd d) = None.
Proof.
  intros HG Hs HD Hd. destruct (c78_alloy_ends net grid amplitude ds d HG HD Hd) as (HL & _). unfold viewRow. rewrite HL. destruct grid as [|g grid]; [cbn in HG; lia|]. set (n := length (g :: grid)) in *. clearbody n.
  destruct (Nat.leb_spec (n - 2) (n - s + 1)); [lia|reflexivity].
Qed.
Print Assumptions c78_alloy_view_refuted.
(** The damage of a cascade is the polynomial of its coefficients, whatever its degree. *)
Theorem c78_damage (damage : list (list R)) x : (forall row, In row damage -> row <> []) ->
  damageFunction damage x = map (fun row => Rsum (seq 0 (length row)) (fun k => nth k row 0 * x ^ k)) damage.
Proof.
  intros H. unfold damageFunction. apply map_ext_in. intros [|c0 row] Hr; [destruct (H [] Hr eq_refl)|]. cbn [length seq combine tl hd Rsum nth pow].
  rewrite <- seq_shift, Rsum_map.
  assert (G : forall l a m, fold_left (fun d kc => d + snd kc * x ^ fst kc) (combine (map S (seq m (length l))) l) a = a + Rsum (seq m (length l)) (fun k => nth (k - m) l 0 * x ^ S k)).
  { clear. induction l as [|b l IH]; intros a m; cbn [length seq map combine fold_left Rsum]; [lra|]. cbn [fst snd]. rewrite IH.
    rewrite (Rsum_ext (seq (S m) (length l)) (fun k => nth (k - m) (b :: l) 0 * x ^ S k) (fun k => nth (k - S m) l 0 * x ^ S k)); [rewrite Nat.sub_diag; cbn [nth]; ring|].
    intros k Hk. apply in_seq in Hk. replace (k - m)%nat with (S (k - S m)) by lia. reflexivity. }
  rewrite G. rewrite Rmult_1_r. f_equal. apply Rsum_ext. intros k _. rewrite Nat.sub_0_r. reflexivity.
Qed.
Example c78_damage_ok : damageFunction [[1; 2; 3]; [5]] 10 = [321; 5].
Proof. rewrite c78_damage; [cbn; repeat f_equal; lra|]. intros row [<-|[<-|[]]]; discriminate. Qed.
Print Assumptions c78_damage.
(** The file alloyFlux.dat from the third surface position on, or without grid: one value per point behind the surface, those of the vector. *)
Theorem c78_alloy_output net grid amplitude s ds d : (4 <= length grid)%nat -> (2 <= s <= length grid)%nat -> damages net grid amplitude = Some ds -> In d ds ->
  exists l, written grid s (snd d) = Some l /\ length l = (length grid - s)%nat /\ forall i, (i < length grid - s)%nat -> nth i l 0 = nth i (snd d) 0.
Proof.
  intros HG Hs HD Hd. destruct (c78_alloy_ends net grid amplitude ds d HG HD Hd) as (HL & _). unfold written. rewrite HL, Nat.max_l by lia.
  set (n := length grid) in *. clearbody n.
  assert (M : map (fun xi => (xi - s)%nat) (seq s (n - s)) = seq 0 (n - s)).
  { transitivity (map (fun xi => (xi - s)%nat) (map (fun k => s + k)%nat (seq 0 (n - s)))).
    - f_equal. clear. rewrite <- (Nat.add_0_r s) at 1. generalize 0%nat. induction (n - s)%nat as [|m IH]; intros k; [reflexivity|]. cbn [seq map]. f_equal. rewrite <- IH. f_equal. lia.
    - rewrite map_map. rewrite <- (map_id (seq 0 (n - s))) at 2. apply map_ext. intros k. lia. }
  rewrite M. destruct (forallb (fun i => (i <? n - 2)%nat) (seq 0 (n - s))) eqn:E.
  - eexists. split; [reflexivity|]. rewrite map_length, seq_length. split; [reflexivity|]. intros i Hi.
    rewrite (nth_indep _ 0 (nth 0 (snd d) 0)) by (rewrite map_length, seq_length; exact Hi). rewrite (map_nth (fun i => nth i (snd d) 0)), seq_nth by exact Hi. reflexivity.
  - exfalso. assert (T : forallb (fun i => (i <? n - 2)%nat) (seq 0 (n - s)) = true); [|congruence]. apply forallb_forall. intros i Hi. apply in_seq in Hi. apply Nat.ltb_lt. lia.
Qed.
(** Without a grid (0D) the one value is written. *)
Theorem c78_alloy_output_0d r : written [] 0 [r] = Some [r].
Proof. reflexivity. Qed.
Example c78_alloy_output_ok : written [0; 1; 2; 3; 4; 5] 2 [0; 7; 8; 0] = Some [0; 7; 8; 0] /\ written [] 0 [7] = Some [7].
Proof. split; reflexivity. Qed.
Print Assumptions c78_alloy_output. Print Assumptions c78_alloy_output_0d.
(** The file alloyFlux.dat: with a grid and the surface at one of the first two points, two or one values are read behind the end of the vector. *)
Theorem c78_alloy_output_refuted net grid amplitude s ds d : (4 <= length grid)%nat -> (s <= 1)%nat -> damages net grid amplitude = Some ds -> In d ds -> written grid s (snd d) = None.
Proof.
  intros HG Hs HD Hd. destruct (c78_alloy_ends net grid amplitude ds d HG HD Hd) as (HL & _). unfold written. rewrite HL.
  destruct (forallb _ _) eqn:E; [|reflexivity]. rewrite forallb_forall in E. exfalso.
  assert (H : (length grid - 1 - s <? length grid - 2)%nat = true).
  { apply E. apply in_map_iff. exists (length grid - 1)%nat. split; [reflexivity|]. apply in_seq. lia. }
  apply Nat.ltb_lt in H. lia.
Qed.
Print Assumptions c78_alloy_output_refuted.

(** ** The attenuation with the dose *)
Lemma tanh_exp x : tanh x = 1 - 2 / (exp (2 * x) + 1).
Proof.
  unfold tanh, sinh, cosh. rewrite exp_Ropp. replace (2 * x) with (x + x) by lra. rewrite exp_plus. pose proof (exp_pos x). field. repeat split; nra.
Qed.
Lemma tanh_bounds x : -1 < tanh x < 1.
Proof.
  rewrite tanh_exp. pose proof (exp_pos (2 * x)) as P. assert (0 < 2 / (exp (2 * x) + 1) < 2); [|lra]. split; [apply Rdiv_lt_0_compat; lra|].
  apply Rmult_lt_reg_r with (exp (2 * x) + 1); [lra|]. unfold Rdiv. rewrite Rmult_assoc, Rinv_l; lra.
Qed.
Lemma tanh_lt x y : x < y -> tanh x < tanh y.
Proof.
  intros H. rewrite !tanh_exp. pose proof (exp_pos (2 * x)) as P. assert (E : exp (2 * x) < exp (2 * y)) by (apply exp_increasing; lra).
  assert (/ (exp (2 * y) + 1) < / (exp (2 * x) + 1)) by (apply Rinv_lt_contravar; [apply Rmult_lt_0_compat; lra|lra]). unfold Rdiv. lra.
Qed.
(** Between 1 and the efficiency, halfway at the given dose, falling with time. *)
Theorem c78_attenuation dose eff amplitude : 0 <= eff < 1 -> 0 < dose -> 0 < amplitude ->
  (forall t, eff < attenuation dose eff amplitude t < 1) /\ (forall t t', t < t' -> attenuation dose eff amplitude t' < attenuation dose eff amplitude t) /\
  attenuation dose eff amplitude (dose / amplitude) = (1 + eff) / 2.
Proof.
  intros He Hd Ha. unfold attenuation. destruct (Rlt_dec 0 dose) as [_|]; [|contradiction]. split; [|split].
  - intros t. pose proof (tanh_bounds (47.0 * (t * amplitude - dose))) as B. set (x := tanh _) in *. clearbody x. replace 1.0 with 1 by lra. replace 2.0 with 2 by lra.
    assert (0 < (1 - eff) * (1 - x) < (1 - eff) * 2) by (split; [apply Rmult_lt_0_compat; lra|apply Rmult_lt_compat_l; lra]). unfold Rdiv. lra.
  - intros t t' H. assert (T : tanh (47.0 * (t * amplitude - dose)) < tanh (47.0 * (t' * amplitude - dose))) by (apply tanh_lt; nra).
    set (x := tanh (47.0 * (t * amplitude - dose))) in *. set (y := tanh (47.0 * (t' * amplitude - dose))) in *. clearbody x y. replace 1.0 with 1 by lra. replace 2.0 with 2 by lra.
    assert (0 < (1 - eff) * (y - x)) by (apply Rmult_lt_0_compat; lra). unfold Rdiv. lra.
  - replace (47.0 * (dose / amplitude * amplitude - dose)) with 0 by (field; lra). replace (tanh 0) with 0; [lra|]. unfold tanh. rewrite sinh_0. unfold Rdiv. ring.
Qed.
Print Assumptions c78_attenuation.
Theorem c78_no_attenuation dose eff amplitude t : dose <= 0 -> attenuation dose eff amplitude t = 1.
Proof. intros H. unfold attenuation. destruct (Rlt_dec 0 dose); lra. Qed.
Print Assumptions c78_no_attenuation.

(** ** Iron *)
(** The numbers of the clusters which get a rate, and what they get at each call, in any dimension and for any amplitude. *)
Definition feWanted : list ((feKind * Z) * R) :=
  [((FeHe, 1%Z), 211e-13); ((FeI, 1%Z), 149e-7); ((FeV, 1%Z), 991e-8); ((FeV, 2%Z), 151e-8); ((FeV, 3%Z), 26e-8); ((FeV, 4%Z), 158e-9); ((FeV, 5%Z), 629e-10); ((FeV, 9%Z), 316e-10)].
Fixpoint feInits (n : nat) (find : feKind * Z -> option nat) (grids : nat -> list R) : option feState :=
  match n with O => Some feStart | S m => match feInits m find grids with Some st => feInit find (grids m) st | None => None end end.
Lemma feFind_all find ids : (forall c, In c (map fst feWanted) -> find c = Some (ids c)) -> feFind find (map fst feSources) = Some (map ids (map fst feSources)).
Proof. intros H. change (map fst feSources) with (map fst feWanted). induction (map fst feWanted) as [|c l IH]; [reflexivity|]. cbn [feFind map]. rewrite (H c (or_introl eq_refl)), IH by (intros; apply H; right; assumption). reflexivity. Qed.
Theorem c78_fe find ids grids n amplitude : (forall c, In c (map fst feWanted) -> find c = Some (ids c)) ->
  exists st at_, feInits (S n) find grids = Some st /\ feAt st amplitude = Some at_ /\ map fst at_ = map (fun w => ids (fst w)) feWanted /\ map snd at_ = map snd feWanted.
Proof.
  intros HF. assert (G : forall m, exists st rest vecs, feInits (S m) find grids = Some st /\ xGridLength st = 0%nat /\ incidentFluxVec st = [] :: vecs /\ feIndices st = map ids (map fst feSources) ++ rest).
  { induction m as [|m (st & rest & vecs & E & HX & HV & HI)].
    - cbn [feInits]. unfold feInit, feStart. rewrite (feFind_all find ids HF). cbn [xGridLength incidentFluxVec feIndices Nat.eqb app]. eexists _, [], []. split; [reflexivity|]. cbn [xGridLength incidentFluxVec feIndices]. rewrite app_nil_r. auto.
    - set (k := S m) in *. cbn [feInits]. rewrite E. unfold feInit. rewrite (feFind_all find ids HF), HX, HV, HI. cbn [Nat.eqb app]. eexists _, _, _. split; [reflexivity|]. cbn [xGridLength incidentFluxVec feIndices]. split; [reflexivity|]. split; [reflexivity|]. rewrite <- app_assoc. reflexivity. }
  destruct (G n) as (st & rest & vecs & E & HX & HV & HI). exists st. eexists. split; [exact E|]. unfold feAt. rewrite HV, HI. split; [reflexivity|]. split; [reflexivity|].
  cbn. repeat (f_equal; try lra).
Qed.
Print Assumptions c78_fe.
(** More vacancies than interstitials; the test for more than zero dimensions never applies, since the grid is never set. *)
Theorem c78_fe_balance_refuted : Rsum feSources (fun s => match fst s with (FeI, n) => IZR n * snd s | _ => 0 end) = 1.49e-5 /\
  Rsum feSources (fun s => match fst s with (FeV, n) => IZR n * snd s | _ => 0 end) = 1.49409e-5.
Proof. unfold feSources. cbn [Rsum fst snd]. split; lra. Qed.
Print Assumptions c78_fe_balance_refuted.
Theorem c78_fe_dimension_refuted find ids grid amplitude amplitude' : (forall c, In c (map fst feWanted) -> find c = Some (ids c)) -> grid <> [] ->
  exists st at_, feInit find grid feStart = Some st /\ feAt st amplitude = Some at_ /\ feAt st amplitude' = Some at_ /\ at_ <> [].
Proof.
  intros HF _. unfold feInit. rewrite (feFind_all find ids HF). eexists _, _. split; [reflexivity|]. split; [reflexivity|]. split; [reflexivity|]. discriminate.
Qed.
Print Assumptions c78_fe_dimension_refuted.

(** ** Zirconium *)
(** The clusters of the three types with up to maxI, maxV and maxB atoms, and weights proportional to the atoms. *)
Definition zrHas (net : zrNet) (maxI maxV maxB : nat) : Prop :=
  (forall n, (1 <= n <= maxI)%nat -> zrI net n <> None) /\ (forall n, (1 <= n <= maxV)%nat -> zrV net n <> None) /\ (forall n, (1 <= n <= maxB)%nat -> zrB net n <> None).
Definition zrWeighs (net : zrNet) (w : nat -> R) (aI aV : R) : Prop := forall n id,
  (zrI net n = Some id -> w id = aI * INR n) /\ (zrV net n = Some id -> w id = aV * INR n) /\ (zrB net n = Some id -> w id = aV * INR n).
Lemma zrLoop_sum find max table value (w : nat -> R) a : (forall n, (1 <= n <= max)%nat -> exists id, find n = Some id /\ w id = a * INR n) ->
  Rsum (zrLoop find max table value) (fun s => w (fst s) * snd s) = a * Rsum (seq 1 (Nat.min max (length table))) (fun n => INR n * value n (nth (n - 1) table 0)).
Proof.
  intros HF. unfold zrLoop. assert (G : forall l, (forall n, In n l -> (1 <= n <= max)%nat) ->
    Rsum (flat_map (fun i => match find i with Some id => [(id, value i (nth (i - 1) table 0))] | None => [] end) l) (fun s => w (fst s) * snd s) = a * Rsum l (fun n => INR n * value n (nth (n - 1) table 0))).
  { induction l as [|n l IH]; intros HL; [cbn; ring|]. cbn [flat_map]. rewrite Rsum_app, IH by (intros m Hm; apply HL; right; exact Hm).
    destruct (HF n (HL n (or_introl eq_refl))) as (id & -> & Hw). cbn [Rsum fst snd]. rewrite Hw. ring. }
  apply G. intros n Hn. apply in_seq in Hn. lia.
Qed.
Definition zrAtomsV (low high : nat) : R := Rsum (seq (S low) (high - low)) (fun n => INR n * nth (n - 1) fluxV 0).
(** What is put into the clusters; the vacancies above 18 are shared with the basal ones, up to the largest basal one. *)
Theorem c78_zr net maxI maxV maxB portion w aI aV : zrHas net maxI maxV maxB -> zrWeighs net w aI aV -> (43 <= maxI)%nat -> (66 <= maxV)%nat ->
  Rsum (zrInit net maxI maxV maxB portion []) (fun s => w (fst s) * snd s) =
    aI * 750860245521053505409e-27 + aV * (750860184052609335676e-27 - (if (18 <? maxB)%nat then portion else 0) * zrAtomsV (Nat.max 18 (Nat.min maxB 66)) 66).
Proof.
  intros (H1 & H2 & H3) HW HI HV. unfold zrInit. cbn [app]. rewrite !Rsum_app.
  rewrite (zrLoop_sum (zrI net) maxI fluxI _ w aI), (zrLoop_sum (zrV net) maxV fluxV _ w aV), (zrLoop_sum (zrB net) maxB fluxV _ w aV).
  2: { intros n Hn. destruct (zrB net n) as [id|] eqn:E; [|destruct (H3 n Hn E)]. exists id. split; [reflexivity|]. destruct (HW n id) as (W1 & W2 & W3). auto. }
  2: { intros n Hn. destruct (zrV net n) as [id|] eqn:E; [|destruct (H2 n Hn E)]. exists id. split; [reflexivity|]. destruct (HW n id) as (W1 & W2 & W3). auto. }
  2: { intros n Hn. destruct (zrI net n) as [id|] eqn:E; [|destruct (H1 n Hn E)]. exists id. split; [reflexivity|]. destruct (HW n id) as (W1 & W2 & W3). auto. }
  replace (Nat.min maxI (length fluxI)) with 43%nat by (unfold fluxI; cbn [length]; lia). replace (Nat.min maxV (length fluxV)) with 66%nat by (unfold fluxV; cbn [length]; lia). change (length fluxV) with 66%nat.
  replace (Rsum (seq 1 43) (fun n => INR n * nth (n - 1) fluxI 0)) with 750860245521053505409e-27.
  2: { unfold fluxI. cbn [seq Rsum nth Nat.sub INR]. lra. }
  assert (SV : Rsum (seq 1 66) (fun n => INR n * nth (n - 1) fluxV 0) = 750860184052609335676e-27) by (unfold fluxV; cbn [seq Rsum nth Nat.sub INR]; lra).
  set (Qb := basalShare maxB portion).
  assert (V : Rsum (seq 1 66) (fun n => INR n * (if (18 <? n)%nat then nth (n - 1) fluxV 0 * (1 - Qb) else nth (n - 1) fluxV 0)) = 750860184052609335676e-27 - Qb * zrAtomsV 18 66).
  { rewrite <- SV. unfold zrAtomsV. change (seq 1 66) with (seq 1 18 ++ seq 19 48). change (66 - 18)%nat with 48%nat. rewrite !Rsum_app.
    rewrite (Rsum_ext (seq 1 18) (fun n => INR n * (if (18 <? n)%nat then nth (n - 1) fluxV 0 * (1 - Qb) else nth (n - 1) fluxV 0)) (fun n => INR n * nth (n - 1) fluxV 0)).
    2: { intros n Hn. apply in_seq in Hn. destruct (Nat.ltb_spec 18 n); [lia|reflexivity]. }
    rewrite (Rsum_ext (seq 19 48) (fun n => INR n * (if (18 <? n)%nat then nth (n - 1) fluxV 0 * (1 - Qb) else nth (n - 1) fluxV 0)) (fun n => (1 - Qb) * (INR n * nth (n - 1) fluxV 0))).
    2: { intros n Hn. apply in_seq in Hn. destruct (Nat.ltb_spec 18 n); [ring|lia]. }
    rewrite Rsum_scal. ring. }
  rewrite V.
  assert (B : Rsum (seq 1 (Nat.min maxB 66)) (fun n => INR n * (if (18 <? n)%nat then nth (n - 1) fluxV 0 * Qb else 0.0)) = Qb * (zrAtomsV 18 66 - zrAtomsV (Nat.max 18 (Nat.min maxB 66)) 66)).
  { set (m := Nat.min maxB 66). assert (Hm : (m <= 66)%nat) by (unfold m; lia). clearbody m. destruct (Nat.le_gt_cases m 18) as [L|L].
    - rewrite (Rsum_ext _ _ (fun _ => 0 * 0)).
      + rewrite Rsum_scal. replace (Nat.max 18 m) with 18%nat by lia. ring.
      + intros n Hn. apply in_seq in Hn. destruct (Nat.ltb_spec 18 n); [lia|]. replace 0.0 with 0 by lra. ring.
    - replace (Nat.max 18 m) with m by lia. unfold zrAtomsV. replace (66 - 18)%nat with ((m - 18) + (66 - m))%nat by lia. rewrite seq_app, Rsum_app. replace (19 + (m - 18))%nat with (S m) by lia.
      replace m with (18 + (m - 18))%nat at 1 by lia. rewrite seq_app, Rsum_app. change (1 + 18)%nat with 19%nat.
      rewrite (Rsum_ext (seq 1 18) (fun n => INR n * (if (18 <? n)%nat then nth (n - 1) fluxV 0 * Qb else 0.0)) (fun _ => 0 * 0)).
      2: { intros n Hn. apply in_seq in Hn. destruct (Nat.ltb_spec 18 n); [lia|]. replace 0.0 with 0 by lra. ring. }
      rewrite (Rsum_ext (seq 19 (m - 18)) (fun n => INR n * (if (18 <? n)%nat then nth (n - 1) fluxV 0 * Qb else 0.0)) (fun n => Qb * (INR n * nth (n - 1) fluxV 0))).
      2: { intros n Hn. apply in_seq in Hn. destruct (Nat.ltb_spec 18 n); [ring|lia]. }
      rewrite !Rsum_scal. ring. }
  rewrite B. unfold Qb, basalShare. clear. match goal with |- ?l = ?r => ring_simplify l; ring_simplify r end. destruct (18 <? maxB)%nat; lra.
Qed.
Print Assumptions c78_zr.

(** With basal clusters up to 66, or none above 18: as many vacancies as interstitials, up to a ten-millionth of them. *)
Theorem c78_zr_balance net maxI maxV maxB portion w : zrHas net maxI maxV maxB -> zrWeighs net w 1 (-1) -> (43 <= maxI)%nat -> (66 <= maxV)%nat -> (maxB <= 18 \/ 66 <= maxB)%nat ->
  0 < Rsum (zrInit net maxI maxV maxB portion []) (fun s => w (fst s) * snd s) <= 1e-7 * 750860245521053505409e-27.
Proof.
  intros HH HW HI HV HB. rewrite (c78_zr net maxI maxV maxB portion w 1 (-1) HH HW HI HV).
  replace ((if (18 <? maxB)%nat then portion else 0) * zrAtomsV (Nat.max 18 (Nat.min maxB 66)) 66) with 0; [lra|].
  destruct HB as [HB|HB]; [destruct (Nat.ltb_spec 18 maxB); [lia|ring]|]. replace (Nat.max 18 (Nat.min maxB 66)) with 66%nat by lia. unfold zrAtomsV. rewrite Nat.sub_diag. cbn [seq Rsum]. ring.
Qed.
Print Assumptions c78_zr_balance.

(** Otherwise the basal share of the larger vacancies is lost: at least that of the cluster of 66. *)
Lemma fluxV_nonneg n : 0 <= nth n fluxV 0.
Proof. do 66 (destruct n as [|n]; [unfold fluxV; cbn [nth]; lra|]). unfold fluxV. cbn [nth]. destruct n; lra. Qed.
Theorem c78_zr_lost_refuted net maxI maxV maxB portion w : zrHas net maxI maxV maxB -> zrWeighs net w 0 1 -> (43 <= maxI)%nat -> (66 <= maxV)%nat -> (18 < maxB < 66)%nat -> 0 < portion ->
  Rsum (zrInit net maxI maxV maxB portion []) (fun s => w (fst s) * snd s) <= 750860184052609335676e-27 - portion * (66 * 5.399074341700002e-11).
Proof.
  intros HH HW HI HV HB HP. rewrite (c78_zr net maxI maxV maxB portion w 0 1 HH HW HI HV). destruct (Nat.ltb_spec 18 maxB) as [_|]; [|lia]. replace (Nat.max 18 (Nat.min maxB 66)) with maxB by lia.
  assert (L : 66 * 5.399074341700002e-11 <= zrAtomsV maxB 66).
  { unfold zrAtomsV. replace (66 - maxB)%nat with ((65 - maxB) + 1)%nat by lia. rewrite seq_app, Rsum_app. replace (S maxB + (65 - maxB))%nat with 66%nat by lia. cbn [seq Rsum].
    assert (0 <= Rsum (seq (S maxB) (65 - maxB)) (fun n => INR n * nth (n - 1) fluxV 0)).
    { generalize (seq (S maxB) (65 - maxB)). intros l. induction l as [|n l IH]; cbn [Rsum]; [lra|]. pose proof (fluxV_nonneg (n - 1)). pose proof (pos_INR n). assert (0 <= INR n * nth (n - 1) fluxV 0) by (apply Rmult_le_pos; lra). lra. }
    replace (INR 66) with 66 by (cbn [INR]; lra). change (nth (66 - 1) fluxV 0) with 5.399074341700002e-11. lra. }
  assert (portion * (66 * 5.399074341700002e-11) <= portion * zrAtomsV maxB 66) by (apply Rmult_le_compat_l; [left; exact HP|exact L]). lra.
Qed.
Print Assumptions c78_zr_lost_refuted.

(** Each call of initializeFluxHandler adds the source once more; the solvers in two and three dimensions call it for each column. *)
Theorem c78_zr_repeat_refuted net maxI maxV maxB portion att k : forall w : nat -> R,
  Rsum (zrAt (Nat.iter k (zrInit net maxI maxV maxB portion) []) att) (fun s => w (fst s) * snd s) =
  INR k * (att * Rsum (zrInit net maxI maxV maxB portion []) (fun s => w (fst s) * snd s)).
Proof.
  intros w. unfold zrAt. rewrite Rsum_map. cbn [fst snd].
  assert (S : forall l, Rsum l (fun x => w (fst x) * (snd x * att)) = att * Rsum l (fun s : nat * R => w (fst s) * snd s)).
  { intros l. rewrite <- Rsum_scal. apply Rsum_ext. intros x _. ring. }
  rewrite S. induction k as [|k IH]; [cbn; ring|]. rewrite S_INR.
  change (Nat.iter (Datatypes.S k) (zrInit net maxI maxV maxB portion) []) with (zrInit net maxI maxV maxB portion (Nat.iter k (zrInit net maxI maxV maxB portion) [])).
  assert (A : forall st, Rsum (zrInit net maxI maxV maxB portion st) (fun s => w (fst s) * snd s) = Rsum st (fun s => w (fst s) * snd s) + Rsum (zrInit net maxI maxV maxB portion []) (fun s => w (fst s) * snd s)).
  { intros st. unfold zrInit. rewrite !Rsum_app. cbn [Rsum]. ring. }
  rewrite A, Rmult_plus_distr_l, IH. ring.
Qed.
Print Assumptions c78_zr_repeat_refuted.

(** ** A network which meets the hypotheses *)
Example c78_alloy_net : exists net w, weighs net w 1 (-1) /\ place [] 0 /\ place [0; 1; 2; 3; 4; 5] 2 /\
  (forall n, (1 <= n <= 45)%Z -> (findI net n <> None \/ (findFrank net n <> None /\ findPerfect net n <> None)) /\ (findV net n <> None \/ findFaulted net n <> None)) /\
  findI net 7 = None /\ findFrank net 7 = Some 107%nat /\ findPerfect net 7 = Some 207%nat /\
  exists ds, damages net [0; 1; 2; 3; 4; 5] 1 = Some ds /\ length ds = 129%nat.
Proof.
  set (at_ := fun (low high : Z) (base : nat) (n : Z) => if ((low <=? n) && (n <=? high))%Z%bool then Some (base + Z.to_nat n)%nat else None).
  exists (AlloyNet (at_ 1 6 0%nat)%Z (at_ 7 45 100%nat)%Z (at_ 7 45 200%nat)%Z (at_ 1 6 300%nat)%Z (at_ 7 45 400%nat)%Z).
  exists (fun id => if (id <? 100)%nat then INR id else if (id <? 200)%nat then INR (id - 100) else if (id <? 300)%nat then INR (id - 200) else if (id <? 400)%nat then - INR (id - 300) else - INR (id - 400)).
  assert (D : forall low high base n id, at_ low high base n = Some id -> (low <= n <= high)%Z /\ id = (base + Z.to_nat n)%nat).
  { intros low high base n id. unfold at_. destruct (Z.leb_spec low n), (Z.leb_spec n high); cbn; try discriminate. intros E. injection E as <-. split; [lia|reflexivity]. }
  assert (T : forall n, (0 <= n)%Z -> INR (Z.to_nat n) = IZR n) by (intros n H; rewrite INR_IZR_INZ, Z2Nat.id by lia; reflexivity).
  split; [|split; [left; auto|split; [right; cbn; lia|split]]].
  - intros n id. cbn [findI findFrank findPerfect findV findFaulted]. split.
    + intros [H|[H|H]]; apply D in H as [H ->].
      * destruct (Nat.ltb_spec (0 + Z.to_nat n) 100); [|lia]. cbn [plus]. rewrite T by lia. ring.
      * destruct (Nat.ltb_spec (100 + Z.to_nat n) 100); [lia|]. destruct (Nat.ltb_spec (100 + Z.to_nat n) 200); [|lia]. replace (100 + Z.to_nat n - 100)%nat with (Z.to_nat n) by lia. rewrite T by lia. ring.
      * destruct (Nat.ltb_spec (200 + Z.to_nat n) 100); [lia|]. destruct (Nat.ltb_spec (200 + Z.to_nat n) 200); [lia|]. destruct (Nat.ltb_spec (200 + Z.to_nat n) 300); [|lia]. replace (200 + Z.to_nat n - 200)%nat with (Z.to_nat n) by lia. rewrite T by lia. ring.
    + intros [H|H]; apply D in H as [H ->].
      * destruct (Nat.ltb_spec (300 + Z.to_nat n) 100); [lia|]. destruct (Nat.ltb_spec (300 + Z.to_nat n) 200); [lia|]. destruct (Nat.ltb_spec (300 + Z.to_nat n) 300); [lia|]. destruct (Nat.ltb_spec (300 + Z.to_nat n) 400); [|lia]. replace (300 + Z.to_nat n - 300)%nat with (Z.to_nat n) by lia. rewrite T by lia. ring.
      * destruct (Nat.ltb_spec (400 + Z.to_nat n) 100); [lia|]. destruct (Nat.ltb_spec (400 + Z.to_nat n) 200); [lia|]. destruct (Nat.ltb_spec (400 + Z.to_nat n) 300); [lia|]. destruct (Nat.ltb_spec (400 + Z.to_nat n) 400); [lia|]. replace (400 + Z.to_nat n - 400)%nat with (Z.to_nat n) by lia. rewrite T by lia. ring.
  - intros n Hn. cbn [findI findFrank findPerfect findV findFaulted]. unfold at_.
    destruct (Z.leb_spec 1 n), (Z.leb_spec n 6), (Z.leb_spec 7 n), (Z.leb_spec n 45); cbn [andb]; try lia; split; [left|left|right; split|right]; discriminate.
  - split; [reflexivity|]. split; [reflexivity|]. split; [reflexivity|]. eexists. split; reflexivity.
Qed.
Example c78_fe_ex : exists st, feInit (fun c => Some (match fst c with FeHe => 0 | FeI => 1 | FeV => 1 + Z.to_nat (snd c) end)%nat) [0; 1; 2] feStart = Some st /\
  feIndices st = [0; 1; 2; 3; 4; 5; 6; 10]%nat.
Proof. eexists. split; reflexivity. Qed.
Example c78_zr_ex : exists net w, zrHas net 43 66 66 /\ zrHas net 43 66 30 /\ zrWeighs net w 1 (-1) /\ zrInit net 43 66 66 0.5 [] <> [].
Proof.
  set (at_ := fun (base n : nat) => if (n <? 100)%nat then Some (base + n)%nat else None).
  exists (ZrNet (at_ 0%nat) (at_ 100%nat) (at_ 200%nat)), (fun id => if (id <? 100)%nat then INR id else if (id <? 200)%nat then - INR (id - 100) else - INR (id - 200)).
  assert (D : forall base n id, at_ base n = Some id -> (n < 100)%nat /\ id = (base + n)%nat).
  { intros base n id. unfold at_. destruct (Nat.ltb_spec n 100); [|discriminate]. intros E. injection E as <-. split; [assumption|reflexivity]. }
  assert (H : forall m, (m <= 66)%nat -> zrHas (ZrNet (at_ 0%nat) (at_ 100%nat) (at_ 200%nat)) 43 66 m).
  { intros m Hm. repeat split; intros n Hn; cbn [zrI zrV zrB]; unfold at_; destruct (Nat.ltb_spec n 100); discriminate || lia. }
  split; [apply H; lia|]. split; [apply H; lia|]. split; [|discriminate].
  intros n id. cbn [zrI zrV zrB]. repeat split; intros E; apply D in E as [E ->].
  - destruct (Nat.ltb_spec (0 + n) 100); [|lia]. cbn [plus]. ring.
  - destruct (Nat.ltb_spec (100 + n) 100); [lia|]. destruct (Nat.ltb_spec (100 + n) 200); [|lia]. replace (100 + n - 100)%nat with n by lia. ring.
  - destruct (Nat.ltb_spec (200 + n) 100); [lia|]. destruct (Nat.ltb_spec (200 + n) 200); [lia|]. replace (200 + n - 200)%nat with n by lia. ring.
Qed.
