(** C64: which compositions are grouped, and how wide a group may be. *)
From Coq Require Import Reals List ZArith Lia Lra Bool ZifyBool.
From Verif Require Import GenModel EnergyModel Properties_Energy SelectModel Properties_Select MobilityModel GroupingModel.
Import ListNotations.
Open Scope Z_scope.

(** *** Specification *)
(** At most [w] wide, or narrower than the fraction 1/k of [b] *)
Definition narrow (n w b k : Z) : Prop := n <= w \/ k * n < b.
Lemma short_iff n w b k : short n w b k = true <-> narrow n w b k.
Proof. unfold short, narrow. rewrite orb_true_iff, !Z.ltb_lt. lia. Qed.
Lemma short_false n w b k : short n w b k = false <-> ~ narrow n w b k.
Proof. rewrite <- short_iff. symmetry. apply not_true_iff_false. Qed.
Definition pureI c := aHe c = 0 /\ aD c = 0 /\ aT c = 0 /\ aV c = 0 /\ 0 < aI c.
Definition pureV c := aHe c = 0 /\ aD c = 0 /\ aT c = 0 /\ 0 < aV c /\ aI c = 0.
Definition gasFree c := aHe c = 0 /\ aD c = 0 /\ aT c = 0.

(** *** PSI *)
Lemma skip (F : flags -> bool) b g f : (forall f, F (g f) = F f) -> F (onlyIf b g f) = F f.
Proof. intros H. unfold onlyIf. destruct b; auto. Qed.
Lemma take (F : flags -> bool) b g x f : (forall f, F (g f) = x) -> F (onlyIf b g f) = if b then x else F f.
Proof. intros H. unfold onlyIf. destruct b; auto. Qed.
Lemma drop (F : flags -> bool) b g f : F (onlyIf (false && b) g f) = F f.
Proof. reflexivity. Qed.
Ltac side := intros; unfold onlyIf; repeat match goal with |- context [if ?b then _ else _] => destruct b end; reflexivity.
Ltac flag F := repeat first [rewrite (take F _ _ true) by reflexivity | rewrite (take F _ _ false) by reflexivity | rewrite (skip F) by side].
Section Rest.
Variables maxV maxPureV widthA widthB : Z.
Variables hasD hasT : bool.
Lemma rest_I r : fI (refineRest maxV maxPureV widthA widthB hasD hasT r) = true.
Proof. unfold refineRest. flag fI. reflexivity. Qed.
Lemma rest_V r : fV (refineRest maxV maxPureV widthA widthB hasD hasT r) = false <->
  aV (lo r) <> 0 /\ aV (hi r) - aV (lo r) <= widthB /\ aV (hi r) <= maxV /\ aV (hi r) <= maxPureV + 1.
Proof.
  unfold refineRest, isZero, lenV. flag fV.
  destruct (Z.eqb_spec (aV (lo r)) 0), (Z.ltb_spec maxV (aV (hi r))), (Z.ltb_spec (maxPureV + 1) (aV (hi r))), (Z.ltb_spec (aV (hi r) - aV (lo r)) (widthB + 1));
    cbn; split; try discriminate; try reflexivity; lia.
Qed.
Lemma rest_He r : fHe (refineRest maxV maxPureV widthA widthB hasD hasT r) = false <->
  aHe (lo r) <> 0 /\ narrow (aHe (hi r) - aHe (lo r)) widthA (aHe (lo r) * aHe (lo r)) 2.
Proof.
  unfold refineRest, isZero, lenHe. flag fHe. rewrite <- short_iff.
  destruct (Z.eqb_spec (aHe (lo r)) 0), (short _ _ _ _); cbn; intuition (discriminate || lia).
Qed.
Lemma rest_D r : fD (refineRest maxV maxPureV widthA widthB hasD hasT r) = false <->
  hasD = true /\ aD (lo r) <> 0 /\ (aHe (lo r) = 0 -> (aD (hi r) - 1) + (if hasT then aT (hi r) - 1 else 0) <= 6 * (aV (hi r) - 1)) /\
  narrow (aD (hi r) - aD (lo r)) widthA (aD (lo r) * aD (lo r)) 2.
Proof.
  unfold refineRest, isZero, lenD. rewrite <- short_iff.
  destruct hasD; [|destruct hasT; repeat first [rewrite (drop fD) | rewrite (skip fD) by reflexivity]; cbn [fD fT allTrue]; (split; [discriminate|intros [X _]; discriminate X])].
  assert (E : forall b f, fD (onlyIf b (fun f => onlyIf hasT (setT true) (onlyIf true (setD true) f)) f) = if b then true else fD f).
  { intros. apply take. intros. unfold onlyIf. destruct hasT; reflexivity. }
  repeat (rewrite (skip fD) by reflexivity). rewrite (take fD _ _ true) by reflexivity. repeat (rewrite (skip fD) by reflexivity).
  rewrite E. repeat (rewrite (skip fD) by reflexivity). rewrite (take fD _ _ false) by reflexivity. repeat (rewrite (skip fD) by reflexivity). cbn [andb fD allTrue].
  destruct (Z.eqb_spec (aD (lo r)) 0), (Z.eqb_spec (aHe (lo r)) 0), (Z.ltb_spec (6 * (aV (hi r) - 1)) ((aD (hi r) - 1) + (if hasT then aT (hi r) - 1 else 0))), (short _ _ _ _);
    cbn [andb]; intuition (discriminate || lia).
Qed.
Lemma rest_T r : fT (refineRest maxV maxPureV widthA widthB hasD hasT r) = false <->
  hasT = true /\ aT (lo r) <> 0 /\ (aHe (lo r) = 0 -> (if hasD then aD (hi r) - 1 else 0) + (aT (hi r) - 1) <= 6 * (aV (hi r) - 1)) /\
  narrow (aT (hi r) - aT (lo r)) widthA (aT (lo r) * aT (lo r)) 2.
Proof.
  unfold refineRest, isZero, lenT. rewrite <- short_iff.
  destruct hasT; [|destruct hasD; repeat first [rewrite (drop fT) | rewrite (skip fT) by reflexivity]; cbn [fD fT allTrue]; (split; [discriminate|intros [X _]; discriminate X])].
  assert (E : forall b f, fT (onlyIf b (fun f => onlyIf true (setT true) (onlyIf hasD (setD true) f)) f) = if b then true else fT f).
  { intros. apply take. intros. unfold onlyIf. destruct hasD; reflexivity. }
  rewrite (take fT _ _ true) by reflexivity. repeat (rewrite (skip fT) by reflexivity).
  rewrite E. rewrite (take fT _ _ false) by reflexivity. repeat (rewrite (skip fT) by reflexivity). cbn [andb fT allTrue].
  destruct (Z.eqb_spec (aT (lo r)) 0), (Z.eqb_spec (aHe (lo r)) 0), (Z.ltb_spec (6 * (aV (hi r) - 1)) ((if hasD then aD (hi r) - 1 else 0) + (aT (hi r) - 1))), (short _ _ _ _);
    cbn [andb]; intuition (discriminate || lia).
Qed.
End Rest.
Section PSI.
Variables maxHe maxD maxT maxV maxPureV maxI groupingMin widthA widthB : Z.
Variables hasD hasT : bool.
Variable ratio : R.
Hypothesis positive : 0 < groupingMin.
Definition clean := maxHe = 0 /\ maxD = 0 /\ maxT = 0.
Let cut := refine maxHe maxD maxT maxV maxPureV maxI groupingMin widthA widthB hasD hasT ratio.
Definition all5 f := fHe f = true /\ fD f = true /\ fT f = true /\ fV f = true /\ fI f = true.
Lemma clean_iff : noImpurity maxHe maxD maxT = true <-> clean.
Proof using. unfold noImpurity, isZero, clean. rewrite !andb_true_iff, !Z.eqb_eq. tauto. Qed.
Lemma clean_dec : clean \/ ~ clean.
Proof using. unfold clean. lia. Qed.
Lemma clean_true : clean -> noImpurity maxHe maxD maxT = true. Proof using. apply clean_iff. Qed.
Lemma clean_false : ~ clean -> noImpurity maxHe maxD maxT = false. Proof using. intros H. apply not_true_iff_false. rewrite clean_iff. exact H. Qed.
Lemma all5_true : all5 allTrue. Proof using. repeat split. Qed.

(** Below the grouping minimum every cell is cut down to single compositions. *)
Theorem c64_psi_ungrouped r : Properties_Select.nonneg (lo r) -> aI (lo r) < groupingMin -> aV (lo r) < groupingMin -> (aI (lo r) = 0 \/ pureI (lo r)) ->
  (clean -> gasFree (lo r)) -> (maxV < maxPureV -> clean \/ aV (lo r) <= maxV) ->
  exists f, cut r = Some f /\ all5 f.
Proof using positive.
  intros N HI HV P G M. exists allTrue. split; [|apply all5_true]. unfold cut, refine. destruct r as [[he d t v i] h]. unfold Properties_Select.nonneg, pureI, gasFree in *. cbn [lo hi aHe aD aT aV aI] in *.
  destruct P as [-> | (-> & -> & -> & -> & P)].
  2: { unfold refineI. cbn [lo aI]. rewrite (proj2 (Z.ltb_lt 0 i)), (proj2 (Z.ltb_lt i groupingMin)) by lia. reflexivity. }
  unfold refineI. cbn [lo aI]. change (0 <? 0) with false. cbn [andb].
  assert (S : refineSmall maxHe maxD maxT groupingMin hasD hasT (Region (Comp he d t v 0) h) = true).
  { unfold refineSmall. cbn [lo aV]. rewrite (proj2 (Z.ltb_lt v groupingMin)) by lia. rewrite orb_true_r. reflexivity. }
  rewrite S. destruct (refineV _ _ _ _ _ _ _ _) as [f|] eqn:E; [|reflexivity]. unfold refineV in E. cbn [lo aV] in E.
  destruct clean_dec as [C|C].
  - rewrite (clean_true C) in E. destruct (G C) as (-> & -> & ->). rewrite (proj2 (Z.ltb_lt v groupingMin)) in E by lia.
    destruct (0 <? v); cbn in E; [exact (eq_sym E)|discriminate].
  - rewrite (clean_false C), andb_false_r in E. destruct (Z.ltb_spec 0 v) as [V|V]; cbn [andb] in E; [|discriminate].
    destruct (Z.ltb_spec maxV maxPureV) as [L|L]; [|discriminate]. destruct (M L) as [X|X]; [tauto|].
    rewrite (proj2 (Z.leb_le v maxV)) in E by lia. cbn [andb] in E.
    destruct (zeroBut _ _ _ _ _ _); [exact (eq_sym E)|]. rewrite andb_false_r in E. discriminate.
Qed.
(** Larger interstitial clusters: exactly when a cell is left whole *)
Theorem c64_psi_interstitials r : pureI (lo r) -> exists f, cut r = Some f /\ fHe f = true /\ fD f = true /\ fT f = true /\ fV f = true /\
  (fI f = false <-> groupingMin <= aI (lo r) /\ aI (hi r) <= maxI /\ narrow (aI (hi r) - aI (lo r)) widthB (aI (lo r)) 100).
Proof using positive.
  unfold pureI. destruct r as [[he d t v i] h]. cbn [lo hi aHe aD aT aV aI]. intros (-> & -> & -> & -> & P). unfold cut, refine, refineI. cbn [lo hi aI lenI].
  rewrite (proj2 (Z.ltb_lt 0 i)) by lia. change (zeroBut (Comp 0 0 0 0 i) false false false false true) with true. rewrite andb_true_r.
  destruct (Z.ltb_spec i groupingMin) as [A|A].
  { exists allTrue. split; [reflexivity|]. cbn. repeat split; try discriminate. lia. }
  destruct (Z.ltb_spec maxI (aI h)) as [B|B].
  { exists allTrue. split; [reflexivity|]. cbn. repeat split; try discriminate. lia. }
  unfold lenI. cbn [lo hi aI].
  destruct (short (aI h - i) widthB i 100) eqn:S.
  { apply short_iff in S. eexists. split; [reflexivity|]. cbn. repeat split; auto. }
  apply short_false in S. unfold refineV. cbn [lo aV]. change (0 <? 0) with false. cbn [andb].
  assert (X : refineSmall maxHe maxD maxT groupingMin hasD hasT (Region (Comp 0 0 0 0 i) h) = true).
  { unfold refineSmall. cbn [lo aV]. rewrite (proj2 (Z.ltb_lt 0 groupingMin)) by lia. rewrite orb_true_r. reflexivity. }
  rewrite X. exists allTrue. split; [reflexivity|]. cbn. repeat split; try discriminate. tauto.
Qed.
(** Cells of interstitials with other species are grouped in the same way, from size one on. *)
Theorem c64_psi_mixed_interstitials r : 0 < aI (lo r) -> (aHe (lo r) <> 0 \/ aD (lo r) <> 0 \/ aT (lo r) <> 0 \/ aV (lo r) <> 0) ->
  aI (hi r) <= maxI -> narrow (aI (hi r) - aI (lo r)) widthB (aI (lo r)) 100 ->
  exists f, cut r = Some f /\ fHe f = true /\ fD f = true /\ fT f = true /\ fV f = true /\ fI f = false.
Proof using.
  destruct r as [[he d t v i] h]. cbn [lo hi aHe aD aT aV aI]. intros P O B S. unfold cut, refine, refineI. cbn [lo hi aI lenI].
  rewrite (proj2 (Z.ltb_lt 0 i)) by lia.
  assert (Z0 : zeroBut (Comp he d t v i) false false false false true = false).
  { unfold zeroBut, isZero. cbn [aHe aD aT aV aI]. destruct (Z.eqb_spec he 0), (Z.eqb_spec d 0), (Z.eqb_spec t 0), (Z.eqb_spec v 0); cbn; auto; lia. }
  rewrite Z0, ?andb_false_r. unfold lenI. cbn [lo hi aI]. destruct (Z.ltb_spec maxI (aI h)); [lia|].
  apply short_iff in S. rewrite S. eexists. split; [reflexivity|]. cbn. auto.
Qed.
(** Pure vacancies: with gas in the network only those beyond the largest mixed cluster are grouped; without, those from the
    grouping minimum on. *)
Theorem c64_psi_vacancies r : pureV (lo r) -> aV (lo r) < aV (hi r) -> 0 <= maxV -> exists f, cut r = Some f /\ fHe f = true /\ fD f = true /\ fT f = true /\ fI f = true /\
  (clean -> (fV f = false <-> groupingMin <= aV (lo r) /\ aV (hi r) <= maxPureV /\ narrow (aV (hi r) - aV (lo r)) widthB (aV (lo r)) 100)) /\
  (~ clean -> (fV f = false <-> maxV < maxPureV /\ maxV < aV (lo r) /\ narrow (aV (hi r) - aV (lo r)) widthB (aV (lo r)) 100)).
Proof using positive.
  unfold pureV. destruct r as [[he d t v i] h]. cbn [lo hi aHe aD aT aV aI]. intros (-> & -> & -> & P & ->) L M. unfold cut, refine, refineI. cbn [lo hi aI].
  change (0 <? 0) with false. cbn [andb]. unfold refineV, lenV. cbn [lo hi aV]. rewrite (proj2 (Z.ltb_lt 0 v)) by lia.
  change (zeroBut (Comp 0 0 0 v 0) false false false true false) with true. rewrite !andb_true_r. cbn [andb].
  assert (X : refineSmall maxHe maxD maxT groupingMin hasD hasT (Region (Comp 0 0 0 v 0) h) = true).
  { unfold refineSmall. cbn [lo hi aV]. rewrite (proj2 (Z.ltb_lt 1 (aV h))) by lia. reflexivity. }
  rewrite X. destruct clean_dec as [C|C].
  - rewrite (clean_true C).
    destruct (Z.ltb_spec v groupingMin) as [A|A]; [exists allTrue; split; [reflexivity|]; cbn; repeat split; try discriminate; try tauto; lia|].
    destruct (Z.ltb_spec maxPureV (aV h)) as [B|B]; [exists allTrue; split; [reflexivity|]; cbn; repeat split; try discriminate; try tauto; lia|].
    destruct (short (aV h - v) widthB v 100) eqn:S; [apply short_iff in S|apply short_false in S].
    + eexists. split; [reflexivity|]. cbn. repeat split; auto; tauto.
    + exists allTrue. split; [reflexivity|]. cbn. repeat split; try discriminate; tauto.
  - rewrite (clean_false C). destruct (Z.ltb_spec maxV maxPureV) as [K|K].
    2: { exists allTrue. split; [reflexivity|]. cbn. repeat split; try discriminate; try tauto; lia. }
    destruct (Z.leb_spec v maxV) as [A|A]; [exists allTrue; split; [reflexivity|]; cbn; repeat split; try discriminate; try tauto; lia|].
    destruct (short (aV h - v) widthB v 100) eqn:S; [apply short_iff in S|apply short_false in S].
    + eexists. split; [reflexivity|]. cbn. repeat split; auto; tauto.
    + exists allTrue. split; [reflexivity|]. cbn. repeat split; try discriminate; tauto.
Qed.
(** Whatever the cell: along an axis where it is left whole it is narrow. *)
Theorem c64_psi_width r f : 0 <= lenHe r -> 0 <= lenD r -> 0 <= lenT r -> cut r = Some f ->
  (fI f = false -> aI (hi r) <= maxI /\ narrow (aI (hi r) - aI (lo r)) widthB (aI (lo r)) 100) /\
  (fV f = false -> narrow (aV (hi r) - aV (lo r)) widthB (aV (lo r)) 100) /\
  (fHe f = false -> narrow (aHe (hi r) - aHe (lo r)) widthA (aHe (lo r) * aHe (lo r)) 2) /\
  (fD f = false -> narrow (aD (hi r) - aD (lo r)) widthA (aD (lo r) * aD (lo r)) 2) /\
  (fT f = false -> narrow (aT (hi r) - aT (lo r)) widthA (aT (lo r) * aT (lo r)) 2).
Proof using.
  unfold cut, refine, lenHe, lenD, lenT. intros PHe PD PT.
  assert (T : forall n w b k, short n w b k = true -> narrow n w b k) by (intros; apply short_iff; assumption).
  assert (W : forall n w b, 0 <= n -> narrow n w b 10 -> narrow n w b 2) by (unfold narrow; intros; lia).
  destruct (refineI maxI groupingMin widthB r) as [g|] eqn:EI.
  { intros E. apply some_inj in E. subst g. unfold refineI in EI. destruct (0 <? aI (lo r)); [|discriminate].
    destruct (_ && _); [apply some_inj in EI; subst; cbn; repeat split; discriminate|]. destruct (Z.ltb_spec maxI (aI (hi r))); [apply some_inj in EI; subst; cbn; repeat split; discriminate|].
    destruct (short _ _ _ _) eqn:S; [|discriminate]. apply some_inj in EI. subst. apply T in S. unfold lenI in S. cbn. repeat split; auto; discriminate. }
  destruct (refineV maxHe maxD maxT maxV maxPureV groupingMin widthB r) as [g|] eqn:EV.
  { intros E. apply some_inj in E. subst g. unfold refineV in EV. destruct (short (lenV r) widthB (aV (lo r)) 100) eqn:S.
    - apply T in S. unfold lenV in S. assert (fV f = false \/ f = allTrue).
      { repeat match type of EV with (if ?b then _ else _) = _ => destruct b end; try discriminate; apply some_inj in EV; subst; cbn; auto. }
      assert (Q : f = allTrue \/ f = setV false allTrue).
      { repeat match type of EV with (if ?b then _ else _) = _ => destruct b end; try discriminate; apply some_inj in EV; subst; cbn; auto. }
      destruct Q; subst; cbn; repeat split; auto; discriminate.
    - cbn [andb] in EV. assert (Q : f = allTrue).
      { repeat match type of EV with (if ?b then _ else _) = _ => destruct b end; try discriminate; apply some_inj in EV; subst; cbn; auto. }
      subst; cbn; repeat split; discriminate. }
  destruct (refineSmall _ _ _ _ _ _ _); [intros E; apply some_inj in E; subst; cbn; repeat split; discriminate|].
  assert (HR : forall g, g = refineRest maxV maxPureV widthA widthB hasD hasT r ->
    (fI g = false -> aI (hi r) <= maxI /\ narrow (aI (hi r) - aI (lo r)) widthB (aI (lo r)) 100) /\
    (fV g = false -> narrow (aV (hi r) - aV (lo r)) widthB (aV (lo r)) 100) /\
    (fHe g = false -> narrow (aHe (hi r) - aHe (lo r)) widthA (aHe (lo r) * aHe (lo r)) 2) /\
    (fD g = false -> narrow (aD (hi r) - aD (lo r)) widthA (aD (lo r) * aD (lo r)) 2) /\
    (fT g = false -> narrow (aT (hi r) - aT (lo r)) widthA (aT (lo r) * aT (lo r)) 2)).
  { intros g ->. rewrite rest_I, rest_V, rest_He, rest_D, rest_T. unfold narrow. intuition (discriminate || lia). }
  assert (HE : forall a b g, g = refineEdge maxD maxT widthA hasD hasT r a b -> 
    (fI g = false -> aI (hi r) <= maxI /\ narrow (aI (hi r) - aI (lo r)) widthB (aI (lo r)) 100) /\
    (fV g = false -> narrow (aV (hi r) - aV (lo r)) widthB (aV (lo r)) 100) /\
    (fHe g = false -> narrow (aHe (hi r) - aHe (lo r)) widthA (aHe (lo r) * aHe (lo r)) 2) /\
    (fD g = false -> narrow (aD (hi r) - aD (lo r)) widthA (aD (lo r) * aD (lo r)) 2) /\
    (fT g = false -> narrow (aT (hi r) - aT (lo r)) widthA (aT (lo r) * aT (lo r)) 2)).
  { intros a b g ->. unfold refineEdge.
    split; [flag fI; discriminate|]. split; [flag fV; discriminate|]. split; [flag fHe; discriminate|].
    assert (S : forall n w b, 0 <= n -> short n w b 10 = true -> narrow n w b 2) by (intros; apply W; [assumption|apply T; assumption]).
    split.
    - repeat first [rewrite (take fD _ _ true) by reflexivity | rewrite (take fD _ _ false) by reflexivity | rewrite (skip fD) by reflexivity].
      intros X. apply (S _ _ _ PD). destruct (short (aD (hi r) - aD (lo r)) widthA (aD (lo r) * aD (lo r)) 10) eqn:E; [reflexivity|exfalso].
      unfold lenD in X. rewrite E, andb_false_r in X. repeat match type of X with (if ?b then _ else _) = _ => destruct b; try discriminate X end.
    - repeat first [rewrite (take fT _ _ true) by reflexivity | rewrite (take fT _ _ false) by reflexivity | rewrite (skip fT) by reflexivity].
      intros X. apply (S _ _ _ PT). destruct (short (aT (hi r) - aT (lo r)) widthA (aT (lo r) * aT (lo r)) 10) eqn:E; [reflexivity|exfalso].
      unfold lenT in X. rewrite E, andb_false_r in X. repeat match type of X with (if ?b then _ else _) = _ => destruct b; try discriminate X end. }
  destruct (_ && _).
  - destruct (getMaxHePerV _ _); [|discriminate]. destruct (getMaxHePerV _ _); [|discriminate].
    destruct (_ && _); intros E; apply some_inj in E; symmetry in E; eauto.
  - intros E. apply some_inj in E. symmetry in E. eauto.
Qed.
(** Bubbles. On the edge of the helium content helium and vacancies are resolved one by one. *)
Theorem c64_psi_edge r f bHi bLo : aI (lo r) = 0 -> 0 <= aV (lo r) <= maxV -> 1 < aV (hi r) <= 4294967296 -> 0 < aV (lo r) -> ~ gasFree (lo r) -> ~ clean ->
  getMaxHePerV (aV (hi r) - 1) ratio = Some bHi -> getMaxHePerV (aV (lo r) - 1) ratio = Some bLo -> maxV < 4294967296 ->
  aHe (lo r) <= bHi -> bLo < aHe (hi r) -> cut r = Some f -> fHe f = true /\ fV f = true /\ fI f = true.
Proof using.
  intros HI HV HH PV G C B1 B2 M L1 L2. unfold cut, refine, refineI. rewrite HI. change (0 <? 0) with false.
  assert (Z0 : forall a, zeroBut (lo r) false false false a false = false).
  { intros a. unfold zeroBut, isZero, gasFree in *. destruct (Z.eqb_spec (aHe (lo r)) 0); destruct (Z.eqb_spec (aD (lo r)) 0); destruct (Z.eqb_spec (aT (lo r)) 0); cbn; try reflexivity. tauto. }
  assert (EV : refineV maxHe maxD maxT maxV maxPureV groupingMin widthB r = None).
  { unfold refineV. rewrite (clean_false C), !Z0, !andb_false_r. destruct (_ && _); reflexivity. }
  rewrite EV. destruct (refineSmall _ _ _ _ _ _ _); [intros X; apply some_inj in X; subst; cbn; auto|].
  rewrite (proj2 (Z.ltb_lt 1 (aV (hi r)))), (proj2 (Z.leb_le (aV (lo r)) maxV)) by lia. cbn [andb].
  unfold u32. rewrite !Z.mod_small by lia. rewrite B1, B2, (proj2 (Z.leb_le _ _) L1), (proj2 (Z.leb_le bLo (aHe (hi r) - 1))) by lia. cbn [andb].
  intros X. apply some_inj in X. subst. unfold refineEdge. split; [flag fHe; reflexivity|]. split; [flag fV; reflexivity|flag fI; reflexivity].
Qed.
(** Below the edge a narrow cell is left whole, except that the last vacancy number is resolved. *)
Theorem c64_psi_bubble r bHi bLo : aI (lo r) = 0 -> groupingMin <= aV (lo r) <= maxV -> aV (lo r) < aV (hi r) <= 4294967296 -> 0 < aHe (lo r) -> ~ clean -> maxV < 4294967296 ->
  getMaxHePerV (aV (hi r) - 1) ratio = Some bHi -> getMaxHePerV (aV (lo r) - 1) ratio = Some bLo -> aHe (hi r) <= bLo ->
  exists f, cut r = Some f /\ fI f = true /\
  (fHe f = false <-> narrow (aHe (hi r) - aHe (lo r)) widthA (aHe (lo r) * aHe (lo r)) 2) /\
  (fV f = false <-> aV (hi r) - aV (lo r) <= widthB /\ aV (hi r) <= maxV /\ aV (hi r) <= maxPureV + 1) /\
  (fD f = false <-> hasD = true /\ aD (lo r) <> 0 /\ narrow (aD (hi r) - aD (lo r)) widthA (aD (lo r) * aD (lo r)) 2) /\
  (fT f = false <-> hasT = true /\ aT (lo r) <> 0 /\ narrow (aT (hi r) - aT (lo r)) widthA (aT (lo r) * aT (lo r)) 2).
Proof using positive.
  intros HI HV HH PH C M B1 B2 L. unfold cut, refine, refineI. rewrite HI. change (0 <? 0) with false.
  assert (Z0 : forall a b c d, zeroBut (lo r) false a b c d = false).
  { intros. unfold zeroBut, isZero. rewrite (proj2 (Z.eqb_neq (aHe (lo r)) 0)) by lia. reflexivity. }
  assert (Z1 : zeroBut (lo r) true false false false false = false).
  { intros. unfold zeroBut, isZero. rewrite (proj2 (Z.eqb_neq (aV (lo r)) 0)) by lia. cbn. rewrite !andb_false_r. reflexivity. }
  assert (EV : refineV maxHe maxD maxT maxV maxPureV groupingMin widthB r = None).
  { unfold refineV. rewrite (clean_false C), !Z0, !andb_false_r. destruct (_ && _); reflexivity. }
  assert (ES : refineSmall maxHe maxD maxT groupingMin hasD hasT r = false).
  { unfold refineSmall. rewrite !Z0, Z1, (clean_false C), !andb_false_r. rewrite (proj2 (Z.ltb_ge _ _)) by lia. reflexivity. }
  rewrite EV, ES.
  rewrite (proj2 (Z.ltb_lt 1 (aV (hi r)))), (proj2 (Z.leb_le (aV (lo r)) maxV)) by lia. cbn [andb].
  unfold u32. rewrite !Z.mod_small by lia. rewrite B1, B2. rewrite (proj2 (Z.leb_gt bLo (aHe (hi r) - 1))) by lia. rewrite andb_false_r.
  exists (refineRest maxV maxPureV widthA widthB hasD hasT r). split; [reflexivity|].
  rewrite rest_I, rest_V, rest_He, rest_D, rest_T. intuition lia.
Qed.
End PSI.
Print Assumptions c64_psi_ungrouped.
Print Assumptions c64_psi_interstitials.
Print Assumptions c64_psi_mixed_interstitials.
Print Assumptions c64_psi_vacancies.
Print Assumptions c64_psi_width.
Print Assumptions c64_psi_edge.
Print Assumptions c64_psi_bubble.
Definition line (a b : Z) : region := Region (Comp 0 0 0 0 a) (Comp 1 1 1 1 b).
Definition cavity (a b : Z) : region := Region (Comp 0 0 0 a 0) (Comp 1 1 1 b 1).
Example c64_psi_example : pureI (lo (line 20 24)) /\ pureV (lo (cavity 60 64)) /\ ~ clean 8 1 1 /\ clean 0 0 0 /\
  narrow 4 4 20 100 /\ narrow 9 4 1000 100 /\ ~ narrow 10 4 1000 100 /\
  (exists f, refine 8 1 1 50 50 100 10 4 4 true true 4.0 (line 20 24) = Some f /\ fI f = false) /\
  (exists f, refine 8 1 1 50 50 100 10 4 4 true true 4.0 (line 20 28) = Some f /\ fI f = true) /\
  (exists f, refine 8 1 1 50 70 100 10 4 4 true true 4.0 (cavity 60 64) = Some f /\ fV f = false) /\
  (exists f, refine 8 1 1 50 70 100 10 4 4 true true 4.0 (cavity 48 52) = Some f /\ fV f = true).
Proof.
  unfold pureI, pureV, clean, narrow. cbn [lo line cavity aHe aD aT aV aI].
  repeat match goal with |- _ /\ _ => split end; try lia; eexists; (split; [reflexivity|reflexivity]).
Qed.
(** A bubble of 3 to 6 helium atoms in 4 or 5 vacancies *)
Example c64_psi_mixed_example : exists f, refine 8 1 1 50 50 6 30 4 4 false false 4.0 (Region (Comp 4 0 0 0 1) (Comp 8 1 1 1 2)) = Some f /\ fI f = false.
Proof. eexists. split; [reflexivity|reflexivity]. Qed.
Example c64_psi_bubble_example : let r := Region (Comp 3 0 0 4 0) (Comp 7 1 1 6 1) in
  getMaxHePerV (aV (hi r) - 1) 4.0 = Some 27 /\ getMaxHePerV (aV (lo r) - 1) 4.0 = Some 18 /\
  exists f, refine 8 1 1 7 7 6 3 4 2 true true 4.0 r = Some f /\ fHe f = false /\ fV f = false /\ fD f = true.
Proof.
  cbv zeta. repeat split. eexists. split; [reflexivity|]. repeat split.
Qed.
(** The edge: 24 to 27 helium atoms in 4 or 5 vacancies *)
Example c64_psi_edge_example : let r := Region (Comp 24 0 0 4 0) (Comp 28 1 1 6 1) in
  exists f, refine 8 1 1 7 7 6 3 4 2 true true 4.0 r = Some f /\ fHe f = true /\ fV f = true.
Proof. cbv zeta. eexists. split; [reflexivity|]. repeat split. Qed.
(** With more pure vacancies than mixed ones, pure vacancies beyond the mixed ones are grouped also below the grouping minimum. *)
Theorem c64_psi_minimum_refuted maxHe maxD maxT maxV maxPureV maxI groupingMin widthA widthB hasD hasT ratio a b :
  0 < groupingMin -> 0 < maxHe -> 0 <= maxV -> maxV < maxPureV -> maxV < a -> a < groupingMin -> a < b -> b - a <= widthB ->
  exists f, refine maxHe maxD maxT maxV maxPureV maxI groupingMin widthA widthB hasD hasT ratio (cavity a b) = Some f /\ fV f = false.
Proof.
  intros G HH HV HP HA HL HB HW.
  destruct (c64_psi_vacancies maxHe maxD maxT maxV maxPureV maxI groupingMin widthA widthB hasD hasT ratio G (cavity a b)) as (f & E & _ & _ & _ & _ & _ & I).
  - unfold pureV. cbn. lia.
  - exact HB.
  - exact HV.
  - exists f. split; [exact E|]. apply I; [unfold clean; lia|]. cbn. unfold narrow. lia.
Qed.
Print Assumptions c64_psi_minimum_refuted.
Example c64_psi_minimum_example : exists f, refine 8 0 0 2 40 6 30 4 4 false false 4.0 (cavity 3 7) = Some f /\ fV f = false.
Proof. apply c64_psi_minimum_refuted; lia. Qed.
(** A narrow group of interstitials which ends with the largest size is not left whole. *)
Theorem c64_psi_top_refuted maxHe maxD maxT maxV maxPureV maxI groupingMin widthA widthB hasD hasT ratio a :
  0 < groupingMin -> groupingMin <= a -> a <= maxI -> maxI + 1 - a <= widthB ->
  exists f, refine maxHe maxD maxT maxV maxPureV maxI groupingMin widthA widthB hasD hasT ratio (line a (maxI + 1)) = Some f /\ fI f = true.
Proof.
  intros G HA HM HW.
  destruct (c64_psi_interstitials maxHe maxD maxT maxV maxPureV maxI groupingMin widthA widthB hasD hasT ratio G (line a (maxI + 1))) as (f & E & _ & _ & _ & _ & I).
  - unfold pureI. cbn. lia.
  - exists f. split; [exact E|]. destruct (fI f); [reflexivity|]. destruct I as [I _]. specialize (I eq_refl). cbn in I. lia.
Qed.
Print Assumptions c64_psi_top_refuted.
Example c64_psi_top_example : exists f, refine 8 1 1 50 50 63 10 4 4 true true 4.0 (line 60 64) = Some f /\ fI f = true.
Proof. apply (c64_psi_top_refuted 8 1 1 50 50 63 10 4 4 true true 4.0 60); lia. Qed.

(** *** NE *)
(** Whether a cell is cut along xenon and along vacancies: interstitials, single species in small numbers and small bubbles are
    resolved; the others when they are wide, reach the axis or go beyond the limits. *)
Definition neFine groupingMin (r : reg3) : Prop :=
  0 < ib (rI r) \/ ib (rG r) = 0 /\ ib (rV r) < 3 /\ 1 < ie (rV r) /\ ib (rI r) = 0 \/ ib (rV r) = 0 /\ ib (rG r) < 2 /\ 1 < ie (rG r) /\ ib (rI r) = 0 \/
  ib (rG r) < groupingMin /\ ib (rV r) < groupingMin.
Definition beyond maxG maxV (r : reg3) : Prop := maxG + 1 < ie (rG r) /\ maxV + 1 < ie (rV r).
Definition split3 x := fst (fst x) = true /\ snd (fst x) = true /\ snd x = true.
Lemma flag_iff b x e m : negb b || (x =? 0) || (m + 1 <? e) = false <-> 0 <> x /\ e <= m + 1 /\ b = true.
Proof. destruct b; cbn [negb orb]; [|intuition discriminate]. destruct (Z.eqb_spec x 0), (Z.ltb_spec (m + 1) e); cbn [orb]; intuition (discriminate || lia). Qed.
Lemma tail_flags x e m x' e' m' b b' :
  let g := negb b || (x =? 0) || (m + 1 <? e) in let v := negb b' || (x' =? 0) || (m' + 1 <? e') in
  let f := if negb g && negb v then (false, false, false) else (g, v, true) in
  (fst (fst f) = false <-> 0 <> x /\ e <= m + 1 /\ b = true) /\ (snd (fst f) = false <-> 0 <> x' /\ e' <= m' + 1 /\ b' = true) /\
  (snd f = false <-> fst f = (false, false)).
Proof.
  intros g v f. rewrite <- !flag_iff. fold g v. subst f. clearbody g v. destruct g, v; cbn; intuition discriminate.
Qed.
Theorem c64_ne maxXe maxV groupingMin wXe wV r : 0 <= ib (rI r) ->
  let f := neRefine maxXe maxV groupingMin wXe wV r in
  (neFine groupingMin r \/ beyond maxXe maxV r -> split3 f) /\
  (~ neFine groupingMin r -> ~ beyond maxXe maxV r ->
    (fst (fst f) = false <-> 0 <> ib (rG r) /\ ie (rG r) <= maxXe + 1 /\ narrow (ie (rG r) - ib (rG r)) wXe (ib (rG r)) 10) /\
    (snd (fst f) = false <-> 0 <> ib (rV r) /\ ie (rV r) <= maxV + 1 /\ narrow (ie (rV r) - ib (rV r)) wV (ib (rV r)) 10) /\
    (snd f = false <-> fst f = (false, false))).
Proof.
  intros HI f. subst f. unfold neFine, beyond, split3, neRefine, len. rewrite <- !short_iff.
  generalize (short (ie (rG r) - ib (rG r)) wXe (ib (rG r)) 10), (short (ie (rV r) - ib (rV r)) wV (ib (rV r)) 10). intros b1 b2.
  destruct (0 <? ib (rI r)) eqn:E1; [split; [cbn; auto|intros; exfalso; lia]|].
  destruct ((1 <? ie (rV r)) && (ib (rV r) <? 3) && (ib (rG r) =? 0) && (ib (rI r) =? 0)) eqn:E2; [split; [cbn; auto|intros; exfalso; lia]|].
  destruct ((1 <? ie (rG r)) && (ib (rG r) <? 2) && (ib (rV r) =? 0) && (ib (rI r) =? 0)) eqn:E3; [split; [cbn; auto|intros; exfalso; lia]|].
  destruct ((ib (rG r) <? groupingMin) && (ib (rV r) <? groupingMin)) eqn:E4; [split; [cbn; auto|intros; exfalso; lia]|].
  destruct ((maxXe + 1 <? ie (rG r)) && (maxV + 1 <? ie (rV r))) eqn:E5; [split; [cbn; auto|intros; exfalso; lia]|].
  split; [intros; exfalso; lia|]. intros _ _. clear E1 E2 E3 E4 E5 HI.
  apply (tail_flags (ib (rG r)) (ie (rG r)) maxXe (ib (rV r)) (ie (rV r)) maxV b1 b2).
Qed.
Print Assumptions c64_ne.
Example c64_ne_example : let r a b c d := Reg3 (Iv a b) (Iv c d) (Iv 0 1) in
  ~ neFine 10 (r 20 24 30 34) /\ ~ beyond 100 100 (r 20 24 30 34) /\
  neRefine 100 100 10 4 4 (r 20 24 30 34) = (false, false, false) /\ neRefine 100 100 10 4 4 (r 20 24 30 40) = (false, true, true) /\
  neRefine 100 100 10 4 4 (r 5 9 6 10) = (true, true, true) /\ neRefine 22 100 10 4 4 (r 20 24 30 34) = (true, false, true) /\
  neRefine 23 100 10 4 4 (r 20 24 30 34) = (false, false, false).
Proof. cbv zeta. unfold neFine, beyond. cbn [rG rV rI ib ie]. repeat split; lia. Qed.

(** *** Fe *)
Definition feFine groupingMin (r : reg3) : Prop :=
  0 < ib (rI r) \/ ib (rG r) = 0 /\ ib (rV r) < 11 /\ 1 < ie (rV r) /\ ib (rI r) = 0 \/ ib (rV r) = 0 /\ ib (rG r) < 9 /\ 1 < ie (rG r) /\ ib (rI r) = 0 \/
  ib (rG r) < groupingMin /\ ib (rV r) < groupingMin.
(** The distance of the centre of a cell from the origin, and the share of its third power a group may be wide: ten thousandths, but
    millionths where an interstitial is bound by 0 to 3 eV *)
Definition radius (i j : iv) : R := (let m k := (IZR (ib k) + IZR (ie k) - 1) / 2 in sqrt (m i * m i + m j * m j))%R.
Definition emission (i j : iv) : R :=
  (let m k := (IZR (ib k) + IZR (ie k) - 1) / 2 in let p x := Rpower x (2 / 3) in
   4.88 + 2.59 * (p (m j) - p (m j - 1)) - 2.5 * ln (1 + m i / m j))%R.
Definition slim (n w : Z) (s : R) : Prop := n <= w \/ (IZR n < s)%R.
Lemma feShort_iff n w s : feShort n w s = true <-> slim n w s.
Proof.
  unfold feShort, slim. destruct Rlt_dec as [H|H]; split; intros X; try reflexivity; try discriminate.
  - unfold Rmax in H. destruct Rle_dec; [right; exact H|left]. replace (1.0)%R with 1%R in H by lra. rewrite <- plus_IZR in H. apply lt_IZR in H. lia.
  - exfalso. apply H. destruct X as [X|X].
    + apply IZR_le in X. apply Rlt_le_trans with (IZR w + 1.0)%R; [lra|apply Rmax_l].
    + apply Rlt_le_trans with s; [exact X|apply Rmax_r].
Qed.
Lemma mean_half i : (0.5 * IZR (ib i + ie i - 1) = (IZR (ib i) + IZR (ie i) - 1) / 2)%R.
Proof. rewrite minus_IZR, plus_IZR. lra. Qed.
Lemma root3_pow x : (1 < x -> root3 (x * x) = Rpower x (2 / 3) /\ root3 ((x - 1.0) * (x - 1.0)) = Rpower (x - 1) (2 / 3))%R.
Proof.
  intros H. unfold root3. replace (1.0)%R with 1%R by lra.
  destruct (Rlt_dec 0 (x * x)); [|nra]. destruct (Rlt_dec 0 ((x - 1) * (x - 1))); [|nra].
  rewrite <- !Rpower_mult_distr, <- !Rpower_plus by lra. split; f_equal; lra.
Qed.
Lemma feScale_near r : (1 < (IZR (ib (rV r)) + IZR (ie (rV r)) - 1) / 2 -> 0 < emission (rG r) (rV r) < 3 -> feScale r = radius (rG r) (rV r) ^ 3 * 0.000001)%R.
Proof.
  intros Hv He. unfold feScale, feNear, radius. rewrite !mean_half. unfold emission in He. destruct (root3_pow _ Hv) as [-> ->].
  destruct Req_EM_T; [lra|]. destruct Rlt_dec as [_|N].
  - replace (1.0e-6)%R with 0.000001%R by lra. cbn [pow]. ring.
  - exfalso. apply N. apply Rabs_def1; replace (1.0)%R with 1%R by lra; lra.
Qed.
Lemma feScale_far r : (1 < (IZR (ib (rV r)) + IZR (ie (rV r)) - 1) / 2 -> emission (rG r) (rV r) <= 0 \/ 3 <= emission (rG r) (rV r) -> feScale r = radius (rG r) (rV r) ^ 3 * 0.0001)%R.
Proof.
  intros Hv He. unfold feScale, feNear, radius. rewrite !mean_half. unfold emission in He. destruct (root3_pow _ Hv) as [-> ->].
  destruct Req_EM_T; [lra|]. destruct Rlt_dec as [N|_].
  - exfalso. apply Rabs_def2 in N. replace (1.0)%R with 1%R in N by lra. lra.
  - replace (1.0e-4)%R with 0.0001%R by lra. cbn [pow]. ring.
Qed.
Theorem c64_fe maxHe maxV groupingMin wHe wV r : 0 <= ib (rI r) -> (1 < (IZR (ib (rV r)) + IZR (ie (rV r)) - 1) / 2)%R ->
  let x := feRefine maxHe maxV groupingMin wHe wV r in let f := fst x in
  let s := (radius (rG r) (rV r) ^ 3)%R in
  (feFine groupingMin r \/ beyond maxHe maxV r -> split3 f /\ snd x = true) /\
  (~ feFine groupingMin r -> ~ beyond maxHe maxV r ->
    (snd x = false <-> fst f = (false, false)) /\ snd f = true /\
    ((0 < emission (rG r) (rV r) < 3)%R ->
      (fst (fst f) = false <-> 0 <> ib (rG r) /\ ie (rG r) <= maxHe + 1 /\ slim (ie (rG r) - ib (rG r)) wHe (s * 0.000001)) /\
      (snd (fst f) = false <-> 0 <> ib (rV r) /\ ie (rV r) <= maxV + 1 /\ slim (ie (rV r) - ib (rV r)) wV (s * 0.000001))) /\
    ((emission (rG r) (rV r) <= 0 \/ 3 <= emission (rG r) (rV r))%R ->
      (fst (fst f) = false <-> 0 <> ib (rG r) /\ ie (rG r) <= maxHe + 1 /\ slim (ie (rG r) - ib (rG r)) wHe (s * 0.0001)) /\
      (snd (fst f) = false <-> 0 <> ib (rV r) /\ ie (rV r) <= maxV + 1 /\ slim (ie (rV r) - ib (rV r)) wV (s * 0.0001)))).
Proof.
  intros HI Hm x f s. subst x f s.
  assert (K : forall sc, feScale r = sc ->
    (feFine groupingMin r \/ beyond maxHe maxV r -> split3 (fst (feRefine maxHe maxV groupingMin wHe wV r)) /\ snd (feRefine maxHe maxV groupingMin wHe wV r) = true) /\
    (~ feFine groupingMin r -> ~ beyond maxHe maxV r -> let x := feRefine maxHe maxV groupingMin wHe wV r in let f := fst x in
      (snd x = false <-> fst f = (false, false)) /\ snd f = true /\
      (fst (fst f) = false <-> 0 <> ib (rG r) /\ ie (rG r) <= maxHe + 1 /\ slim (ie (rG r) - ib (rG r)) wHe sc) /\
      (snd (fst f) = false <-> 0 <> ib (rV r) /\ ie (rV r) <= maxV + 1 /\ slim (ie (rV r) - ib (rV r)) wV sc))).
  { intros sc <-. clear Hm. unfold feFine, beyond, split3, feRefine, len. rewrite <- !feShort_iff.
    generalize (feShort (ie (rG r) - ib (rG r)) wHe (feScale r)), (feShort (ie (rV r) - ib (rV r)) wV (feScale r)). intros b1 b2.
    destruct (0 <? ib (rI r)) eqn:E1; [split; [cbn; auto|intros; exfalso; lia]|].
    destruct ((1 <? ie (rV r)) && (ib (rV r) <? 11) && (ib (rG r) =? 0) && (ib (rI r) =? 0)) eqn:E2; [split; [cbn; auto|intros; exfalso; lia]|].
    destruct ((1 <? ie (rG r)) && (ib (rG r) <? 9) && (ib (rV r) =? 0) && (ib (rI r) =? 0)) eqn:E3; [split; [cbn; auto|intros; exfalso; lia]|].
    destruct ((ib (rG r) <? groupingMin) && (ib (rV r) <? groupingMin)) eqn:E4; [split; [cbn; auto|intros; exfalso; lia]|].
    destruct ((maxHe + 1 <? ie (rG r)) && (maxV + 1 <? ie (rV r))) eqn:E5; [split; [cbn; auto|intros; exfalso; lia]|].
    split; [intros; exfalso; lia|]. intros _ _. clear E1 E2 E3 E4 E5 HI. cbv zeta. cbn [fst snd].
    rewrite <- !flag_iff. split; [|tauto].
    destruct (negb b1 || _ || _), (negb b2 || _ || _); cbn; intuition discriminate. }
  split; [apply (K _ eq_refl)|]. intros A B. destruct (K _ eq_refl) as [_ K0]. destruct (K0 A B) as (E1 & E2 & _).
  split; [exact E1|]. split; [exact E2|]. split; intros He.
  - destruct (K _ (feScale_near r Hm He)) as [_ K1]. apply (K1 A B).
  - destruct (K _ (feScale_far r Hm He)) as [_ K1]. apply (K1 A B).
Qed.
Print Assumptions c64_fe.
(** 20 to 23 helium atoms in 30 to 33 vacancies are left whole with widths of 4, wider cells are not; near the line of 1.5 eV as well. *)
Example c64_fe_example : let r := Reg3 (Iv 20 24) (Iv 30 34) (Iv 0 1) in
  ~ feFine 10 r /\ ~ beyond 100 100 r /\ (3 <= emission (rG r) (rV r))%R /\ feRefine 100 100 10 4 4 r = ((false, false, true), false).
Proof.
  cbv zeta. set (r := Reg3 (Iv 20 24) (Iv 30 34) (Iv 0 1)).
  assert (A : ~ feFine 10 r) by (unfold feFine; cbn; lia). assert (B : ~ beyond 100 100 r) by (unfold beyond; cbn; lia).
  assert (E : (3 <= emission (rG r) (rV r))%R).
  { unfold emission. cbn [rG rV ib ie r]. replace ((30 + 34 - 1) / 2)%R with 31.5%R by lra. replace ((20 + 24 - 1) / 2)%R with 21.5%R by lra.
    assert (Rpower (31.5 - 1) (2 / 3) <= Rpower 31.5 (2 / 3))%R by (apply Rle_Rpower_l; lra).
    assert (ln (1 + 21.5 / 31.5) <= 21.5 / 31.5)%R.
    { rewrite <- (ln_exp (21.5 / 31.5)) at 2. assert (X := exp_ineq1 (21.5 / 31.5) ltac:(lra)). apply Rlt_le, ln_increasing; lra. }
    lra. }
  split; [exact A|]. split; [exact B|]. split; [exact E|].
  destruct (c64_fe 100 100 10 4 4 r) as (_ & H); [cbn; lia|cbn; lra|]. destruct (H A B) as (H1 & H2 & _ & H3). destruct (H3 (or_intror E)) as (H4 & H5).
  destruct (feRefine 100 100 10 4 4 r) as [[[g v] i] x]. cbn [fst snd] in *.
  assert (g = false) by (apply H4; cbn; unfold slim; lia). assert (v = false) by (apply H5; cbn; unfold slim; lia). subst.
  assert (x = false) by (apply H1; reflexivity). subst. reflexivity.
Qed.

(** *** Zr and Alloy: clusters of one species *)
Definition along (n k : nat) (i : iv) : list iv := map (fun j => if Nat.eqb j k then i else Iv 0 1) (seq 0 n).
Definition others (n k : nat) (b : bool) : list bool := map (fun j => if Nat.eqb j k then b else true) (seq 0 n).
Theorem c64_zr maxV maxB maxI groupingMin w k a b : let limit := nth k [maxV; maxB; maxI] 0 in
  (k < 3)%nat -> 0 < groupingMin -> 0 < a < b -> 0 <= maxV -> 0 <= maxB -> 0 <= maxI -> 0 < limit ->
  exists c, zrRefine maxV maxB maxI groupingMin w (along 3 k (Iv a b)) = (others 3 k c, true) /\
  (c = false <-> groupingMin <= a /\ b <= limit /\ narrow (b - a) w a 50).
Proof.
  cbv zeta. intros Hk Hg Hab HV HB HI HL. assert (P : 0 <? a = true) by lia. setoid_rewrite <- short_iff.
  do 3 (destruct k as [|k]; [cbn [nth] in HL; unfold zrRefine, along, nAxis; cbn [map seq Nat.eqb filter ib ie]; rewrite ?P; change (0 <? 0) with false; cbn [length Nat.ltb Nat.leb forallb existsb axis nth ib ie fold_left];
    rewrite ?P; unfold len; cbn [axis nth ib ie]; change (0 <? 0) with false; cbn [andb orb];
    destruct (short (b - a) w a 50); cbn [andb];
    destruct (Z.ltb_spec a groupingMin); rewrite ?(proj2 (Z.ltb_lt 0 groupingMin)) by lia; cbn [andb];
    [eexists; split; [reflexivity|]; intuition (discriminate || lia)| | eexists; split; [reflexivity|]; intuition (discriminate || lia) | ];
    destruct (Z.ltb_spec maxV 1), (Z.ltb_spec maxB 1), (Z.ltb_spec maxI 1); try (exfalso; lia);
    repeat match goal with |- context [?x <? ?y] => destruct (Z.ltb_spec x y) end; try (exfalso; lia); cbn [andb orb];
    first [exists true; split; [reflexivity|intuition (discriminate || lia)] | exists false; split; [reflexivity|intuition (discriminate || lia)]]|]). lia.
Qed.
Print Assumptions c64_zr.
Example c64_zr_example : zrRefine 200 300 100 10 4 (along 3 1 (Iv 20 24)) = ([true; false; true], true) /\
  zrRefine 200 300 100 10 4 (along 3 1 (Iv 20 28)) = ([true; true; true], true) /\ zrRefine 200 300 100 10 4 (along 3 1 (Iv 297 301)) = ([true; true; true], true).
Proof. repeat split. Qed.
Theorem c64_alloy maxSize maxVoid groupingMin w k a b : let limit := if Nat.eqb k 1 then maxVoid else maxSize in
  (k < 6)%nat -> 0 < groupingMin -> 0 < a < b -> 0 <= maxSize -> 0 <= maxVoid -> 0 < limit ->
  exists c, alloyRefine maxSize maxVoid groupingMin w (along 6 k (Iv a b)) = others 6 k c /\
  (c = false <-> (k <> 0 /\ k <> 3)%nat /\ groupingMin <= a /\ b <= limit /\ narrow (b - a) w a 20).
Proof.
  cbv zeta. intros Hk Hg Hab HS HV HL. assert (P : 0 <? a = true) by lia. setoid_rewrite <- short_iff.
  do 6 (destruct k as [|k]; [cbn [Nat.eqb] in HL; unfold alloyRefine, along, nAxis; cbn [map seq Nat.eqb filter ib ie]; rewrite ?P; change (0 <? 0) with false;
    cbn [length Nat.ltb Nat.leb Nat.eqb forallb axis nth ib ie fold_left orb];
    rewrite ?P; unfold len; cbn [axis nth ib ie]; change (0 <? 0) with false; cbn [andb orb];
    try (exists true; split; [reflexivity|intuition (discriminate || lia)]);
    destruct (short (b - a) w a 20); cbn [andb];
    destruct (Z.ltb_spec a groupingMin); rewrite ?(proj2 (Z.ltb_lt 0 groupingMin)) by lia; cbn [andb];
    try (exists true; split; [reflexivity|intuition (discriminate || lia)]);
    repeat match goal with |- context [?x <? ?y] => destruct (Z.ltb_spec x y) end; try (exfalso; lia); cbn [andb orb];
    first [exists true; split; [reflexivity|intuition (discriminate || lia)] | exists false; split; [reflexivity|intuition (discriminate || lia)]]|]). lia.
Qed.
Print Assumptions c64_alloy.
Example c64_alloy_example : alloyRefine 3000 500 10 4 (along 6 4 (Iv 60 64)) = [true; true; true; true; false; true] /\
  alloyRefine 3000 500 10 4 (along 6 4 (Iv 60 70)) = repeat true 6 /\ alloyRefine 3000 500 10 4 (along 6 4 (Iv 1000 1040)) = [true; true; true; true; false; true] /\
  alloyRefine 3000 500 10 4 (along 6 0 (Iv 20 24)) = repeat true 6.
Proof. repeat split. Qed.
(** Cells with two species are not cut at all (they are not clusters). *)
Theorem c64_one_species maxV maxB maxI groupingMin w maxSize maxVoid (r : list iv) : (2 <= length (filter (fun i => (0 <? ib i)%Z) r))%nat ->
  zrRefine maxV maxB maxI groupingMin w r = (repeat false 3, false) /\ alloyRefine maxSize maxVoid groupingMin w r = repeat false 6.
Proof. intros H. unfold zrRefine, alloyRefine, nAxis. destruct (Nat.ltb_spec 1 (length (filter (fun i => 0 <? ib i) r))); [auto|lia]. Qed.
Print Assumptions c64_one_species.
Example c64_one_species_example : (2 <= length (filter (fun i => (0 <? ib i)%Z) [Iv 4 8; Iv 0 4; Iv 4 8]))%nat.
Proof. cbn. lia. Qed.
