(** C59: the lattice of compositions holds everything asked for, and can be cut down to single compositions. *)
From Coq Require Import ZArith List Bool Lia.
From Verif Require Import GenModel EnergyModel SelectModel Properties_Select Properties_Clusters LatticeModel.
Import ListNotations.
Open Scope Z_scope.

Lemma rounds_some : forall fuel w m i k, 0 <= i -> rounds fuel w m i = Some k -> i <= k /\ m + 1 <= w ^ k /\ (i < k -> w ^ (k - 1) < m + 1).
Proof.
  induction fuel as [|n IH]; intros w m i k Hi; cbn [rounds]; [discriminate|]. destruct (Z.ltb_spec (w ^ i) (m + 1)).
  - intros E. destruct (IH w m (i + 1) k ltac:(lia) E) as (A & B & C). split; [lia|]. split; [auto|]. intros _.
    destruct (Z.eq_dec k (i + 1)) as [->|]; [replace (i + 1 - 1) with i by lia; auto|apply C; lia].
  - intros E. injection E as <-. split; [lia|split; [auto|lia]].
Qed.
Lemma rounds_enough : forall fuel w m i, 2 <= w -> 0 <= i -> m + 1 <= 2 ^ (i + Z.of_nat fuel - 1) -> (0 < fuel)%nat -> exists k, rounds fuel w m i = Some k.
Proof.
  induction fuel as [|n IH]; intros w m i Hw Hi Hm Hf; [lia|]. cbn [rounds]. destruct (Z.ltb_spec (w ^ i) (m + 1)); [|eauto].
  destruct n as [|n].
  - exfalso. replace (i + Z.of_nat 1 - 1) with i in Hm by lia. assert (2 ^ i <= w ^ i) by (apply Z.pow_le_mono_l; lia). lia.
  - apply IH; try lia. replace (i + 1 + Z.of_nat (S n) - 1) with (i + Z.of_nat (S (S n)) - 1) by lia. auto.
Qed.
(** The adapted limit is the least power of the width, minus one, that is not less than the limit asked for. *)
Definition leastPower (w m M : Z) : Prop := exists i, 0 <= i /\ M = w ^ i - 1 /\ m <= M /\ forall j, 0 <= j < i -> w ^ j - 1 < m.
Theorem c59_adapt w m : 2 <= w -> 0 <= m -> w * m <= 4294967296 -> exists M, adapt w m = Some M /\ leastPower w m M.
Proof.
  intros Hw Hm Hb. destruct (rounds_enough 34 w m 0 Hw ltac:(lia)) as [k E].
  { change (2 ^ (0 + Z.of_nat 34 - 1)) with 8589934592. nia. } { lia. }
  destruct (rounds_some _ _ _ _ _ (Z.le_refl 0) E) as (A & B & C). unfold adapt. rewrite E.
  assert (P : w ^ k - 1 < 4294967296).
  { destruct (Z.eq_dec k 0) as [->|N]; [cbn; lia|]. specialize (C ltac:(lia)). replace (w ^ k) with (w * w ^ (k - 1)) by (rewrite <- Z.pow_succ_r by lia; f_equal; lia). nia. }
  rewrite (proj2 (Z.ltb_lt _ _) P). eexists. split; [reflexivity|]. exists k. split; [lia|]. split; [auto|]. split; [lia|].
  intros j Hj. specialize (C ltac:(lia)). assert (w ^ j <= w ^ (k - 1)) by (apply Z.pow_le_mono_r; lia). lia.
Qed.
Lemma adapt_ge w m M : adapt w m = Some M -> m <= M /\ exists i, 0 <= i /\ M + 1 = w ^ i.
Proof.
  unfold adapt. destruct (rounds 34 w m 0) as [k|] eqn:E; [|discriminate]. destruct (rounds_some _ _ _ _ _ (Z.le_refl 0) E) as (A & B & _).
  destruct (Z.ltb_spec (w ^ k - 1) 4294967296); [|discriminate]. intros X. injection X as <-. split; [lia|]. exists k. lia.
Qed.
(** With a width of zero or one (the defaults of the options are one and zero) the loop never ends. *)
Lemma endless w m : (w = 0 \/ w = 1) -> 0 < m -> forall fuel i, 0 <= i -> rounds fuel w m i = None.
Proof.
  intros Hw Hm. induction fuel as [|n IH]; intros i Hi; cbn [rounds]; auto.
  assert (w ^ i <= 1). { destruct Hw; subst; [|rewrite Z.pow_1_l; lia]. destruct (Z.eq_dec i 0) as [->|]; [cbn; lia|]. rewrite Z.pow_0_l; lia. }
  rewrite (proj2 (Z.ltb_lt _ _)) by lia. apply IH. lia.
Qed.
Theorem c59_endless_refuted w m : (w = 0 \/ w = 1) -> 0 < m -> forall fuel, rounds fuel w m 0 = None.
Proof. intros Hw Hm fuel. apply endless; auto; lia. Qed.
(** The Alloy handler does not ask whether grouping was requested: with the default width it never returns. *)
Theorem c59_alloy_default_refuted maxV maxI maxSize maxVoid : 0 < maxSize -> alloyLattice maxV maxI maxSize maxVoid 1 = None /\ forall fuel, rounds fuel 1 maxSize 0 = None.
Proof.
  intros H. assert (E : forall fuel, rounds fuel 1 maxSize 0 = None) by (intros; apply endless; auto; lia). split; auto.
  unfold alloyLattice, adapt. rewrite (E 34%nat). reflexivity.
Qed.

(** *** PSI *)
(** What is asked for: admissible (C58), of species asked for. *)
Definition requested maxHe maxD maxT maxV maxPureV maxI (B : Z -> Z) (c : comp) : Prop :=
  admissible maxHe maxD maxT maxV maxPureV maxI B c /\ (maxHe = 0 -> aHe c = 0) /\ (maxD = 0 -> aD c = 0) /\ (maxT = 0 -> aT c = 0).
Definition onLattice (c : comp) (l : lattice) : Prop := aHe c <= lHe l /\ aD c <= lD l /\ aT c <= lT l /\ aV c <= lV l /\ aI c <= lI l.
Theorem c59_psi_covers_partial maxHe maxD maxT maxV maxPureV maxI gMin wA wB B l c :
  0 <= maxHe -> 0 <= maxD -> 0 <= maxT -> 0 <= maxV -> 0 <= maxPureV -> 0 <= maxI ->
  (forall v, 0 <= v <= maxV -> 0 <= B v <= B maxV) ->
  (0 < maxPureV -> maxHe <= B maxV /\ 3 * maxD <= 2 * B maxV /\ 3 * maxT <= 2 * B maxV) ->
  (maxHe = 0 -> gMin <= maxPureV -> gMin < maxI -> maxD = 0 /\ maxT = 0) ->
  psiLattice maxHe maxD maxT maxV maxPureV maxI gMin wA wB (B maxV) = Some l ->
  requested maxHe maxD maxT maxV maxPureV maxI B c -> onLattice c l.
Proof.
  intros H1 H2 H3 H4 H5 H6 HB Hlim Hdrop. unfold psiLattice.
  set (b := B maxV) in *. assert (Hb : 0 <= b) by (specialize (HB maxV ltac:(lia)); lia).
  assert (H23 : 0 <= 2 * b / 3 /\ forall x, 3 * x <= 2 * b -> x <= 2 * b / 3).
  { split; [apply Z.div_pos; lia|]. intros x Hx. apply Z.div_le_lower_bound; lia. }
  set (q := 2 * b / 3) in *. clearbody q. destruct H23 as [Hq0 Hq].
  destruct (if maxHe <=? 0 then (0, 1) else (b, wA)) as [he wHe] eqn:EHe.
  destruct (if maxD <=? 0 then (0, 1) else (q, wA)) as [d wD] eqn:ED.
  destruct (if maxT <=? 0 then (0, 1) else (q, wA)) as [t wT] eqn:ET.
  destruct (if maxPureV <=? 0 then (maxHe, maxD, maxT) else (he, d, t)) as [[he2 d2] t2] eqn:E2.
  set (G := if maxPureV <? gMin then _ else _). set (I := if maxI <=? gMin then _ else _).
  destruct G as [[[[[he' d'] t'] v'] k]|] eqn:EG; [|discriminate]. destruct I as [i'|] eqn:EI; [|discriminate]. unfold G, I in *. clear G I.
  assert (F : he2 <= he' /\ d2 <= d' /\ t2 <= t' /\ maxPureV <= v' /\ (maxPureV < gMin -> v' = maxPureV)).
  { destruct (Z.ltb_spec maxPureV gMin); [injection EG as <- <- <- <- <-; lia|].
    destruct (adapt wHe he2) eqn:A1; [|discriminate]. destruct (adapt wD d2) eqn:A2; [|discriminate]. destruct (adapt wT t2) eqn:A3; [|discriminate].
    destruct (adapt wB maxPureV) eqn:A4; [|discriminate]. destruct (rounds 34 wB maxPureV 0); [|discriminate]. destruct (rounds 34 wB maxV 0); [|discriminate].
    injection EG as <- <- <- <- <-. apply adapt_ge in A1, A2, A3, A4. lia. }
  assert (FI : maxI <= i' /\ (maxI <= gMin -> i' = maxI)).
  { destruct (Z.leb_spec maxI gMin); [injection EI as <-; lia|]. apply adapt_ge in EI. lia. }
  assert (F2 : forall c, requested maxHe maxD maxT maxV maxPureV maxI B c -> aHe c <= he2 /\ aD c <= d2 /\ aT c <= t2 /\ aV c <= maxPureV /\ aI c <= maxI).
  { clear c. intros c (Ha & R1 & R2 & R3).
    assert (K : maxPureV <= 0 -> he2 = maxHe /\ d2 = maxD /\ t2 = maxT). { intros K. rewrite (proj2 (Z.leb_le _ _) K) in E2. injection E2 as <- <- <-. auto. }
    assert (K1 : 0 < maxPureV -> (maxHe = 0 /\ he2 = 0 \/ 0 < maxHe /\ he2 = b) /\ (maxD = 0 /\ d2 = 0 \/ 0 < maxD /\ d2 = q) /\ (maxT = 0 /\ t2 = 0 \/ 0 < maxT /\ t2 = q)).
    { intros K1. destruct (Z.leb_spec maxPureV 0); [lia|]. injection E2 as <- <- <-.
      destruct (Z.leb_spec maxHe 0), (Z.leb_spec maxD 0), (Z.leb_spec maxT 0); injection EHe as <- <-; injection ED as <- <-; injection ET as <- <-; lia. }
    destruct (Z.eq_dec maxPureV 0) as [Z0|N0].
    - specialize (K ltac:(lia)). inversion Ha; subst; cbn [aHe aD aT aV aI] in *; lia.
    - specialize (K1 ltac:(lia)). specialize (Hlim ltac:(lia)). pose proof (Hq maxD ltac:(lia)). pose proof (Hq maxT ltac:(lia)).
      inversion Ha; subst; cbn [aHe aD aT aV aI] in *; try lia.
      match goal with V : 0 < v <= maxV |- _ => specialize (HB v ltac:(lia)) end.
      pose proof (Hq d0 ltac:(lia)). pose proof (Hq t0 ltac:(lia)). lia. }
  intros E Hr. specialize (F2 c Hr). unfold onLattice.
  destruct ((gMin <? i') && (gMin <=? v') && (maxHe =? 0)) eqn:ED0.
  - injection E as <-. cbn [lHe lD lT lV lI]. rewrite !andb_true_iff, Z.ltb_lt, Z.leb_le, Z.eqb_eq in ED0. destruct ED0 as [[D1 D2] D3].
    destruct Hr as (_ & R1 & R2 & R3).
    assert (gMin <= maxPureV) by lia. assert (gMin < maxI) by lia. destruct Hdrop as [Q1 Q2]; auto. rewrite R1, R2, R3 by auto. lia.
  - injection E as <-. cbn [lHe lD lT lV lI]. lia.
Qed.
(** Pure helium asked for, vacancies asked for only without helium: the lattice has no helium at all. *)
Theorem c59_psi_covers_refuted : exists c l, requested 8 0 0 0 5 6 (fun _ => 0) c /\ psiLattice 8 0 0 0 5 6 2147483647 1 0 0 = Some l /\ ~ onLattice c l.
Proof.
  exists (Comp 1 0 0 0 0), (Lattice 0 0 0 5 6 0). split; [split; [apply adHe; lia|cbn; lia]|]. split; [reflexivity|]. unfold onLattice. cbn. lia.
Qed.
(** Deuterium without helium in a network with grouped vacancies and interstitials: the lattice has no deuterium. *)
Theorem c59_psi_hydrogen_refuted : exists c l, requested 0 1 0 20 20 20 edge7 c /\ psiLattice 0 1 0 20 20 20 10 4 2 98 = Some l /\ ~ onLattice c l.
Proof.
  exists (Comp 0 1 0 0 0), (Lattice 0 0 0 31 31 0). split; [split; [apply adD; lia|cbn; lia]|]. split; [reflexivity|]. unfold onLattice. cbn. lia.
Qed.
(** Fewer vacancies without than with helium: the number of levels inserted wraps to four billion. *)
Theorem c59_psi_levels_refuted : exists l, psiLattice 8 0 0 20 5 6 3 4 2 98 = Some l /\ levels l = 4294967294.
Proof. eexists. split; reflexivity. Qed.
Theorem c59_psi_levels maxHe maxD maxT maxV maxPureV maxI gMin wA wB b l : 2 <= wB -> 0 <= maxV <= maxPureV -> maxPureV < 4294967296 ->
  psiLattice maxHe maxD maxT maxV maxPureV maxI gMin wA wB b = Some l -> 0 <= levels l <= 33.
Proof.
  intros Hw Hv Hp. unfold psiLattice.
  destruct (if maxHe <=? 0 then (0, 1) else (b, wA)) as [he wHe]. destruct (if maxD <=? 0 then (0, 1) else (2 * b / 3, wA)) as [d wD]. destruct (if maxT <=? 0 then (0, 1) else (2 * b / 3, wA)) as [t wT].
  destruct (if maxPureV <=? 0 then (maxHe, maxD, maxT) else (he, d, t)) as [[he2 d2] t2].
  set (G := if maxPureV <? gMin then _ else _). set (I := if maxI <=? gMin then _ else _).
  destruct G as [[[[[he' d'] t'] v'] k]|] eqn:EG; [|discriminate]. destruct I as [i'|] eqn:EI; [|discriminate]. unfold G in EG.
  assert (K : 0 <= k <= 33).
  { destruct (maxPureV <? gMin); [injection EG as <- <- <- <- <-; lia|]. destruct (adapt wHe he2); [|discriminate]. destruct (adapt wD d2); [|discriminate]. destruct (adapt wT t2); [|discriminate].
    destruct (adapt wB maxPureV); [|discriminate]. destruct (rounds 34 wB maxPureV 0) as [i|] eqn:R1; [|discriminate]. destruct (rounds 34 wB maxV 0) as [j|] eqn:R2; [|discriminate].
    injection EG as <- <- <- <- <-. destruct (rounds_some _ _ _ _ _ (Z.le_refl 0) R1) as (A1 & B1 & C1). destruct (rounds_some _ _ _ _ _ (Z.le_refl 0) R2) as (A2 & B2 & C2).
    assert (j <= i). { destruct (Z.le_gt_cases j i); auto. specialize (C2 ltac:(lia)). assert (wB ^ i <= wB ^ (j - 1)) by (apply Z.pow_le_mono_r; lia). lia. }
    assert (i <= 33). { destruct (Z.le_gt_cases i 33); auto. specialize (C1 ltac:(lia)). assert (2 ^ 33 <= wB ^ (i - 1)). { transitivity (2 ^ (i - 1)); [apply Z.pow_le_mono_r; lia|apply Z.pow_le_mono_l; lia]. } change (2 ^ 33) with 8589934592 in *. lia. }
    unfold u32. rewrite Z.mod_small by lia. lia. }
  destruct (_ && _); intros X; injection X as <-; cbn [levels]; lia.
Qed.
Example c59_psi_ok : exists l, psiLattice 8 1 1 7 7 6 3 4 2 (edge7 7) = Some l /\ l = Lattice 63 63 63 7 7 0 /\ requested 8 1 1 7 7 6 edge7 (Comp 20 5 4 5 0).
Proof. exists (Lattice 63 63 63 7 7 0). split; [reflexivity|]. split; [reflexivity|]. split; [apply (proj1 (proj2 c58_psi_ok))|cbn; lia]. Qed.

(** *** The other networks: what is asked for is on the lattice, and every axis can be cut down to single amounts *)
Definition cuttable (a : axis_) : Prop := exists k, 0 <= k /\ fst a + 1 = snd a ^ k.
Definition reaches (c : list Z) (l : list axis_) : Prop := Forall2 (fun x a => x <= fst a) c l.
Lemma cut_one m : cuttable (m, m + 1).
Proof. exists 1. cbn [fst snd]. rewrite Z.pow_1_r. lia. Qed.
Lemma adapt_cut w m M : adapt w m = Some M -> cuttable (M, w).
Proof. intros E. apply adapt_ge in E. destruct E as (_ & i & A & B). exists i. auto. Qed.
Theorem c59_gas maxG maxV maxI gMin wA wB l : gasLattice maxG maxV maxI gMin wA wB = Some l -> reaches [maxG; maxV; maxI] l /\ Forall cuttable l.
Proof.
  unfold gasLattice. destruct (maxV <? gMin).
  - intros X. injection X as <-. split; [repeat constructor; cbn; lia|repeat constructor; apply cut_one].
  - destruct (adapt wA maxG) as [g|] eqn:E1; [|discriminate]. destruct (adapt wB maxV) as [v|] eqn:E2; [|discriminate]. intros X. injection X as <-.
    split; [repeat constructor; cbn; try lia; [apply adapt_ge in E1|apply adapt_ge in E2]; lia|repeat constructor; try apply cut_one; eapply adapt_cut; eauto].
Qed.
Theorem c59_zr maxV maxB maxI : 0 <= maxV < 2147483648 -> 0 <= maxB < 2147483648 -> 0 <= maxI < 2147483648 ->
  exists l, zrLattice maxV maxB maxI = Some l /\ reaches [maxV; maxB; maxI] l /\ Forall cuttable l.
Proof.
  assert (O : forall m, 0 <= m < 2147483648 -> exists a, zrOne m = Some a /\ m <= fst a /\ cuttable a /\ again (zrOne m) = Some a).
  { intros m Hm. unfold zrOne. destruct (Z.ltb_spec 0 m).
    - destruct (c59_adapt 2 m) as (M & E & k & Hk & -> & Hl & Hlast); try lia. rewrite E. exists (2 ^ k - 1, 2). split; [reflexivity|]. split; [auto|].
      split; [exists k; cbn [fst snd]; lia|]. cbn [again].
      assert (2 ^ k <= 4294967296). { destruct (Z.eq_dec k 0) as [->|]; [cbn; lia|]. specialize (Hlast (k - 1) ltac:(lia)). replace (2 ^ k) with (2 * 2 ^ (k - 1)) by (rewrite <- Z.pow_succ_r by lia; f_equal; lia). lia. }
      assert (A : adapt 2 (2 ^ k - 1) = Some (2 ^ k - 1)).
      { unfold adapt. destruct (rounds_enough 34 2 (2 ^ k - 1) 0) as [j Ej]; try lia.
        rewrite Ej. destruct (rounds_some _ _ _ _ _ (Z.le_refl 0) Ej) as (P1 & P2 & P3). assert (j = k) as ->.
        { assert (k <= j). { destruct (Z.le_gt_cases k j); auto. assert (2 ^ j < 2 ^ k) by (apply Z.pow_lt_mono_r; lia). lia. }
          destruct (Z.eq_dec j k); auto. specialize (P3 ltac:(lia)). assert (2 ^ k <= 2 ^ (j - 1)) by (apply Z.pow_le_mono_r; lia). lia. }
        rewrite (proj2 (Z.ltb_lt _ _)) by lia. reflexivity. }
      rewrite A. reflexivity.
    - exists (m, 1). assert (m = 0) by lia. subst. split; [reflexivity|]. split; [cbn; lia|]. split; [exists 0; cbn; lia|reflexivity]. }
  intros HV HB HI. destruct (O _ HV) as (v & _ & V2 & V3 & V4). destruct (O _ HB) as (b & B1 & B2 & B3 & _). destruct (O _ HI) as (i & _ & I2 & I3 & I4).
  unfold zrLattice. rewrite V4, B1, I4. eexists. split; [reflexivity|]. split; repeat constructor; auto.
Qed.
Theorem c59_alloy_partial maxV maxI maxSize maxVoid w l : 0 < maxV -> 0 < maxI -> alloyLattice maxV maxI maxSize maxVoid w = Some l ->
  reaches [maxV; maxVoid; maxSize; maxI; maxSize; maxSize] l /\ Forall cuttable l.
Proof.
  intros HV HI. unfold alloyLattice. destruct (adapt w maxSize) as [s|] eqn:E1; [|discriminate]. destruct (adapt w maxVoid) as [v|] eqn:E2; [|discriminate].
  destruct (Z.eqb_spec maxV 0); [lia|]. destruct (Z.eqb_spec maxI 0); [lia|]. intros X. injection X as <-.
  pose proof (adapt_ge _ _ _ E1) as [G1 _]. pose proof (adapt_ge _ _ _ E2) as [G2 _].
  split; [repeat constructor; cbn; lia|repeat constructor; try apply cut_one; eapply adapt_cut; eauto].
Qed.
(** Without interstitials the axes of their loops have one size. *)
Theorem c59_alloy_no_interstitials maxV maxSize maxVoid w l : 0 < maxV -> alloyLattice maxV 0 maxSize maxVoid w = Some l ->
  reaches [maxV; maxVoid; maxSize; 0; 0; 0] l /\ Forall cuttable l /\ skipn 3 l = [(0, 1); (0, 1); (0, 1)].
Proof.
  intros HV. unfold alloyLattice. destruct (adapt w maxSize) as [s|] eqn:E1; [|discriminate]. destruct (adapt w maxVoid) as [v|] eqn:E2; [|discriminate].
  destruct (Z.eqb_spec maxV 0); [lia|]. cbn [Z.eqb]. intros X. injection X as <-.
  pose proof (adapt_ge _ _ _ E1) as [G1 _]. pose proof (adapt_ge _ _ _ E2) as [G2 _].
  split; [repeat constructor; cbn; lia|]. split; [|reflexivity].
  repeat constructor; try apply (cut_one 0); try apply cut_one; eapply adapt_cut; eauto.
Qed.
Example c59_alloy_no_interstitials_ok : alloyLattice 5 0 100 50 10 = Some [(5, 6); (99, 10); (999, 10); (0, 1); (0, 1); (0, 1)].
Proof. reflexivity. Qed.
Print Assumptions c59_alloy_no_interstitials.
(** Without vacancies the axis of the voids keeps its length but is never cut. *)
Theorem c59_alloy_void_refuted : exists l, alloyLattice 0 10 100 50 10 = Some l /\ ~ Forall cuttable l.
Proof.
  eexists. split; [reflexivity|]. intros X. inversion X as [|a0 l0 _ X2]; subst. inversion X2 as [|a l1 [k [Hk E]] _]; subst. cbn [fst snd] in E. rewrite Z.pow_1_l in E by auto. discriminate.
Qed.
Example c59_alloy_ok : exists l, alloyLattice 5 4 100 50 10 = Some l /\ map fst l = [5; 99; 999; 4; 999; 999].
Proof. eexists. split; reflexivity. Qed.
Example c59_gas_ok : gasLattice 100 30 6 10 4 2 = Some [(255, 4); (31, 2); (6, 7)].
Proof. reflexivity. Qed.
Print Assumptions c59_adapt.
Print Assumptions c59_endless_refuted.
Print Assumptions c59_alloy_default_refuted.
Print Assumptions c59_psi_covers_partial.
Print Assumptions c59_psi_covers_refuted.
Print Assumptions c59_psi_hydrogen_refuted.
Print Assumptions c59_psi_levels.
Print Assumptions c59_psi_levels_refuted.
Print Assumptions c59_gas.
Print Assumptions c59_zr.
Print Assumptions c59_alloy_partial.
Print Assumptions c59_alloy_void_refuted.
