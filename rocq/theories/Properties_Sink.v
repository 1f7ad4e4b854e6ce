(** C65: sinks. *)
From Verif Require Import Partial MobilityModel MobilityProofs SinkModel.
From Verif Require Import Properties_Mobility Properties_Radius.
Open Scope R_scope.

Lemma mobile_iff f : mobile f = true <-> f <> 0.
Proof. unfold mobile. destruct (Req_EM_T f 0); split; intros H; try congruence; reflexivity. Qed.
Lemma immobile f : f = 0 -> mobile f = false.
Proof. intros ->. unfold mobile. destruct (Req_EM_T 0 0); congruence. Qed.
Lemma mobile_pos f : 0 < f -> mobile f = true.
Proof. intros H. apply mobile_iff. lra. Qed.

Lemma iFactor_upper j : (1 <= j)%Z -> psiIFactor j <= 8.8e10.
Proof.
  intros H. apply IZR_le in H. unfold psiIFactor. cbn [nth psiIDiffusion]. apply Rmult_le_reg_r with (IZR j); [lra|]. unfold Rdiv. rewrite Rmult_assoc, Rinv_l by lra. nra.
Qed.
(** ** PSI: every pure interstitial cluster, single or grouped, and the single vacancy; the rate is that of a grain of 50 microns. *)
Definition pureInterstitial (c : comp) : Prop := aHe c = 0%Z /\ aD c = 0%Z /\ aT c = 0%Z /\ aV c = 0%Z /\ (0 < aI c)%Z.
Definition oneVacancy (r : region) : Prop := lo r = Comp 0 0 0 1 0 /\ hi r = Comp 1 1 1 2 1.
Theorem c65_psi_who : forall r, proper r ->
  (pureInterstitial (lo r) \/ oneVacancy r -> psiSinks r = 1%nat) /\ (~ pureInterstitial (lo r) -> ~ oneVacancy r -> psiSinks r = 0%nat).
Proof.
  intros r HP. destruct (c60_psi r HP) as [(e & He & EM & HD)|[EM HD]].
  - unfold psiSinks. rewrite mobile_pos by lra. destruct HP as (HL & HH & _). destruct r as [[h d t v i] [h' d' t' v' i']].
    unfold pureInterstitial, oneVacancy, onI, onV, isSimplex. cbn [lo hi aHe aD aT aV aI] in *. destruct HL as (A1 & A2 & A3 & A4 & A5). unfold amount in *. cbn in A1, A2, A3, A4, A5. split.
    + intros [(-> & -> & -> & -> & Hi)|[E1 E2]].
      * replace (i =? 0)%Z with false by (symmetry; apply Z.eqb_neq; lia). cbn. rewrite !Bool.andb_false_r. reflexivity.
      * injection E1 as -> -> -> -> ->. injection E2 as -> -> -> -> ->. reflexivity.
    + intros N1 N2. destruct (Z.eqb_spec h 0), (Z.eqb_spec d 0), (Z.eqb_spec t 0), (Z.eqb_spec v 0), (Z.eqb_spec i 0); cbn [andb negb count plus]; rewrite ?Bool.andb_false_r, ?Bool.andb_true_r; cbn [andb count plus]; try reflexivity;
        try (exfalso; apply N1; lia).
      destruct (Z.eqb_spec v 1); [|rewrite Bool.andb_false_r; reflexivity]. rewrite Bool.andb_true_r.
      match goal with |- count ?b = _ => destruct b eqn:E end; [|reflexivity]. exfalso. apply N2. rewrite !Bool.andb_true_iff, !Z.eqb_eq in E. split; f_equal; lia.
  - unfold psiSinks. rewrite immobile by exact HD. split; [|reflexivity]. intros H. exfalso. revert HD. unfold psiDiffusion.
    destruct HP as (HL & HH & L1 & L2 & L3 & L4 & L5). destruct r as [[h d t v i] [h' d' t' v' i']]. unfold pureInterstitial, oneVacancy in H. cbn [lo hi aHe aD aT aV aI] in *.
    destruct HL as (A1 & A2 & A3 & A4 & A5). destruct HH as (_ & _ & _ & _ & B5). unfold amount in *. cbn in A5, B5. destruct H as [(-> & -> & -> & -> & Hi)|[E1 E2]].
    + assert (EI : onI (Comp 0 0 0 0 i) = true) by (unfold onI; cbn; replace (i =? 0)%Z with false by (symmetry; apply Z.eqb_neq; lia); reflexivity). rewrite EI.
      destruct (isSimplex _).
      * destruct (Z.ltb_spec i 6); [destruct (iTable i); [lia|lra]|]. pose proof (iFactor_range i ltac:(lia)). lra.
      * intros HD. assert (M : 1 <= mean psiIFactor i i'); [|lra]. apply (mean_bounds psiIFactor i i' 1 8.8e10); [lia|]. intros j Hj. split; [apply iFactor_range; lia|apply iFactor_upper; lia].
    + injection E1 as -> -> -> -> ->. injection E2 as -> -> -> -> ->. cbn. lra.
Qed.
Print Assumptions c65_psi_who.

Theorem c65_psi_rate : forall r T, proper r -> psiSinks r = 1%nat -> 0 < T ->
  let D := coefficient (psiDiffusion r) (psiMigration r) T in
  0 < D /\ psiSinkRate D = D / (PI * (50000 * 50000)).
Proof.
  intros r T HP HS HT. cbv zeta. destruct (c60_psi r HP) as [(e & He & EM & HD)|[_ HD]].
  2: { unfold psiSinks in HS. rewrite immobile in HS by exact HD. discriminate. }
  rewrite EM. unfold coefficient. rewrite updated_large by lra. pose proof (boltzmann_pos e T). split; [nra|].
  unfold psiSinkRate, SmallModel.sinkComputeRate, psiStrength. pose proof PI_RGT_0. replace 50000.0 with 50000 by lra. replace 1.0 with 1 by lra. field. lra.
Qed.
Print Assumptions c65_psi_rate.
Example c65_psi_ok : let r := Region (Comp 0 0 0 0 20) (Comp 1 1 1 1 30) in
  proper r /\ pureInterstitial (lo r) /\ psiSinks r = 1%nat /\ psiSinks (single (Comp 0 0 0 2 0)) = 0%nat /\ psiSinks (single (Comp 3 0 0 0 0)) = 0%nat.
Proof.
  cbv zeta. assert (P : proper (Region (Comp 0 0 0 0 20) (Comp 1 1 1 1 30))) by (unfold proper, amounts, amount; cbn; lia).
  assert (PI : pureInterstitial (lo (Region (Comp 0 0 0 0 20) (Comp 1 1 1 1 30)))) by (unfold pureInterstitial; cbn; lia).
  split; [exact P|]. split; [exact PI|]. split; [apply c65_psi_who; auto|].
  split; apply c65_psi_who; try (unfold proper, amounts, amount; cbn; lia); try (unfold pureInterstitial; cbn; lia); intros [F _]; discriminate F.
Qed.

(** ** Fe: the interstitial and the vacancy clusters up to four. *)
Definition feSinkCluster (r : reg3) : Prop :=
  simplex3 r = true /\ ((ib (rG r) = 0 /\ ib (rV r) = 0 /\ ib (rI r) = 1) \/ (ib (rG r) = 0 /\ 1 <= ib (rV r) <= 4 /\ ib (rI r) = 0))%Z.
Lemma on3_iff x y z : on3 x y z = true <-> (x <> 0 /\ y = 0 /\ z = 0)%Z.
Proof. unfold on3. rewrite !Bool.andb_true_iff, Bool.negb_true_iff, Z.eqb_neq, !Z.eqb_eq. tauto. Qed.
Lemma on3_false x y z : (x = 0 \/ y <> 0 \/ z <> 0)%Z -> on3 x y z = false.
Proof. intros H. apply Bool.not_true_iff_false. rewrite on3_iff. lia. Qed.
Lemma on3_yes x y z : (x <> 0 /\ y = 0 /\ z = 0)%Z -> on3 x y z = true. Proof. apply on3_iff. Qed.
Theorem c65_fe_who : forall r, nonneg3 r -> (feSinkCluster r -> feSinks r = 1%nat) /\ (~ feSinkCluster r -> feSinks r = 0%nat).
Proof.
  intros r HN. unfold feSinks, feSinkCluster. destruct (c60_fe r HN) as [(e & He & EM & HD & HS & HC)|[EM HD]].
  - rewrite mobile_pos, HS by lra. cbn [andb]. destruct HC as [HC|[HC|HC]].
    + rewrite on3_yes by lia. rewrite (on3_false (ib (rV r))) by lia. split; [reflexivity|]. intros N. exfalso. apply N. auto.
    + rewrite !on3_false by lia. split; [|reflexivity]. intros [_ F]. exfalso. lia.
    + rewrite on3_false by lia. rewrite on3_yes by lia. replace (ib (rV r) <? 5)%Z with true by (symmetry; apply Z.ltb_lt; lia). split; [reflexivity|]. intros N. exfalso. apply N. auto.
  - rewrite immobile by exact HD. split; [|reflexivity]. intros [HS HC]. exfalso. revert HD. unfold feDiffusion. rewrite HS. destruct HC as [(E1 & E2 & E3)|(E1 & E2 & E3)]; rewrite E1, E3.
    + rewrite E2. cbn. lra.
    + rewrite !on3_false by lia. rewrite on3_yes by lia. replace (ib (rV r) <? 5)%Z with true by (symmetry; apply Z.ltb_lt; lia).
      assert (C : (ib (rV r) = 1 \/ ib (rV r) = 2 \/ ib (rV r) = 3 \/ ib (rV r) = 4)%Z) by lia. destruct C as [-> |[-> |[-> | ->]]]; apply Rgt_not_eq; table.
Qed.
Print Assumptions c65_fe_who.
(** With the density rho of the dislocations and d the distance of capture, the strength is 4 pi rho / ln (1 / (pi rho d^2)). *)
Definition feDistance (a radius : R) : R := radius + 3 / 4 * sqrt 3 * a.
Definition feArea (a radius : R) : R := PI * 0.0003 * Rsqr (feDistance a radius).
Lemma strength_eq a x : feStrength a x = -4.0 * PI * 0.0003 / ln (feArea a x).
Proof.
  unfold feStrength, feArea, feDistance, Rsqr. replace 3.0 with 3 by lra.
  replace (3 / 4 * sqrt 3 * a) with (a * 0.75 * sqrt 3) by lra. rewrite !Rmult_assoc. reflexivity.
Qed.
Lemma distance_pos a x : 0 < a -> 0 <= x -> 0 < feDistance a x.
Proof. intros Ha Hx. unfold feDistance. pose proof (sqrt_lt_R0 3 ltac:(lra)). assert (0 < 3 / 4 * sqrt 3 * a) by (apply Rmult_lt_0_compat; lra). lra. Qed.
Lemma area_pos a x : 0 < a -> 0 <= x -> 0 < feArea a x.
Proof. intros Ha Hx. pose proof PI_RGT_0. pose proof (distance_pos a x Ha Hx). unfold feArea. apply Rmult_lt_0_compat; [lra|]. unfold Rsqr. nra. Qed.
Theorem c65_fe_strength : forall a x, 0 < a -> 0 <= x -> feArea a x <> 1 ->
  exp (4 * PI * 0.0003 / feStrength a x) * feArea a x = 1 /\ (0 < feStrength a x <-> feArea a x < 1).
Proof.
  intros a x Ha Hx H1. pose proof PI_RGT_0 as HP. pose proof (area_pos a x Ha Hx) as HA. rewrite strength_eq.
  assert (HL : ln (feArea a x) <> 0) by (intros E; apply H1; rewrite <- (exp_ln _ HA), E; apply exp_0). split.
  - replace (4 * PI * 0.0003 / (-4.0 * PI * 0.0003 / ln (feArea a x))) with (- ln (feArea a x)).
    + rewrite exp_Ropp, exp_ln by exact HA. apply Rinv_l. lra.
    + replace (-4.0) with (-4) by lra. replace 0.0003 with (3 / 10000) by lra. field. split; lra.
  - split; intros H.
    + apply Rnot_le_lt. intros F. destruct F as [F|F]; [|lra]. assert (0 < ln (feArea a x)) by (rewrite <- ln_1; apply ln_increasing; lra).
      assert (N : 0 < / ln (feArea a x)) by (apply Rinv_0_lt_compat; assumption). unfold Rdiv in H. nra.
    + assert (L : ln (feArea a x) < 0) by (rewrite <- ln_1; apply ln_increasing; lra). pose proof (Rinv_lt_0_compat _ L). unfold Rdiv. nra.
Qed.
Print Assumptions c65_fe_strength.
(** A larger cluster is captured more easily. *)
Theorem c65_fe_grows : forall a x y, 0 < a -> 0 <= x < y -> feArea a y < 1 -> 0 < feStrength a x < feStrength a y.
Proof.
  intros a x y Ha [Hx Hxy] HY. pose proof PI_RGT_0 as HP. pose proof (area_pos a x Ha Hx) as HA.
  assert (HXY : feArea a x < feArea a y).
  { unfold feArea. apply Rmult_lt_compat_l; [lra|]. pose proof (distance_pos a x Ha Hx). assert (feDistance a x < feDistance a y) by (unfold feDistance; lra). unfold Rsqr. nra. }
  rewrite !strength_eq. pose proof (ln_increasing _ _ HA HXY) as L1. assert (L2 : ln (feArea a y) < 0) by (rewrite <- ln_1; apply ln_increasing; lra).
  assert (E : forall z, -4.0 * PI * 0.0003 / z = 4 * PI * 0.0003 * / - z).
  { intros z. unfold Rdiv. rewrite Rinv_opp. ring_simplify. replace (-4.0) with (-4) by lra. ring. }
  rewrite !E. assert (I : 0 < / - ln (feArea a x) < / - ln (feArea a y)) by (split; [apply Rinv_0_lt_compat; lra|apply Rinv_lt_contravar; nra]).
  split; nra.
Qed.
Print Assumptions c65_fe_grows.
Lemma feRadius_small a imp r : 0 < a -> nonneg3 r -> feSinkCluster r -> 0 < feRadius a imp r <= a.
Proof.
  intros Ha HN [HS HC]. unfold feRadius. rewrite HS. pose proof PI_RGT_0 as HP. pose proof (Rgt_not_eq _ _ HP) as HP0.
  assert (P3 : 3 < PI) by (pose proof PI2_3_2; unfold PI2 in *; lra).
  assert (B : forall n, (1 <= n <= 4)%Z -> 0 < feVRadius a n <= a).
  { intros n [H1 H2]. apply IZR_le in H1, H2. unfold feVRadius. assert (Q1 : 0 < 3 * IZR n / PI) by (apply Rdiv_lt_0_compat; lra).
    assert (Q2 : 3 * IZR n / PI < 8) by (apply Rmult_lt_reg_r with PI; [lra|]; unfold Rdiv; rewrite Rmult_assoc, Rinv_l by lra; lra).
    pose proof (root3_pos _ Q1) as R1. assert (R2 : root3 (3 * IZR n / PI) < 2).
    { apply Rnot_le_lt. intros F. assert (8 <= root3 (3 * IZR n / PI) ^ 3) by (replace 8 with (2 ^ 3) by ring; apply pow_incr; lra). rewrite root3_cube in H by lra. lra. }
    split; nra. }
  destruct HC as [(E1 & E2 & E3)|(E1 & E2 & E3)]; rewrite E1, E3.
  - rewrite E2. cbn [on3 Z.eqb negb andb]. assert (E : a * root3 (3 / PI) * 0.5 = feVRadius a 1) by (unfold feVRadius; rewrite Rmult_1_r; reflexivity). rewrite E. apply B. lia.
  - rewrite !on3_false by lia. apply B. exact E2.
Qed.
Theorem c65_fe_rate : forall a imp r T, 0 < a <= 10 -> nonneg3 r -> feSinks r = 1%nat -> 0 < T ->
  let D := coefficient (feDiffusion r) (feMigration r) T in
  0 < D /\ 0 < feSinkRate a imp r D.
Proof.
  intros a imp r T Ha HN HS HT. cbv zeta. assert (HC : feSinkCluster r).
  { destruct (c65_fe_who r HN) as [_ W]. unfold feSinkCluster in *. destruct (simplex3 r); [|rewrite W in HS; [discriminate|intros [F _]; discriminate]].
    destruct (Z.eq_dec (ib (rG r)) 0), (Z.eq_dec (ib (rV r)) 0), (Z.eq_dec (ib (rI r)) 0), (Z.eq_dec (ib (rI r)) 1), (Z_le_dec 1 (ib (rV r))), (Z_le_dec (ib (rV r)) 4);
      try (split; [reflexivity|lia]); rewrite W in HS by lia; discriminate. }
  assert (HF : feDiffusion r <> 0). { unfold feSinks in HS. destruct (mobile (feDiffusion r)) eqn:E; [apply mobile_iff; exact E|discriminate]. }
  destruct (c60_fe_coefficient r T (T + 1) HN ltac:(lra) HF) as [HD _]. split; [exact HD|].
  destruct (feRadius_small a imp r ltac:(lra) HN HC) as [R1 R2].
  assert (S3 : 0 < sqrt 3 < 1.75) by (split; [apply sqrt_lt_R0; lra|apply Rsqr_incrst_0; [rewrite Rsqr_sqrt by lra; unfold Rsqr; lra|apply sqrt_pos|lra]]).
  assert (A : feArea a (feRadius a imp r) < 1).
  { unfold feArea. pose proof PI_4. pose proof PI_RGT_0. assert (D1 : 0 < feDistance a (feRadius a imp r) <= 24) by (split; [apply distance_pos; lra|unfold feDistance; nra]).
    assert (D2 : Rsqr (feDistance a (feRadius a imp r)) <= 576) by (unfold Rsqr; nra). assert (0 <= Rsqr (feDistance a (feRadius a imp r))) by apply Rle_0_sqr. nra. }
  destruct (c65_fe_strength a (feRadius a imp r) ltac:(lra) ltac:(lra) ltac:(lra)) as [_ W]. apply W in A.
  unfold feSinkRate, SmallModel.sinkComputeRate. apply Rmult_lt_0_compat; [|exact HD]. apply Rmult_lt_0_compat; [|exact A]. unfold feBias. destruct (simplex3 r && _); lra.
Qed.
Print Assumptions c65_fe_rate.
(** At equal mobility the interstitial is absorbed 5 % faster than the vacancy. *)
Theorem c65_fe_bias : forall a imp D, feSinkRate a imp (fe 0 0 1) D = 1.05 * feSinkRate a imp (fe 0 1 0) D.
Proof. intros a imp D. unfold feSinkRate, SmallModel.sinkComputeRate. rewrite c61_fe_interstitial. change (feBias (fe 0 0 1)) with 1.05. change (feBias (fe 0 1 0)) with 1.0. lra. Qed.
Print Assumptions c65_fe_bias.
Example c65_fe_ok : nonneg3 (fe 0 4 0) /\ feSinks (fe 0 4 0) = 1%nat /\ feSinks (fe 0 0 2) = 0%nat /\ feSinks (fe 2 0 0) = 0%nat /\ feArea 0.287 0.2 < 1 /\ 0 < 0.287 <= 10.
Proof.
  split; [unfold nonneg3; cbn; lia|]. split; [apply c65_fe_who; [unfold nonneg3; cbn; lia|split; [reflexivity|cbn; lia]]|].
  split; [apply c65_fe_who; [unfold nonneg3; cbn; lia|intros [_ F]; cbn in F; lia]|]. split; [apply c65_fe_who; [unfold nonneg3; cbn; lia|intros [_ F]; cbn in F; lia]|].
  split; [|lra]. unfold feArea, feDistance. pose proof PI_4. pose proof PI_RGT_0.
  assert (S3 : 0 < sqrt 3 < 1.75) by (split; [apply sqrt_lt_R0; lra|apply Rsqr_incrst_0; [rewrite Rsqr_sqrt by lra; unfold Rsqr; lra|apply sqrt_pos|lra]]).
  assert (D : 0 < 0.2 + 3 / 4 * sqrt 3 * 0.287 < 1) by lra. set (y := 0.2 + 3 / 4 * sqrt 3 * 0.287) in *. clearbody y. assert (0 <= Rsqr y <= 1) by (unfold Rsqr; split; nra). nra.
Qed.

(** ** Alloy *)
Lemma jump_pos a n : 0 < a -> (1 <= n)%Z -> 0 < alloyJump a n.
Proof.
  intros Ha Hn. unfold alloyJump. apply IZR_le in Hn. assert (S2 : 0 < sqrt 2) by (apply sqrt_lt_R0; lra). assert (0 < a / sqrt 2) by (apply Rdiv_lt_0_compat; lra).
  assert (0 < / IZR n) by (apply Rinv_0_lt_compat; lra). apply Rdiv_lt_0_compat; [|lra].
  apply Rmult_lt_0_compat; [|assumption]. apply Rmult_lt_0_compat; [|assumption]. apply Rmult_lt_0_compat; [lra|assumption].
Qed.
Definition alloyPure (k : nat) (n : Z) : list iv := map (fun j => if (j =? k)%nat then Iv n (n + 1) else Iv 0 1) (seq 0 6).
(** Interstitials, vacancies and perfect loops below 70, when they are not grouped; species 0: V, 3: I, 4: Perfect. *)
Theorem c65_alloy_who : forall a k n, 0 < a -> (k < 6)%nat -> (1 <= n)%Z ->
  alloySinks a (alloyPure k n) = (if (k =? 0)%nat || (k =? 3)%nat || ((k =? 4)%nat && (n <? 70)%Z) then 1%nat else 0%nat).
Proof.
  intros a k n Ha Hk Hn. assert (J : 0 < alloyJump a n) by (apply jump_pos; assumption).
  assert (N0 : (n =? 0)%Z = false) by (apply Z.eqb_neq; lia).
  do 6 (destruct k as [|k]; [unfold alloySinks, alloyDiffusion, alloyOn, simplex, alloyPure, axis; cbn [seq map nth forallb ib ie Nat.eqb orb andb negb]; rewrite N0, ?Z.eqb_refl; cbn [negb andb orb Z.eqb Z.add Pos.eqb];
    try (destruct (n <? 70)%Z); rewrite ?(mobile_pos _ J), ?(immobile 0 eq_refl); cbn [count plus]; try reflexivity|]). lia.
Qed.
Print Assumptions c65_alloy_who.
Theorem c65_alloy_rate : forall n D, (1 <= n)%Z ->
  alloySinkRate (alloyPure 0 n) D = 1 / 100000 * D /\ alloySinkRate (alloyPure 4 n) D = 1 / 100000 * D /\
  alloySinkRate (alloyPure 3 n) D = 1.2 * alloySinkRate (alloyPure 0 n) D.
Proof.
  intros n D Hn. assert (N0 : (n =? 0)%Z = false) by (apply Z.eqb_neq; lia).
  unfold alloySinkRate, SmallModel.sinkComputeRate, alloyBias, alloyOn, simplex, alloyPure, axis. cbn [seq map nth forallb ib ie Nat.eqb orb andb negb]. rewrite N0, ?Z.eqb_refl. cbn [negb andb orb Z.eqb Z.add Pos.eqb].
  split; [lra|]. split; lra.
Qed.
Print Assumptions c65_alloy_rate.
(** A group of perfect loops moves, but no sink absorbs it. *)
Theorem c65_alloy_group_refuted : forall a b e, 0 < a -> (1 <= b < 70)%Z -> (b + 1 < e)%Z ->
  let r := [Iv 0 1; Iv 0 1; Iv 0 1; Iv 0 1; Iv b e; Iv 0 1] in
  0 < alloyDiffusion a r /\ alloySinks a r = 0%nat.
Proof.
  intros a b e Ha Hb He. cbv zeta. assert (N0 : (b =? 0)%Z = false) by (apply Z.eqb_neq; lia). assert (L : (b <? 70)%Z = true) by (apply Z.ltb_lt; lia).
  assert (NG : (e =? b + 1)%Z = false) by (apply Z.eqb_neq; lia). split.
  - unfold alloyDiffusion, alloyOn, axis. cbn [seq nth forallb ib ie Nat.eqb orb andb negb]. rewrite N0. cbn. rewrite L. apply jump_pos; [assumption|lia].
  - unfold alloySinks, simplex. cbn [forallb ib ie]. rewrite NG. rewrite !Bool.andb_false_r. cbn. destruct (mobile _); reflexivity.
Qed.
Print Assumptions c65_alloy_group_refuted.
Example c65_alloy_ok : 0 < 0.36 /\ alloySinks 0.36 (alloyPure 4 30) = 1%nat /\ alloySinks 0.36 (alloyPure 5 30) = 0%nat /\
  alloySelect 10 20 100 100 [Iv 0 1; Iv 0 1; Iv 0 1; Iv 0 1; Iv 40 45; Iv 0 1] = true.
Proof. split; [lra|]. split; [rewrite c65_alloy_who; [reflexivity|lra|lia|lia]|]. split; [rewrite c65_alloy_who; [reflexivity|lra|lia|lia]|]. reflexivity. Qed.

(** ** Zr *)
Lemma zr_on k n : (k < 3)%nat -> (1 <= n)%Z ->
  zrOnV (zr k n (n + 1)) = (k =? 0)%nat /\ zrOnB (zr k n (n + 1)) = (k =? 1)%nat /\ zrOnI (zr k n (n + 1)) = (k =? 2)%nat /\ simplex (zr k n (n + 1)) = true /\ ib (axis k (zr k n (n + 1))) = n.
Proof.
  intros Hk Hn. assert (N0 : (n =? 0)%Z = false) by (apply Z.eqb_neq; lia). unfold zrOnV, zrOnB, zrOnI, on3, simplex, zr, axis.
  do 3 (destruct k as [|k]; [cbn [seq map nth forallb ib ie Nat.eqb negb andb]; rewrite N0, ?Z.eqb_refl; cbn; auto|]). lia.
Qed.
Theorem c65_zr_who : forall k n, (k < 3)%nat -> (1 <= n)%Z ->
  zrSinks (zr k n (n + 1)) = (if ((k =? 0)%nat && (n <=? 6)%Z) || ((k =? 2)%nat && (n <=? 3)%Z) then 1%nat else 0%nat).
Proof.
  intros k n Hk Hn. destruct (zr_on k n Hk Hn) as (EV & EB & EI & ES & EN). unfold zrSinks, zrDiffusion. rewrite EV, EI, ES.
  destruct k as [|[|[|k]]]; [| | |lia]; cbn [Nat.eqb andb orb] in *; rewrite ?EN.
  - destruct (n <=? 6)%Z; [rewrite mobile_pos by lra|rewrite immobile by reflexivity]; reflexivity.
  - rewrite immobile by reflexivity. reflexivity.
  - destruct (n <=? 3)%Z; [rewrite mobile_pos by lra|]; [reflexivity|]. destruct (n =? 9)%Z; rewrite immobile by reflexivity; reflexivity.
Qed.
Print Assumptions c65_zr_who.
(** The dislocations of type <a> absorb at the rate of the diffusion in the basal plane, those of type <c> at the rate
    of the geometric mean of both diffusivities. *)
Lemma zr_algebra Da Dc b : 0 < Da -> 0 < Dc ->
  Rpower (Da * Da * Dc) (1 / 3) * b * (zrCSink * Rpower (Dc / Da) (1 / 6) + zrASink / (Rpower (Dc / Da) (1 / 6) * Rpower (Dc / Da) (1 / 6))) =
  b * (2.25e-8 * sqrt (Da * Dc) + 7.25e-8 * Da).
Proof.
  intros Ha Hc. assert (Q : 0 < Dc / Da) by (apply Rdiv_lt_0_compat; assumption). assert (M : 0 < Da * Dc) by (apply Rmult_lt_0_compat; assumption).
  assert (M2 : 0 < Da * Da * Dc) by (apply Rmult_lt_0_compat; [apply Rmult_lt_0_compat|]; assumption).
  assert (LQ : ln (Dc / Da) = ln Dc - ln Da) by (unfold Rdiv; rewrite ln_mult, ln_Rinv by (try apply Rinv_0_lt_compat; assumption); ring).
  assert (LM : ln (Da * Da * Dc) = ln Da + ln Da + ln Dc) by (rewrite !ln_mult by (try apply Rmult_lt_0_compat; assumption); ring).
  set (D := Rpower (Da * Da * Dc) (1 / 3)). set (p := Rpower (Dc / Da) (1 / 6)).
  assert (PP : 0 < p) by apply exp_pos.
  assert (E1 : D * p = sqrt (Da * Dc)).
  { rewrite <- Rpower_sqrt by exact M. unfold D, p, Rpower. rewrite <- exp_plus, LQ, LM, ln_mult by assumption. f_equal. field. }
  assert (E2 : D = Da * (p * p)).
  { unfold D, p, Rpower. rewrite <- exp_plus. rewrite <- (exp_ln Da Ha) at 3. rewrite <- exp_plus, LQ, LM. f_equal. field. }
  transitivity (b * (zrCSink * (D * p) + zrASink * (D / (p * p)))); [field; lra|]. rewrite E1. f_equal. f_equal. unfold zrASink. f_equal. rewrite E2. field. lra.
Qed.
Theorem c65_zr_rate : forall k n T, (k < 3)%nat -> (1 <= n)%Z -> zrSinks (zr k n (n + 1)) = 1%nat -> 0 < T ->
  exists Da Dc, 0 < Da /\ 0 < Dc /\
  zrAlong (if (k =? 2)%nat then zrIDiffusionA else zrVDiffusionA) (if (k =? 2)%nat then zrIMigrationA else zrVMigrationA) n T = Some Da /\
  zrAlong (if (k =? 2)%nat then zrIDiffusionC else zrVDiffusionC) (if (k =? 2)%nat then zrIMigrationC else zrVMigrationC) n T = Some Dc /\
  zrSinkRateAt (zr k n (n + 1)) T = Some ((if (k =? 2)%nat then 1.1 else 1) * (2.25e-8 * sqrt (Da * Dc) + 7.25e-8 * Da)).
Proof.
  intros k n T Hk Hn HS HT. rewrite c65_zr_who in HS by assumption. destruct (zr_on k n Hk Hn) as (EV & EB & EI & ES & EN).
  assert (EM : zrMigration (zr k n (n + 1)) = Fin (-1)).
  { unfold zrMigration. rewrite EV, EI. destruct k as [|[|[|k]]]; [| | |lia]; cbn [Nat.eqb andb orb] in *; rewrite ?EN; try discriminate.
    - rewrite Bool.orb_false_r in HS. destruct (n <=? 6)%Z; [reflexivity|discriminate].
    - destruct (n <=? 3)%Z; [reflexivity|discriminate]. }
  unfold zrSinkRateAt, zrUpdate. rewrite EM. cbv beta iota. destruct (Rlt_dec (-1) 0) as [_|]; [|lra]. rewrite EI, EV.
  destruct k as [|[|[|k]]]; [| | |lia]; cbn [Nat.eqb andb orb] in *; try discriminate.
  - rewrite Bool.orb_false_r in HS. destruct (Z.leb_spec n 6); [|discriminate].
    destruct (along_spec zrVDiffusionA zrVMigrationA n T) as (da & ea & Hd & He & EA); [positive|positive|reflexivity|cbn; lia|exact HT|].
    destruct (along_spec zrVDiffusionC zrVMigrationC n T) as (dc & ec & Hd' & He' & EC); [positive|positive|reflexivity|cbn; lia|exact HT|].
    rewrite EN. rewrite EA, EC. pose proof (boltzmann_pos ea T). pose proof (boltzmann_pos ec T).
    eexists _, _. split; [|split; [|split; [reflexivity|split; [reflexivity|]]]]; [nra|nra|]. f_equal. unfold zrSinkRate. rewrite EV. rewrite zr_algebra by nra. lra.
  - destruct (Z.leb_spec n 3); [|discriminate].
    destruct (along_spec zrIDiffusionA zrIMigrationA n T) as (da & ea & Hd & He & EA); [positive|positive|reflexivity|cbn; lia|exact HT|].
    destruct (along_spec zrIDiffusionC zrIMigrationC n T) as (dc & ec & Hd' & He' & EC); [positive|positive|reflexivity|cbn; lia|exact HT|].
    rewrite EN. rewrite EA, EC. pose proof (boltzmann_pos ea T). pose proof (boltzmann_pos ec T).
    eexists _, _. split; [|split; [|split; [reflexivity|split; [reflexivity|]]]]; [nra|nra|]. f_equal. unfold zrSinkRate. rewrite EV, EI, EN.
    replace (n <? 9)%Z with true by (symmetry; apply Z.ltb_lt; lia). rewrite zr_algebra by nra. reflexivity.
Qed.
Print Assumptions c65_zr_rate.
(** The one-dimensional sink law written for I_9 never applies: I_9 has no diffusion factor. *)
Theorem c65_zr_nine_refuted : zrSelect 20 20 20 (zr 2 9 10) = true /\ zrSinks (zr 2 9 10) = 0%nat /\ forall D p, zrSinkRate (zr 2 9 10) D p = 1.1 * 7.25e-8 * D.
Proof. split; [reflexivity|]. split; [apply (c65_zr_who 2 9); lia|]. intros D p. unfold zrSinkRate. cbn. unfold zrASink. lra. Qed.
Print Assumptions c65_zr_nine_refuted.
Example c65_zr_ok : zrSinks (zr 0 6 7) = 1%nat /\ zrSinks (zr 2 3 4) = 1%nat /\ zrSinks (zr 2 4 5) = 0%nat /\ zrSinks (zr 1 1 2) = 0%nat.
Proof. split; [apply (c65_zr_who 0 6); lia|]. split; [apply (c65_zr_who 2 3); lia|]. split; [apply (c65_zr_who 2 4); lia|apply (c65_zr_who 1 1); lia]. Qed.

(** ** NE *)
Definition neSinkCluster (r : reg3) : Prop :=
  simplex3 r = true /\ ((ib (rG r) = 0 /\ ib (rV r) = 0 /\ 1 <= ib (rI r)) \/ (ib (rG r) = 0 /\ 1 <= ib (rV r) <= 2 /\ ib (rI r) = 0))%Z.
Theorem c65_ne_who : forall f r, nonneg3 r -> (f <> 0 /\ neSinkCluster r -> neSinks f r = 1%nat) /\ (f = 0 \/ ~ neSinkCluster r -> neSinks f r = 0%nat).
Proof.
  intros f r (H1 & H2 & H3). unfold neSinks, neSinkCluster. split.
  - intros [Hf [HS HC]]. rewrite (proj2 (mobile_iff f) Hf), HS. cbn [andb]. destruct HC as [HC|HC].
    + rewrite on3_yes by lia. rewrite (on3_false (ib (rV r))) by lia. reflexivity.
    + rewrite on3_false by lia. rewrite on3_yes by lia. replace (ib (rV r) <? 3)%Z with true by (symmetry; apply Z.ltb_lt; lia). reflexivity.
  - intros [->|N]; [rewrite immobile by reflexivity; reflexivity|]. destruct (mobile f); [|reflexivity]. destruct (simplex3 r); [|reflexivity]. cbn [andb].
    destruct (on3 (ib (rI r)) (ib (rG r)) (ib (rV r))) eqn:E1; [apply on3_iff in E1; exfalso; apply N; split; [reflexivity|lia]|].
    destruct (on3 (ib (rV r)) (ib (rG r)) (ib (rI r))) eqn:E2; [|reflexivity]. apply on3_iff in E2. destruct (Z.ltb_spec (ib (rV r)) 3); [|reflexivity].
    exfalso. apply N. split; [reflexivity|lia].
Qed.
Print Assumptions c65_ne_who.
(** The flux drives the concentration to exp (dG0 / kT) / Omega, and its derivative is the Jacobian entry. *)
Theorem c65_ne_equilibrium : forall r k omega dG0 T c, 0 < k -> 0 < omega ->
  let ceq := exp (dG0 / (kB * T)) / omega in
  (neSinkFlux r k omega dG0 T c = 0 <-> c = ceq) /\ (0 < neSinkFlux r k omega dG0 T c <-> c < ceq) /\
  derivable_pt_lim (neSinkFlux r k omega dG0 T) c (neSinkPartial r k) /\ neSinkPartial r k < 0.
Proof.
  intros r k omega dG0 T c Hk Ho. cbv zeta. set (q := exp (dG0 / (kB * T)) / omega).
  assert (B : 1 <= neBias r) by (unfold neBias; destruct (simplex3 r && _); lra).
  unfold neSinkFlux, neSinkPartial. fold q. set (K := 100.0 * neBias r * k). assert (HK : 0 < K) by (unfold K; apply Rmult_lt_0_compat; lra).
  split; [|split; [|split]].
  - split; intros H; [|rewrite H; ring]. apply Rmult_integral in H. destruct H; lra.
  - split; intros H; [|apply Rmult_lt_0_compat; lra]. apply Rnot_le_lt. intros F. nra.
  - replace (- (k * 100.0 * neBias r)) with (0 * (q - c) + K * (0 - 1)) by (unfold K; lra).
    apply (derivable_pt_lim_mult (fun _ => K) (fun x => q - x) c 0 (0 - 1)); [apply derivable_pt_lim_const|].
    apply (derivable_pt_lim_minus (fun _ => q) (fun x => x) c 0 1); [apply derivable_pt_lim_const|apply derivable_pt_lim_id].
  - apply Ropp_lt_gt_0_contravar. unfold Rgt. replace (k * 100.0 * neBias r) with K by (unfold K; lra). exact HK.
Qed.
Print Assumptions c65_ne_equilibrium.
Theorem c65_ne_bias : forall k omega dG0 T c, neSinkFlux (fe 0 0 1) k omega dG0 T c = 1.1 * neSinkFlux (fe 0 1 0) k omega dG0 T c.
Proof. intros. unfold neSinkFlux. change (neBias (fe 0 0 1)) with 1.1. change (neBias (fe 0 1 0)) with 1.0. lra. Qed.
Print Assumptions c65_ne_bias.
Example c65_ne_ok : nonneg3 (fe 0 2 0) /\ neSinks 5 (fe 0 2 0) = 1%nat /\ neSinks 0 (fe 0 2 0) = 0%nat /\ neSinks 5 (fe 1 0 0) = 0%nat.
Proof.
  split; [unfold nonneg3; cbn; lia|]. split; [apply c65_ne_who; [unfold nonneg3; cbn; lia|split; [lra|split; [reflexivity|cbn; lia]]]|].
  split; apply c65_ne_who; try (unfold nonneg3; cbn; lia); [auto|right; intros [_ F]; cbn in F; lia].
Qed.
