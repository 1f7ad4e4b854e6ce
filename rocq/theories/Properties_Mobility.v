(** C60: which clusters are mobile; their diffusion coefficients. *)
From Verif Require Import MobilityModel MobilityProofs.
Open Scope R_scope.

Ltac table := unfold psiIMigration, psiIDiffusion, psiHeMigration, psiHeDiffusion;
  repeat match goal with |- context[Z.to_nat ?z] => let v := eval compute in (Z.to_nat z) in change (Z.to_nat z) with v end; cbn [nth]; lra.
Lemma iTable n : (1 <= n < 6)%Z -> 0 < nth (Z.to_nat n) psiIMigration 0 /\ 1 <= nth (Z.to_nat n) psiIDiffusion 0.
Proof.
  intros H. assert (C : n = 1%Z \/ n = 2%Z \/ n = 3%Z \/ n = 4%Z \/ n = 5%Z) by lia.
  destruct C as [->|[->|[->|[->| ->]]]]; table.
Qed.
Lemma heTable n : (1 <= n < 8)%Z -> 0 < nth (Z.to_nat n) psiHeMigration 0 /\ 1 <= nth (Z.to_nat n) psiHeDiffusion 0.
Proof.
  intros H. assert (C : n = 1%Z \/ n = 2%Z \/ n = 3%Z \/ n = 4%Z \/ n = 5%Z \/ n = 6%Z \/ n = 7%Z) by lia.
  destruct C as [->|[->|[->|[->|[->|[->| ->]]]]]]; table.
Qed.
(** ** PSI *)
(** Amounts are 32-bit, intervals not empty. *)
Definition amount (x : Z) : Prop := (0 <= x < 4294967296)%Z.
Definition amounts (c : comp) : Prop := amount (aHe c) /\ amount (aD c) /\ amount (aT c) /\ amount (aV c) /\ amount (aI c).
Definition proper (r : region) : Prop :=
  amounts (lo r) /\ amounts (hi r) /\ (aHe (lo r) < aHe (hi r))%Z /\ (aD (lo r) < aD (hi r))%Z /\ (aT (lo r) < aT (hi r))%Z /\
  (aV (lo r) < aV (hi r))%Z /\ (aI (lo r) < aI (hi r))%Z.
Lemma onI_pos c : amounts c -> onI c = true -> (0 < aI c)%Z.
Proof. intros (_ & _ & _ & _ & H) E. unfold onI in E. rewrite !Bool.andb_true_iff, Bool.negb_true_iff in E. destruct E as [_ E]. apply Z.eqb_neq in E. unfold amount in H. lia. Qed.
Lemma onHe_pos c : amounts c -> onHe c = true -> (0 < aHe c)%Z.
Proof.
  intros (H & _) E. unfold onHe in E. rewrite !Bool.andb_true_iff, Bool.negb_true_iff in E. destruct E as [[[[E _] _] _] _].
  apply Z.eqb_neq in E. unfold amount in H. lia.
Qed.
Lemma onV_pos c : amounts c -> onV c = true -> (0 < aV c)%Z.
Proof.
  intros (_ & _ & _ & H & _) E. unfold onV in E. rewrite !Bool.andb_true_iff, Bool.negb_true_iff in E. destruct E as [[_ E] _].
  apply Z.eqb_neq in E. unfold amount in H. lia.
Qed.
Lemma iEnergy_range j : (1 <= j)%Z -> 0.1 <= psiIEnergy j <= 1.5.
Proof. intros H. apply IZR_le in H. unfold psiIEnergy, Rmin. destruct (Rle_dec (IZR j) 15.0); lra. Qed.
Lemma iFactor_range j : (1 <= j < 4294967296)%Z -> 1 <= psiIFactor j.
Proof.
  intros [H1 H2]. apply IZR_le in H1. apply IZR_lt in H2. unfold psiIFactor. cbn [nth psiIDiffusion].
  apply Rmult_le_reg_r with (IZR j); [lra|]. unfold Rdiv. rewrite Rmult_assoc, Rinv_l by lra. lra.
Qed.
(** A finite migration energy and a non-zero diffusion factor go together; the energies are positive. *)
Theorem c60_psi : forall r, proper r ->
  (exists e, 0 < e /\ psiMigration r = Fin e /\ 1 <= psiDiffusion r) \/ (psiMigration r = Inf /\ psiDiffusion r = 0).
Proof.
  intros r (HL & HH & H1 & H2 & H3 & H4 & H5). unfold psiMigration, psiDiffusion. destruct (isSimplex r).
  - destruct (onI (lo r)) eqn:EI.
    { pose proof (onI_pos _ HL EI) as HP. destruct HL as (_ & _ & _ & _ & HL). left. destruct (Z.ltb_spec (aI (lo r)) 6).
      - destruct (iTable (aI (lo r))) as [B1 B2]; [lia|]. eexists. split; [|split; [reflexivity|]]; assumption.
      - eexists. split; [|split; [reflexivity|]]; [pose proof (iEnergy_range (aI (lo r)) ltac:(lia)); lra|apply iFactor_range; unfold amount in HL; lia]. }
    destruct (onHe (lo r)) eqn:EH; cbn [andb].
    { pose proof (onHe_pos _ HL EH) as HP. destruct (Z.ltb_spec (aHe (lo r)) 8).
      - left. destruct (heTable (aHe (lo r))) as [B1 B2]; [lia|]. eexists. split; [|split; [reflexivity|]]; assumption.
      - right. unfold onHe, onD, onT, onV in *. rewrite !Bool.andb_true_iff, Bool.negb_true_iff in EH.
        destruct EH as [[[[E _] _] _] _]. rewrite E. cbn [andb]. auto. }
    destruct (onD (lo r) && (aD (lo r) =? 1)%Z); [left; eexists; split; [|split; [reflexivity|]]; lra|].
    destruct (onT (lo r) && (aT (lo r) =? 1)%Z); [left; eexists; split; [|split; [reflexivity|]]; lra|].
    destruct (onV (lo r)) eqn:EV; cbn [andb]; [|auto]. pose proof (onV_pos _ HL EV) as HP.
    destruct (Z.leb_spec (aV (lo r)) 1), (Z.eqb_spec (aV (lo r)) 1); try lia; [left; eexists; split; [|split; [reflexivity|]]; lra|auto].
  - destruct (onI (lo r)) eqn:EI; [|auto]. pose proof (onI_pos _ HL EI) as HP. left. eexists. split; [|split; [reflexivity|]].
    + destruct (@mean_bounds psiIEnergy (aI (lo r)) (aI (hi r)) 0.1 1.5 H5) as [B _]; [|lra]. intros j Hj. apply iEnergy_range. lia.
    + destruct (@mean_bounds psiIFactor (aI (lo r)) (aI (hi r)) 1 8.8e10 H5) as [B _]; [|lra]. destruct HH as (_ & _ & _ & _ & HH). unfold amount in HH.
      intros j Hj. split; [apply iFactor_range; lia|]. assert (HJ : 1 <= IZR j) by (apply IZR_le; lia). unfold psiIFactor. cbn [nth psiIDiffusion].
      apply Rmult_le_reg_r with (IZR j); [lra|]. unfold Rdiv. rewrite Rmult_assoc, Rinv_l by lra. nra.
Qed.
Print Assumptions c60_psi.
(** The mobile single clusters: I_n, He_1 to He_7, D, T, V. *)
Theorem c60_psi_who : forall c, amounts c -> (psiDiffusion (single c) <> 0 <->
  (exists n, (1 <= n)%Z /\ c = Comp 0 0 0 0 n) \/ (exists n, (1 <= n <= 7)%Z /\ c = Comp n 0 0 0 0) \/
  c = Comp 0 1 0 0 0 \/ c = Comp 0 0 1 0 0 \/ c = Comp 0 0 0 1 0).
Proof.
  intros [he d t v i] HA. pose proof HA as (Ha & Hb & Hc & Hd & He). cbn [aHe aD aT aV aI] in *. unfold amount in *.
  unfold psiDiffusion. assert (ES : isSimplex (single (Comp he d t v i)) = true) by (unfold isSimplex, single; cbn; rewrite !Z.eqb_refl; reflexivity).
  rewrite ES. cbn [lo single]. split.
  - destruct (onI (Comp he d t v i)) eqn:EI.
    { intros _. left. exists i. pose proof (onI_pos _ HA EI) as HP. cbn [aI] in HP. split; [lia|]. unfold onI in EI. cbn in EI.
      rewrite !Bool.andb_true_iff, !Z.eqb_eq in EI. destruct EI as [[[[-> ->] ->] ->] _]. reflexivity. }
    destruct (onHe (Comp he d t v i)) eqn:EH; cbn [andb].
    { pose proof (onHe_pos _ HA EH) as HP. cbn [aHe] in *. unfold onHe in EH. cbn in EH. rewrite !Bool.andb_true_iff, !Z.eqb_eq in EH.
      destruct EH as [[[[E0 ->] ->] ->] ->]. destruct (Z.ltb_spec he 8).
      - intros _. right. left. exists he. split; [lia|reflexivity].
      - unfold onD, onT, onV. cbn. apply Bool.negb_true_iff in E0. rewrite E0. cbn [andb]. intros F. contradiction. }
    destruct (onD (Comp he d t v i)) eqn:ED; cbn [andb aD].
    { unfold onD in ED. cbn in ED. rewrite !Bool.andb_true_iff, !Z.eqb_eq in ED. destruct ED as [[[[-> E0] ->] ->] ->].
      destruct (Z.eqb_spec d 1) as [->|]; [auto|]. unfold onT, onV. cbn. apply Bool.negb_true_iff in E0. rewrite E0. cbn. intros F. contradiction. }
    destruct (onT (Comp he d t v i)) eqn:ET; cbn [andb aT].
    { unfold onT in ET. cbn in ET. rewrite !Bool.andb_true_iff, !Z.eqb_eq in ET. destruct ET as [[[[-> ->] E0] ->] ->].
      destruct (Z.eqb_spec t 1) as [->|]; [auto|]. unfold onV. cbn. apply Bool.negb_true_iff in E0. rewrite E0. cbn. intros F. contradiction. }
    destruct (onV (Comp he d t v i)) eqn:EV; cbn [andb aV]; [|intros F; contradiction].
    unfold onV in EV. cbn in EV. rewrite !Bool.andb_true_iff, !Z.eqb_eq in EV. destruct EV as [[[[-> ->] ->] _] ->].
    destruct (Z.eqb_spec v 1) as [->|]; [auto 10|intros F; contradiction].
  - intros [(n & Hn & H)|[(n & Hn & H)|[H|[H|H]]]]; injection H as -> -> -> -> ->; unfold onI, onHe, onD, onT, onV; cbn [aHe aD aT aV aI Z.eqb Pos.eqb negb andb]; try lra.
    + destruct (Z.eqb_spec n 0); [lia|]. cbn [negb andb]. destruct (Z.ltb_spec n 6).
      * destruct (iTable n); [lia|]. lra.
      * pose proof (iFactor_range n ltac:(lia)). lra.
    + destruct (Z.eqb_spec n 0); [lia|]. cbn [negb andb]. destruct (Z.ltb_spec n 8); [|lia]. destruct (heTable n); [lia|]. lra.
Qed.
Print Assumptions c60_psi_who.
Example c60_psi_ok : proper (single (Comp 3 0 0 0 0)) /\ proper (Region (Comp 0 0 0 0 10) (Comp 1 1 1 1 14)) /\ amounts (Comp 0 0 0 1 0).
Proof. unfold proper, amounts, amount. cbn. repeat split; lia. Qed.

(** At every temperature the coefficient of a mobile cluster is positive, and it grows with the temperature; that of the
    others is 0. *)
Theorem c60_psi_coefficient : forall r, proper r ->
  (psiDiffusion r <> 0 /\ forall T T', 0 < T < T' ->
     0 < coefficient (psiDiffusion r) (psiMigration r) T < coefficient (psiDiffusion r) (psiMigration r) T') \/
  (psiDiffusion r = 0 /\ forall T, coefficient (psiDiffusion r) (psiMigration r) T = 0).
Proof.
  intros r H. destruct (c60_psi r H) as [(e & He & -> & Hf)|[-> ->]].
  - left. split; [lra|]. intros T T' HT. unfold coefficient. rewrite !updated_large by lra.
    pose proof (boltzmann_pos e T). pose proof (boltzmann_lt e T T' He HT). split; nra.
  - right. split; [reflexivity|]. intros T. apply updated_zero.
Qed.
Print Assumptions c60_psi_coefficient.

(** The larger a single interstitial cluster, the slower: at every temperature up to 10000 K. *)
Definition iCluster (n : Z) : region := single (Comp 0 0 0 0 n).
Definition iCoefficient (n : Z) (T : R) : R := coefficient (psiDiffusion (iCluster n)) (psiMigration (iCluster n)) T.
Lemma iCluster_eq n : (1 <= n)%Z -> psiMigration (iCluster n) = Fin (if (n <? 6)%Z then nth (Z.to_nat n) psiIMigration 0 else psiIEnergy n) /\
  psiDiffusion (iCluster n) = (if (n <? 6)%Z then nth (Z.to_nat n) psiIDiffusion 0 else psiIFactor n).
Proof.
  intros H. unfold psiMigration, psiDiffusion, iCluster.
  assert (ES : isSimplex (single (Comp 0 0 0 0 n)) = true) by (unfold isSimplex, single; cbn; rewrite Z.eqb_refl; reflexivity).
  rewrite ES. cbn [lo single aHe aD aT aV aI]. unfold onI. cbn [aHe aD aT aV aI Z.eqb andb]. destruct (Z.eqb_spec n 0); [lia|]. split; reflexivity.
Qed.
Ltac table' := unfold psiIMigration, psiIDiffusion, psiHeMigration, psiHeDiffusion;
  repeat match goal with |- context[Pos.to_nat ?z] => let v := eval compute in (Pos.to_nat z) in change (Pos.to_nat z) with v end; cbn [nth]; first [reflexivity|f_equal; lra|lra].
(** The published parameters: prefactor (nm2/s) and migration energy (eV). *)
Definition parameters (c : comp) (d e : R) : Prop := psiDiffusion (single c) = d /\ psiMigration (single c) = Fin e.
Theorem c60_psi_parameters :
  (parameters (Comp 0 0 0 0 1) 8.8e10 0.01 /\ parameters (Comp 0 0 0 0 2) 8.0e10 0.02 /\ parameters (Comp 0 0 0 0 3) 3.9e10 0.03 /\
   parameters (Comp 0 0 0 0 4) 2.0e10 0.04 /\ parameters (Comp 0 0 0 0 5) 1.0e10 0.05) /\
  (forall n, (6 <= n)%Z -> parameters (Comp 0 0 0 0 n) (8.8e10 / IZR n) (Rmin (IZR n / 10) 1.5)) /\
  (parameters (Comp 1 0 0 0 0) 2.9e10 0.13 /\ parameters (Comp 2 0 0 0 0) 3.2e10 0.20 /\ parameters (Comp 3 0 0 0 0) 2.3e10 0.25 /\
   parameters (Comp 4 0 0 0 0) 1.7e10 0.20 /\ parameters (Comp 5 0 0 0 0) 5e9 0.12 /\ parameters (Comp 6 0 0 0 0) 1e9 0.3 /\
   parameters (Comp 7 0 0 0 0) 5e8 0.4) /\
  parameters (Comp 0 1 0 0 0) 2.83e11 0.38 /\ parameters (Comp 0 0 1 0 0) 2.31e11 0.38 /\ parameters (Comp 0 0 0 1 0) 1.8e12 1.30.
Proof.
  split; [|split; [|split]].
  - unfold parameters, psiDiffusion, psiMigration. repeat split; cbn [single lo hi isSimplex onI onHe onD onT onV aHe aD aT aV aI Z.eqb Pos.eqb Z.add Z.sub Pos.add Pos.succ negb andb Z.ltb Z.leb Z.compare Pos.compare Pos.compare_cont Z.to_nat Pos.to_nat]; rewrite ?Z.eqb_refl; table'.
  - intros n Hn. destruct (iCluster_eq n ltac:(lia)) as [E1 E2]. unfold parameters. fold (iCluster n). rewrite E1, E2.
    destruct (Z.ltb_spec n 6); [lia|]. split; [unfold psiIFactor; cbn [nth psiIDiffusion]; lra|]. f_equal. unfold psiIEnergy, Rmin.
    destruct (Rle_dec (IZR n) 15.0), (Rle_dec (IZR n / 10) 1.5); lra.
  - unfold parameters, psiDiffusion, psiMigration. repeat split; cbn [single lo hi isSimplex onI onHe onD onT onV aHe aD aT aV aI Z.eqb Pos.eqb Z.add Z.sub Pos.add Pos.succ negb andb Z.ltb Z.leb Z.compare Pos.compare Pos.compare_cont Z.to_nat Pos.to_nat]; rewrite ?Z.eqb_refl; table'.
  - unfold parameters, psiDiffusion, psiMigration. repeat split; cbn [single lo hi isSimplex onI onHe onD onT onV aHe aD aT aV aI Z.eqb Pos.eqb Z.add Z.sub Pos.add Pos.succ negb andb Z.ltb Z.leb Z.compare Pos.compare Pos.compare_cont Z.to_nat Pos.to_nat]; rewrite ?Z.eqb_refl; table'.
Qed.
Print Assumptions c60_psi_parameters.
(** A group of interstitials: the means of the laws of the large ones. *)
Theorem c60_psi_group_parameters b e : (0 < b)%Z -> (b + 1 < e)%Z -> let r := Region (Comp 0 0 0 0 b) (Comp 1 1 1 1 e) in
  psiDiffusion r = mean (fun n => 8.8e10 / IZR n) b e /\ psiMigration r = Fin (mean (fun n => Rmin (IZR n / 10) 1.5) b e).
Proof.
  intros Hb He r. assert (ES : isSimplex r = false).
  { unfold isSimplex, r. cbn. destruct (Z.eqb_spec (e - b) 1); [lia|]. rewrite ?Bool.andb_false_r. destruct (Z.eqb_spec e (b + 1)); [lia|]. rewrite ?Bool.andb_false_r. reflexivity. }
  assert (EI : onI (lo r) = true) by (unfold onI, r; cbn; destruct (Z.eqb_spec b 0); [lia|reflexivity]).
  unfold psiDiffusion, psiMigration. rewrite ES, EI. cbn [lo hi r aI]. split; [|f_equal]; apply mean_ext; intros j Hj.
  - unfold psiIFactor. cbn [nth psiIDiffusion]. lra.
  - unfold psiIEnergy, Rmin. destruct (Rle_dec (IZR j) 15.0), (Rle_dec (IZR j / 10) 1.5); lra.
Qed.
Example c60_psi_group_parameters_ok : (0 < 6)%Z /\ (6 + 1 < 9)%Z. Proof. lia. Qed.
Print Assumptions c60_psi_group_parameters.
Lemma arrhenius_lt f e f' e' T : 0 < T -> 0 < f' -> f' <= f -> e < e' -> f' * boltzmann (Fin e') T < f * boltzmann (Fin e) T.
Proof.
  intros HT H1 H2 He. assert (H : boltzmann (Fin e') T < boltzmann (Fin e) T).
  { cbn [boltzmann]. apply exp_increasing. pose proof kB_pos. apply Rmult_lt_compat_r; [|lra].
    apply Rinv_0_lt_compat. apply Rmult_lt_0_compat; lra. }
  pose proof (boltzmann_pos e' T). nra.
Qed.
Lemma iCoefficient_step n T : (1 <= n < 4294967295)%Z -> 0 < T <= 10000 -> iCoefficient (n + 1) T < iCoefficient n T.
Proof.
  intros Hn HT. pose proof kB_pos as HK. unfold iCoefficient, coefficient.
  destruct (iCluster_eq n ltac:(lia)) as [-> ->]. destruct (iCluster_eq (n + 1) ltac:(lia)) as [-> ->].
  destruct (Z.ltb_spec n 6) as [L|L].
  - assert (C : n = 1%Z \/ n = 2%Z \/ n = 3%Z \/ n = 4%Z \/ n = 5%Z) by lia.
    destruct C as [->|[->|[->|[->| ->]]]]; cbn [Z.add Pos.add Pos.succ Z.ltb Z.compare Pos.compare Pos.compare_cont]; unfold psiIMigration, psiIDiffusion;
    repeat match goal with |- context[Z.to_nat ?z] => let v := eval compute in (Z.to_nat z) in change (Z.to_nat z) with v end; cbn [nth];
    try (rewrite !updated_large by lra; apply arrhenius_lt; lra).
    unfold psiIFactor, psiIEnergy. cbn [nth psiIDiffusion]. rewrite Rmin_left by lra. rewrite !updated_large by lra. cbn [boltzmann].
    replace (- (6 * 0.1) / (kB * T)) with (- (0.05) / (kB * T) + - (0.55 / (kB * T))) by (unfold Rdiv; lra). rewrite exp_plus.
    pose proof (exp_pos (- (0.05) / (kB * T))) as P.
    assert (B : 1.6 < exp (0.55 / (kB * T))).
    { assert (Q : 0.62 <= 0.55 / (kB * T)).
      { apply Rmult_le_reg_r with (kB * T); [apply Rmult_lt_0_compat; lra|]. unfold Rdiv. rewrite Rmult_assoc, Rinv_l; [|apply Rmult_integral_contrapositive; lra].
        assert (kB * T <= 0.87) by (apply Rle_trans with (kB * 10000); [apply Rmult_le_compat_l; lra|unfold kB; lra]). lra. }
      pose proof (exp_ineq1 (0.55 / (kB * T)) ltac:(lra)). lra. }
    rewrite (exp_Ropp (0.55 / (kB * T))).
    assert (B' : / exp (0.55 / (kB * T)) < / 1.6) by (apply Rinv_lt_contravar; [nra|exact B]).
    assert (/ exp (0.55 / (kB * T)) < 0.63) by lra. pose proof (Rmult_lt_compat_l _ _ _ P H) as M. lra.
  - destruct (Z.ltb_spec (n + 1) 6); [lia|].
    rewrite !updated_large by (apply Rle_trans with 1; [lra|apply iFactor_range; lia]).
    assert (HF : psiIFactor (n + 1) < psiIFactor n).
    { unfold psiIFactor. cbn [nth psiIDiffusion]. apply IZR_le in L. rewrite plus_IZR. apply Rmult_lt_compat_l; [lra|]. apply Rinv_lt_contravar; nra. }
    assert (HE : psiIEnergy n <= psiIEnergy (n + 1)).
    { unfold psiIEnergy. rewrite plus_IZR. unfold Rmin. destruct (Rle_dec (IZR n) 15.0), (Rle_dec (IZR n + 1) 15.0); lra. }
    pose proof (iFactor_range (n + 1) ltac:(lia)) as HF1.
    destruct HE as [HE|HE].
    + apply arrhenius_lt; lra.
    + rewrite HE. apply Rmult_lt_compat_r; [apply boltzmann_pos|exact HF].
Qed.
Theorem c60_interstitials_slow : forall n m T, (1 <= n < m)%Z -> (m < 4294967296)%Z -> 0 < T <= 10000 -> iCoefficient m T < iCoefficient n T.
Proof.
  intros n m T Hn Hm HT. replace m with (n + 1 + Z.of_nat (Z.to_nat (m - n - 1)))%Z in * by lia.
  remember (Z.to_nat (m - n - 1)) as k. clear Heqk. induction k as [|k IH].
  - rewrite Z.add_0_r. apply iCoefficient_step; [lia|exact HT].
  - apply Rlt_trans with (iCoefficient (n + 1 + Z.of_nat k) T); [|apply IH; lia].
    replace (n + 1 + Z.of_nat (S k))%Z with (n + 1 + Z.of_nat k + 1)%Z by lia. apply iCoefficient_step; [lia|exact HT].
Qed.
Print Assumptions c60_interstitials_slow.
Example c60_interstitials_ok : (1 <= 5 < 6)%Z /\ 0 < 1000 <= 10000 /\ psiDiffusion (iCluster 5) < psiDiffusion (iCluster 6).
Proof.
  split; [lia|]. split; [lra|]. destruct (iCluster_eq 5 ltac:(lia)) as [_ ->]. destruct (iCluster_eq 6 ltac:(lia)) as [_ ->].
  cbn [Z.ltb Z.compare Pos.compare Pos.compare_cont]. unfold psiIFactor. table.
Qed.
(** A group of interstitial clusters from size 6 on moves like its members: energy and factor between those of the smallest
    and the largest. *)
Theorem c60_group_partial : forall r, proper r -> isSimplex r = false -> onI (lo r) = true -> (6 <= aI (lo r))%Z ->
  exists e e0 e1, psiMigration r = Fin e /\ psiMigration (iCluster (aI (lo r))) = Fin e0 /\ psiMigration (iCluster (aI (hi r) - 1)) = Fin e1 /\
  e0 <= e <= e1 /\ psiDiffusion (iCluster (aI (hi r) - 1)) <= psiDiffusion r <= psiDiffusion (iCluster (aI (lo r))).
Proof.
  intros r (HL & HH & H1 & H2 & H3 & H4 & H5) ES EI H6.
  assert (EM : psiMigration r = Fin (mean psiIEnergy (aI (lo r)) (aI (hi r)))) by (unfold psiMigration; rewrite ES, EI; reflexivity).
  assert (ED : psiDiffusion r = mean psiIFactor (aI (lo r)) (aI (hi r))) by (unfold psiDiffusion; rewrite ES, EI; reflexivity). rewrite EM, ED.
  destruct (iCluster_eq (aI (lo r)) ltac:(lia)) as [-> ->]. destruct (iCluster_eq (aI (hi r) - 1) ltac:(lia)) as [-> ->].
  destruct (Z.ltb_spec (aI (lo r)) 6); [lia|]. destruct (Z.ltb_spec (aI (hi r) - 1) 6); [lia|].
  eexists _, _, _. split; [reflexivity|]. split; [reflexivity|]. split; [reflexivity|]. split.
  - apply mean_bounds; [exact H5|]. intros j [J1 J2]. assert (J3 : (j <= aI (hi r) - 1)%Z) by lia. apply IZR_le in J1, J3. unfold psiIEnergy, Rmin.
    destruct (Rle_dec (IZR (aI (lo r))) 15.0), (Rle_dec (IZR j) 15.0), (Rle_dec (IZR (aI (hi r) - 1)) 15.0); lra.
  - apply mean_bounds; [exact H5|]. intros j [J1 J2]. assert (J3 : (j <= aI (hi r) - 1)%Z) by lia. apply IZR_le in J1, J3, H6.
    unfold psiIFactor. cbn [nth psiIDiffusion]. split; (apply Rmult_le_compat_l; [lra|]); apply Rinv_le_contravar; lra.
Qed.
Print Assumptions c60_group_partial.
(** A group of smaller ones does not: the law of the large sizes is used below 6 too. *)
Theorem c60_group_refuted : exists r e, proper r /\ isSimplex r = false /\ onI (lo r) = true /\ psiMigration r = Fin e /\
  forall n e', (aI (lo r) <= n < aI (hi r))%Z -> psiMigration (iCluster n) = Fin e' -> 9 * e' <= e.
Proof.
  exists (Region (Comp 0 0 0 0 4) (Comp 1 1 1 1 6)), (mean psiIEnergy 4 6).
  split; [unfold proper, amounts, amount; cbn; repeat split; lia|]. split; [reflexivity|]. split; [reflexivity|]. split; [reflexivity|].
  cbn [lo hi aI]. intros n e' Hn. destruct (iCluster_eq n ltac:(lia)) as [-> _]. destruct (Z.ltb_spec n 6); [|lia]. intros [= <-].
  assert (E : mean psiIEnergy 4 6 = 0.45).
  { unfold mean. change (zlist 4 (6 - 1)) with [4; 5]%Z. change (6 - 4)%Z with 2%Z. unfold Rsum, psiIEnergy. cbn [map fold_right].
    rewrite !Rmin_left by lra. lra. }
  rewrite E. assert (C : n = 4%Z \/ n = 5%Z) by lia. destruct C as [-> | ->]; table.
Qed.
Print Assumptions c60_group_refuted.

(** ** Fe *)
Definition nonneg3 (r : reg3) : Prop := (0 <= ib (rG r))%Z /\ (0 <= ib (rV r))%Z /\ (0 <= ib (rI r))%Z.
Lemma on3_true x y z : on3 x y z = true -> x <> 0%Z /\ y = 0%Z /\ z = 0%Z.
Proof. unfold on3. rewrite !Bool.andb_true_iff, Bool.negb_true_iff, Z.eqb_neq, !Z.eqb_eq. tauto. Qed.
Theorem c60_fe : forall r, nonneg3 r ->
  (exists e, 0 < e /\ feMigration r = Fin e /\ 1 <= feDiffusion r /\ simplex3 r = true /\
     ((ib (rG r) = 0 /\ ib (rV r) = 0 /\ ib (rI r) = 1) \/ (1 <= ib (rG r) <= 3 /\ ib (rV r) = 0 /\ ib (rI r) = 0) \/
      (ib (rG r) = 0 /\ 1 <= ib (rV r) <= 4 /\ ib (rI r) = 0))%Z) \/
  (feMigration r = Inf /\ feDiffusion r = 0).
Proof.
  intros r (H1 & H2 & H3). unfold feMigration, feDiffusion. destruct (simplex3 r); [|auto].
  destruct (on3 (ib (rI r)) (ib (rG r)) (ib (rV r))) eqn:E1.
  { apply on3_true in E1. destruct (Z.eqb_spec (ib (rI r)) 1); [|auto]. left. eexists. split; [|split; [reflexivity|]]; [lra|]. split; [lra|]. split; [reflexivity|]. lia. }
  destruct (on3 (ib (rG r)) (ib (rV r)) (ib (rI r))) eqn:E2.
  { apply on3_true in E2. destruct (Z.ltb_spec (ib (rG r)) 4); [|auto]. left.
    assert (C : (ib (rG r) = 1 \/ ib (rG r) = 2 \/ ib (rG r) = 3)%Z) by lia.
    eexists. split; [|split; [reflexivity|]]; [|split; [|split; [reflexivity|lia]]]; destruct C as [->|[->| ->]]; table. }
  destruct (on3 (ib (rV r)) (ib (rG r)) (ib (rI r))) eqn:E3; [|auto].
  apply on3_true in E3. destruct (Z.ltb_spec (ib (rV r)) 5); [|auto]. left.
  assert (C : (ib (rV r) = 1 \/ ib (rV r) = 2 \/ ib (rV r) = 3 \/ ib (rV r) = 4)%Z) by lia.
  eexists. split; [|split; [reflexivity|]]; [|split; [|split; [reflexivity|lia]]]; destruct C as [->|[->|[->| ->]]]; table.
Qed.
Print Assumptions c60_fe.
Theorem c60_fe_coefficient : forall r T T', nonneg3 r -> 0 < T < T' -> feDiffusion r <> 0 ->
  0 < coefficient (feDiffusion r) (feMigration r) T < coefficient (feDiffusion r) (feMigration r) T'.
Proof.
  intros r T T' H HT Hf. destruct (c60_fe r H) as [(e & He & -> & Hd & _)|[_ E]]; [|contradiction].
  unfold coefficient. rewrite !updated_large by lra. pose proof (boltzmann_pos e T). pose proof (boltzmann_lt e T T' He HT). split; nra.
Qed.
Print Assumptions c60_fe_coefficient.
(** The published parameters for iron. *)
Definition feParameters (he v i : Z) (d e : R) : Prop :=
  let r := Reg3 (Iv he (he + 1)) (Iv v (v + 1)) (Iv i (i + 1)) in feDiffusion r = d /\ feMigration r = Fin e.
Theorem c60_fe_parameters :
  feParameters 0 0 1 1.0e11 0.34 /\ feParameters 1 0 0 1.0e11 0.06 /\ feParameters 2 0 0 5.0e10 0.06 /\ feParameters 3 0 0 3.3e10 0.06 /\
  feParameters 0 1 0 1.0e11 0.67 /\ feParameters 0 2 0 5.0e10 0.62 /\ feParameters 0 3 0 3.3e10 0.37 /\ feParameters 0 4 0 2.5e10 0.48.
Proof. repeat split; unfold feDiffusion, feMigration; cbn; first [reflexivity|lra|f_equal; lra]. Qed.
Print Assumptions c60_fe_parameters.
Example c60_fe_ok : nonneg3 (Reg3 (Iv 0 1) (Iv 3 4) (Iv 0 1)) /\ feMigration (Reg3 (Iv 0 1) (Iv 3 4) (Iv 0 1)) = Fin 0.37.
Proof. split; [unfold nonneg3; cbn; lia|reflexivity]. Qed.

(** ** Zr *)
Definition nonnegs (r : list iv) : Prop := forall k, (0 <= ib (axis k r))%Z.
(** Who moves, told by the composition: a cluster of one kind only ([pure]); a cluster of two kinds ([mixed]) neither moves nor reacts. *)
Definition pure (n k : nat) (r : list iv) : Prop := (ib (axis k r) <> 0)%Z /\ forall j, (j < n)%nat -> j <> k -> ib (axis j r) = 0%Z.
Definition mixed (n : nat) (r : list iv) : Prop :=
  exists i j, (i < n)%nat /\ (j < n)%nat /\ i <> j /\ (ib (axis i r) <> 0)%Z /\ (ib (axis j r) <> 0)%Z.
Lemma pure_mixed n k r : pure n k r -> ~ mixed n r.
Proof.
  intros [_ P] (i & j & Hi & Hj & Hij & Ni & Nj). destruct (Nat.eq_dec i k) as [->|E]; [|elim Ni; apply P; auto]. elim Nj. apply P; auto.
Qed.
Lemma on3_iff x y z : on3 x y z = true <-> (x <> 0 /\ y = 0 /\ z = 0)%Z.
Proof.
  unfold on3. destruct (Z.eqb_spec x 0), (Z.eqb_spec y 0), (Z.eqb_spec z 0); cbn [negb andb]; split; intros F; try discriminate; try tauto; reflexivity.
Qed.
Lemma zr_pure r : (zrOnV r = true <-> pure 3 0 r) /\ (zrOnB r = true <-> pure 3 1 r) /\ (zrOnI r = true <-> pure 3 2 r).
Proof.
  assert (L : forall j, (j < 3)%nat -> j = 0%nat \/ j = 1%nat \/ j = 2%nat) by lia.
  unfold zrOnV, zrOnB, zrOnI, pure. rewrite !on3_iff. repeat split; try (intros (H0 & H1 & H2)); try tauto; try (intros [H0 H]);
    try (intros j Hj N; destruct (L j Hj) as [->|[->| ->]]; tauto); repeat split; try exact H0; try (apply H0); apply H; lia.
Qed.
Theorem c60_zr_who : forall r, nonnegs r ->
  (zrDiffusion r <> 0 <-> (pure 3 0 r /\ (ib (axis 0 r) <= 6)%Z) \/ (pure 3 2 r /\ (ib (axis 2 r) <= 3)%Z)).
Proof.
  intros r HN. destruct (zr_pure r) as (PV & _ & PI). unfold zrDiffusion. rewrite <- PV, <- PI.
  destruct (zrOnV r), (zrOnI r); cbn [andb]; destruct (Z.leb_spec (ib (axis 0 r)) 6); destruct (Z.leb_spec (ib (axis 2 r)) 3); cbn [andb];
    try (destruct (Z.eqb_spec (ib (axis 2 r)) 9)); split; intros F; try lra; try tauto; try (destruct F as [[? ?]|[? ?]]; first [discriminate|lia]).
Qed.
Print Assumptions c60_zr_who.
Theorem c60_zr_mixed : forall transition r, mixed 3 r -> zrMigration r = Inf /\ zrDiffusion r = 0 /\ zrRadius transition r = 0.
Proof.
  intros tr r M. destruct (zr_pure r) as (PV & PB & PI). unfold zrMigration, zrDiffusion, zrRadius.
  assert (N : forall b k, (b = true <-> pure 3 k r) -> b = false) by (intros b k E; destruct b; [elim (pure_mixed 3 k r); tauto|reflexivity]).
  rewrite (N _ _ PV), (N _ _ PB), (N _ _ PI). cbn. auto.
Qed.
Print Assumptions c60_zr_mixed.
Example c60_zr_mixed_ok : mixed 3 [Iv 2 3; Iv 0 1; Iv 1 2] /\ pure 3 2 [Iv 0 1; Iv 0 1; Iv 2 3] /\ nonnegs [Iv 0 1; Iv 0 1; Iv 2 3].
Proof.
  split; [exists 0%nat, 2%nat; cbn; repeat split; lia|]. split; [|intros k; destruct k as [|[|[|k]]]; cbn; try lia; destruct k; cbn; lia].
  split; [discriminate|]. intros j Hj N. destruct j as [|[|[|j]]]; try reflexivity; lia.
Qed.
Theorem c60_zr_partial : forall r, nonnegs r -> ~ (pure 3 2 r /\ ib (axis 2 r) = 9%Z) ->
  (zrMigration r <> Inf <-> zrDiffusion r <> 0).
Proof.
  intros r HN H9. destruct (zr_pure r) as (_ & _ & PI). unfold zrMigration, zrDiffusion.
  destruct (zrOnV r && (ib (axis 0 r) <=? 6)%Z); [split; [lra|discriminate]|].
  destruct (zrOnI r) eqn:EI; cbn [andb]; [|split; intros F; contradiction].
  destruct (Z.leb_spec (ib (axis 2 r)) 3); [split; [lra|discriminate]|].
  destruct (Z.eqb_spec (ib (axis 2 r)) 9); [exfalso; apply H9; tauto|]. split; intros F; contradiction.
Qed.
Print Assumptions c60_zr_partial.
(** I_9 has a migration energy, but never moves. *)
Theorem c60_zr_refuted : let r := [Iv 0 1; Iv 0 1; Iv 9 10] in
  zrSelect 20 20 20 r = true /\ zrMigration r = Fin 0.10 /\ forall T, 0 < T -> zrCoefficient r T = Some 0.
Proof.
  cbn zeta. split; [reflexivity|]. split; [reflexivity|]. intros T HT. unfold zrCoefficient.
  assert (E : zrDiffusion [Iv 0 1; Iv 0 1; Iv 9 10] = 0) by reflexivity. rewrite E. unfold zrUpdate.
  change (zrMigration [Iv 0 1; Iv 0 1; Iv 9 10]) with (Fin 0.10). cbv beta iota. destruct (Rlt_dec 0.10 0); [lra|]. cbv beta iota. rewrite updated_zero. reflexivity.
Qed.
Print Assumptions c60_zr_refuted.
(** The coefficient is the geometric mean of the diffusivities along a (twice) and c; the tables are read inside their bounds;
    it is positive and grows with the temperature. *)
Lemma along_spec D E n T : (forall k d, nth_error D (S k) = Some d -> 0 < d) -> (forall k e, nth_error E (S k) = Some e -> 0 < e) ->
  length D = length E -> (1 <= n < Z.of_nat (length D))%Z -> 0 < T ->
  exists d e, 0 < d /\ 0 < e /\ zrAlong D E n T = Some (d * boltzmann (Fin e) T).
Proof.
  intros HD HE HL Hn HT. unfold zrAlong. destruct (Z.to_nat n) as [|k] eqn:EK; [lia|].
  destruct (nth_error D (S k)) as [d|] eqn:ED; [|apply nth_error_None in ED; lia].
  destruct (nth_error E (S k)) as [e|] eqn:EE; [|apply nth_error_None in EE; lia].
  exists d, e. split; [eapply HD; eauto|]. split; [eapply HE; eauto|]. do 2 f_equal. cbn [boltzmann]. f_equal. field. pose proof kB_pos. split; lra.
Qed.
Ltac positive := intros k d; do 6 (destruct k as [|k]; [intros [= <-]; lra|]); destruct k; discriminate.
Definition grows (D D' : R) : Prop := 0 < D < D'.
Lemma along_grows D E n T T' : (forall k d, nth_error D (S k) = Some d -> 0 < d) -> (forall k e, nth_error E (S k) = Some e -> 0 < e) ->
  length D = length E -> (1 <= n < Z.of_nat (length D))%Z -> 0 < T < T' ->
  exists x x', zrAlong D E n T = Some x /\ zrAlong D E n T' = Some x' /\ 0 < x < x'.
Proof.
  intros HD HE HL Hn HT. unfold zrAlong. destruct (Z.to_nat n) as [|k] eqn:EK; [lia|].
  destruct (nth_error D (S k)) as [d|] eqn:ED; [|apply nth_error_None in ED; lia].
  destruct (nth_error E (S k)) as [e|] eqn:EE; [|apply nth_error_None in EE; lia].
  eexists _, _. split; [reflexivity|]. split; [reflexivity|]. pose proof (HD _ _ ED) as Hd. pose proof (HE _ _ EE) as He. pose proof kB_pos as HK.
  assert (EQ : forall t, 0 < t -> exp (e * (-1 / (kB * t))) = boltzmann (Fin e) t) by (intros t Ht; cbn [boltzmann]; f_equal; field; split; lra).
  rewrite !EQ by lra. pose proof (boltzmann_pos e T). pose proof (boltzmann_lt e T T' He HT). split; nra.
Qed.
Theorem c60_zr_coefficient : forall r T T', nonnegs r -> zrDiffusion r <> 0 -> 0 < T < T' ->
  exists Da Dc Da' Dc', 0 < Da < Da' /\ 0 < Dc < Dc' /\
  zrCoefficient r T = Some (root3 (Da * Da * Dc)) /\ zrCoefficient r T' = Some (root3 (Da' * Da' * Dc')) /\
  root3 (Da * Da * Dc) < root3 (Da' * Da' * Dc').
Proof.
  intros r T T' HN Hf HT.
  assert (HM : zrMigration r = Fin (-1) /\ zrDiffusion r = 1 /\
               ((zrOnI r = true /\ (1 <= ib (axis 2 r) <= 3)%Z) \/ (zrOnI r = false /\ zrOnV r = true /\ (1 <= ib (axis 0 r) <= 6)%Z))).
  { unfold zrMigration, zrDiffusion in *. destruct (zrOnV r && (ib (axis 0 r) <=? 6)%Z) eqn:E1.
    - split; [reflexivity|]. split; [reflexivity|]. right. apply Bool.andb_true_iff in E1 as [E1 E2]. apply Z.leb_le in E2. pose proof (on3_true _ _ _ E1) as HO. pose proof (HN 0%nat).
      split; [|split; [exact E1|lia]]. unfold zrOnI, on3. destruct HO as (HO & _). apply Z.eqb_neq in HO. rewrite HO, Bool.andb_false_r. reflexivity.
    - destruct (zrOnI r && (ib (axis 2 r) <=? 3)%Z) eqn:E2.
      + split; [reflexivity|]. split; [reflexivity|]. left. apply Bool.andb_true_iff in E2 as [E2 E3]. apply Z.leb_le in E3. pose proof (on3_true _ _ _ E2) as HO. pose proof (HN 2%nat). split; [exact E2|lia].
      + destruct (zrOnI r && (ib (axis 2 r) =? 9)%Z); contradiction. }
  destruct HM as (EM & ED & HC). unfold zrCoefficient, zrUpdate. rewrite EM, ED. cbv beta iota.
  destruct (Rlt_dec (-1) 0) as [_|]; [|lra].
  assert (G : forall D E D' E' n, (forall k d, nth_error D (S k) = Some d -> 0 < d) -> (forall k e, nth_error E (S k) = Some e -> 0 < e) ->
    (forall k d, nth_error D' (S k) = Some d -> 0 < d) -> (forall k e, nth_error E' (S k) = Some e -> 0 < e) ->
    length D = length E -> length D' = length E' -> (1 <= n < Z.of_nat (length D))%Z -> (1 <= n < Z.of_nat (length D'))%Z ->
    exists Da Dc Da' Dc', zrAlong D E n T = Some Da /\ zrAlong D' E' n T = Some Dc /\ zrAlong D E n T' = Some Da' /\ zrAlong D' E' n T' = Some Dc' /\
    0 < Da < Da' /\ 0 < Dc < Dc' /\ 0 < Da * Da * Dc < Da' * Da' * Dc').
  { intros D E D' E' n h1 h2 h3 h4 h5 h6 h7 h8. destruct (along_grows D E n T T' h1 h2 h5 h7 HT) as (x & x' & E1 & E2 & [X1 X2]).
    destruct (along_grows D' E' n T T' h3 h4 h6 h8 HT) as (y & y' & E3 & E4 & [Y1 Y2]). exists x, y, x', y'. repeat split; auto.
    - apply Rmult_lt_0_compat; [apply Rmult_lt_0_compat|]; assumption.
    - apply Rmult_le_0_lt_compat; try lra; [nra|]. apply Rmult_le_0_lt_compat; lra. }
  assert (P : forall x, 0 < x -> Rpower x (1 / 3) = root3 x) by (intros x Hx; unfold root3; destruct (Rlt_dec 0 x); [reflexivity|lra]).
  assert (K : (exists Da Dc Da' Dc', (0 < Da < Da' /\ 0 < Dc < Dc' /\ 0 < Da * Da * Dc < Da' * Da' * Dc') /\
    (if zrOnI r then zrAlong zrIDiffusionA zrIMigrationA (ib (axis 2 r)) T else zrAlong zrVDiffusionA zrVMigrationA (ib (axis 0 r)) T) = Some Da /\
    (if zrOnI r then zrAlong zrIDiffusionC zrIMigrationC (ib (axis 2 r)) T else zrAlong zrVDiffusionC zrVMigrationC (ib (axis 0 r)) T) = Some Dc /\
    (if zrOnI r then zrAlong zrIDiffusionA zrIMigrationA (ib (axis 2 r)) T' else zrAlong zrVDiffusionA zrVMigrationA (ib (axis 0 r)) T') = Some Da' /\
    (if zrOnI r then zrAlong zrIDiffusionC zrIMigrationC (ib (axis 2 r)) T' else zrAlong zrVDiffusionC zrVMigrationC (ib (axis 0 r)) T') = Some Dc') /\
    (zrOnI r = false -> zrOnV r = true)).
  { destruct HC as [[EI HI]|(EI & EV & HV)]; rewrite EI.
    - split; [|discriminate].
      destruct (G zrIDiffusionA zrIMigrationA zrIDiffusionC zrIMigrationC (ib (axis 2 r))) as (Da & Dc & Da' & Dc' & e1 & e2 & e3 & e4 & X); [positive..|reflexivity|reflexivity|cbn; lia|cbn; lia|].
      exists Da, Dc, Da', Dc'. split; [exact X|]. auto.
    - split; [|auto].
      destruct (G zrVDiffusionA zrVMigrationA zrVDiffusionC zrVMigrationC (ib (axis 0 r))) as (Da & Dc & Da' & Dc' & e1 & e2 & e3 & e4 & X); [positive..|reflexivity|reflexivity|cbn; lia|cbn; lia|].
      exists Da, Dc, Da', Dc'. split; [exact X|]. auto. }
  destruct K as [(Da & Dc & Da' & Dc' & (X1 & X2 & X3) & E1 & E2 & E3 & E4) EV]. exists Da, Dc, Da', Dc'. split; [exact X1|]. split; [exact X2|].
  destruct (zrOnI r).
  - rewrite E1, E2, E3, E4. rewrite !updated_large by lra. rewrite !P by lra. split; [reflexivity|]. split; [reflexivity|]. apply root3_lt; lra.
  - rewrite EV by reflexivity. rewrite E1, E2, E3, E4. rewrite !updated_large by lra. rewrite !P by lra. split; [reflexivity|]. split; [reflexivity|]. apply root3_lt; lra.
Qed.
Print Assumptions c60_zr_coefficient.
Example c60_zr_ok : nonnegs [Iv 5 6; Iv 0 1; Iv 0 1] /\ zrDiffusion [Iv 5 6; Iv 0 1; Iv 0 1] = 1.
Proof. split; [|reflexivity]. intros k. destruct k as [|[|[|k]]]; cbn; try lia. destruct k; cbn; lia. Qed.

(** The published parameters of the migrating zirconium clusters: prefactor and energy in the plane and along the axis. *)
Definition arrhenius (d e T : R) : R := d * exp (- e / (kB * T)).
Definition anisotropic (r : list iv) (da ea dc ec : R) : Prop := forall T, 0 < T ->
  let Da := arrhenius da ea T in let Dc := arrhenius dc ec T in
  zrUpdate (zrDiffusion r) r T = Some (root3 (Da * Da * Dc), Some (Rpower (Dc / Da) (1 / 6))).
Lemma anisotropic_of r da ea dc ec (D E D' E' : list R) n : 0 < da -> 0 < dc ->
  nth_error D (Z.to_nat n) = Some da -> nth_error E (Z.to_nat n) = Some ea -> nth_error D' (Z.to_nat n) = Some dc -> nth_error E' (Z.to_nat n) = Some ec ->
  (forall T, zrUpdate (zrDiffusion r) r T = match zrAlong D E n T, zrAlong D' E' n T with Some Da, Some Dc => Some (Rpower (Da * Da * Dc) (1 / 3), Some (Rpower (Dc / Da) (1 / 6))) | _, _ => None end) ->
  anisotropic r da ea dc ec.
Proof.
  intros H1 H2 E1 E2 E3 E4 HU T HT Da Dc. rewrite HU. unfold zrAlong. rewrite E1, E2, E3, E4.
  pose proof kB_pos as HK.
  replace (da * exp (ea * (-1 / (kB * T)))) with Da by (unfold Da, arrhenius; f_equal; f_equal; field; split; lra).
  replace (dc * exp (ec * (-1 / (kB * T)))) with Dc by (unfold Dc, arrhenius; f_equal; f_equal; field; split; lra).
  assert (0 < Da) by (apply Rmult_lt_0_compat; [exact H1|apply exp_pos]). assert (0 < Dc) by (apply Rmult_lt_0_compat; [exact H2|apply exp_pos]).
  unfold root3. destruct (Rlt_dec 0 (Da * Da * Dc)) as [|N]; [reflexivity|elim N; apply Rmult_lt_0_compat; [apply Rmult_lt_0_compat|]; assumption].
Qed.
Theorem c60_zr_parameters r :
  (pure 3 0 r -> (ib (axis 0 r) = 1%Z -> anisotropic r 1.6e12 0.59 2.2e12 0.67) /\ (ib (axis 0 r) = 2%Z -> anisotropic r 2.7e12 0.58 2.3e11 0.41) /\
     (ib (axis 0 r) = 3%Z -> anisotropic r 4.9e13 0.94 1.27e15 1.12) /\ (ib (axis 0 r) = 4%Z -> anisotropic r 2.5e10 0.16 4.5e11 0.58) /\
     (ib (axis 0 r) = 5%Z -> anisotropic r 2e13 0.81 5.7e11 0.29) /\ (ib (axis 0 r) = 6%Z -> anisotropic r 3.2e10 0.25 9.1e9 0.18)) /\
  (pure 3 2 r -> (ib (axis 2 r) = 1%Z -> anisotropic r 2.4e11 0.17 6.8e11 0.30) /\ (ib (axis 2 r) = 2%Z -> anisotropic r 3.2e11 0.23 2.6e12 0.54) /\
     (ib (axis 2 r) = 3%Z -> anisotropic r 4.9e12 0.49 6.8e13 0.93)).
Proof.
  destruct (zr_pure r) as (PV & _ & PI). split; intros HP.
  - assert (EI : zrOnI r = false) by (destruct (zrOnI r) eqn:E; [|reflexivity]; unfold zrOnI in E; apply on3_iff in E as (_ & E & _); destruct HP as [HP _]; contradiction).
    apply PV in HP. repeat split; intros EN;
    (eapply (anisotropic_of r _ _ _ _ zrVDiffusionA zrVMigrationA zrVDiffusionC zrVMigrationC (ib (axis 0 r)));
     [lra|lra|rewrite EN; reflexivity..|intros T; unfold zrUpdate, zrMigration; rewrite HP, EI, EN; cbn [Z.leb Z.compare Pos.compare Pos.compare_cont andb]; destruct (Rlt_dec (-1) 0); [reflexivity|lra]]).
  - assert (EV : zrOnV r = false) by (destruct (zrOnV r) eqn:E; [|reflexivity]; unfold zrOnV in E; apply on3_iff in E as (_ & _ & E); destruct HP as [HP _]; contradiction).
    apply PI in HP. repeat split; intros EN;
    (eapply (anisotropic_of r _ _ _ _ zrIDiffusionA zrIMigrationA zrIDiffusionC zrIMigrationC (ib (axis 2 r)));
     [lra|lra|rewrite EN; reflexivity..|intros T; unfold zrUpdate, zrMigration; rewrite HP, EV, EN; cbn [Z.leb Z.compare Pos.compare Pos.compare_cont andb]; destruct (Rlt_dec (-1) 0); [reflexivity|lra]]).
Qed.
Print Assumptions c60_zr_parameters.
Example c60_zr_parameters_ok : anisotropic [Iv 0 1; Iv 0 1; Iv 2 3] 3.2e11 0.23 2.6e12 0.54.
Proof. apply c60_zr_parameters; [|reflexivity]. apply (proj2 c60_zr_mixed_ok). Qed.

(** ** Alloy *)
Lemma alloy_pure k r : alloyOn k r = true <-> pure 6 k r.
Proof.
  unfold alloyOn, pure. rewrite Bool.andb_true_iff, forallb_forall, Bool.negb_true_iff, Z.eqb_neq. split; intros [H P]; (split; [exact H|]).
  - intros j Hj N. specialize (P j). rewrite in_seq in P. specialize (P ltac:(lia)). apply Bool.orb_true_iff in P as [P|P]; [apply Nat.eqb_eq in P; contradiction|apply Z.eqb_eq in P; exact P].
  - intros j Hj. apply in_seq in Hj. apply Bool.orb_true_iff. destruct (Nat.eq_dec j k) as [->|N]; [left; apply Nat.eqb_refl|right; apply Z.eqb_eq, P; [lia|exact N]].
Qed.
Theorem c60_alloy_partial : forall a r, 0 < a -> nonnegs r -> ~ (pure 6 4 r /\ (70 <= ib (axis 4 r))%Z) ->
  (exists e, 0 < e /\ alloyMigration r = Fin e /\ 0 < alloyDiffusion a r) \/ (alloyMigration r = Inf /\ alloyDiffusion a r = 0).
Proof.
  intros a r Ha HN H. rewrite <- alloy_pure in H. unfold alloyMigration, alloyDiffusion.
  assert (J : forall n, (n <> 0)%Z -> (0 <= n)%Z -> 0 < alloyJump a n).
  { intros n Hn Hp. assert (0 < IZR n) by (apply IZR_lt; lia). assert (S2 : 0 < sqrt 2) by (apply sqrt_lt_R0; lra).
    assert (0 < a / sqrt 2) by (apply Rdiv_lt_0_compat; lra). unfold alloyJump. apply Rdiv_lt_0_compat; [|lra].
    pose proof (Rinv_0_lt_compat _ H0).
    apply Rmult_lt_0_compat; [|assumption]. apply Rmult_lt_0_compat; [|assumption]. apply Rmult_lt_0_compat; [lra|assumption]. }
  assert (O : forall k, alloyOn k r = true -> (ib (axis k r) <> 0)%Z).
  { intros k E. unfold alloyOn in E. apply Bool.andb_true_iff in E as [E _]. apply Bool.negb_true_iff, Z.eqb_neq in E. exact E. }
  destruct (alloyOn 4 r) eqn:E4.
  { destruct (Z.ltb_spec (ib (axis 4 r)) 70); [|exfalso; apply H; auto]. left. exists 0.5. split; [lra|]. split; [reflexivity|]. apply J; auto. }
  destruct (alloyOn 0 r) eqn:E0; [left; exists 1.3; split; [lra|]; split; [reflexivity|]; apply J; auto|].
  destruct (alloyOn 3 r) eqn:E3; [left; exists 0.5; split; [lra|]; split; [reflexivity|]; apply J; auto|]. auto.
Qed.
Print Assumptions c60_alloy_partial.
(** Jumps to the nearest neighbours, at a distance of a / sqrt 2, with 9.6e12 / n attempts a second. *)
Theorem c60_alloy_parameters : forall a r, nonnegs r -> 0 < a ->
  (pure 6 0 r -> alloyDiffusion a r = 9.6e12 * (a * a / 2) / (6 * IZR (ib (axis 0 r))) /\ alloyMigration r = Fin 1.3) /\
  (pure 6 3 r -> alloyDiffusion a r = 9.6e12 * (a * a / 2) / (6 * IZR (ib (axis 3 r))) /\ alloyMigration r = Fin 0.5) /\
  (pure 6 4 r -> (ib (axis 4 r) < 70)%Z -> alloyDiffusion a r = 9.6e12 * (a * a / 2) / (6 * IZR (ib (axis 4 r))) /\ alloyMigration r = Fin 0.5).
Proof.
  intros a r HN Ha.
  assert (J : forall n, (n <> 0)%Z -> alloyJump a n = 9.6e12 * (a * a / 2) / (6 * IZR n)).
  { intros n Hn. assert (IZR n <> 0) by (apply not_0_IZR; exact Hn). assert (0 < sqrt 2) by (apply sqrt_lt_R0; lra). unfold alloyJump.
    replace (a * a / 2) with (a / sqrt 2 * (a / sqrt 2)) by (replace 2 with (sqrt 2 * sqrt 2) at 3 by (apply sqrt_sqrt; lra); field; lra).
    unfold Rdiv. rewrite Rinv_mult. lra. }
  assert (X : forall k j, (k < 6)%nat -> k <> j -> pure 6 k r -> alloyOn j r = false).
  { intros k j Hk N [HP _]. destruct (alloyOn j r) eqn:E; [|reflexivity]. apply alloy_pure in E. destruct E as [_ E]. elim HP. apply E; auto. }
  unfold alloyDiffusion, alloyMigration. split; [|split].
  - intros HP. rewrite (X 0%nat 4%nat) by (try lia; exact HP). pose proof (proj2 (alloy_pure 0 r) HP) as E. rewrite E. rewrite J by apply HP. auto.
  - intros HP. rewrite (X 3%nat 4%nat), (X 3%nat 0%nat) by (try lia; exact HP). pose proof (proj2 (alloy_pure 3 r) HP) as E. rewrite E. rewrite J by apply HP. auto.
  - intros HP H7. pose proof (proj2 (alloy_pure 4 r) HP) as E. rewrite E. destruct (Z.ltb_spec (ib (axis 4 r)) 70); [|lia]. rewrite J by apply HP. auto.
Qed.
Print Assumptions c60_alloy_parameters.
Theorem c60_alloy_who : forall a r, 0 < a -> nonnegs r ->
  (alloyDiffusion a r <> 0 <-> pure 6 0 r \/ pure 6 3 r \/ (pure 6 4 r /\ (ib (axis 4 r) < 70)%Z)).
Proof.
  intros a r Ha HN. rewrite <- !alloy_pure. destruct (alloyOn 4 r) eqn:E4.
  - assert (E0 : alloyOn 0 r = false). { destruct (alloyOn 0 r) eqn:E; [|reflexivity]. apply alloy_pure in E, E4. destruct E as [E _], E4 as [_ E4]. elim E. apply E4; lia. }
    assert (E3 : alloyOn 3 r = false). { destruct (alloyOn 3 r) eqn:E; [|reflexivity]. apply alloy_pure in E, E4. destruct E as [E _], E4 as [_ E4]. elim E. apply E4; lia. }
    rewrite E0, E3. destruct (Z.lt_ge_cases (ib (axis 4 r)) 70) as [L|L].
    + destruct (c60_alloy_partial a r Ha HN) as [(e & _ & _ & D)|[M D]]; [lia| |].
      * split; [tauto|lra].
      * exfalso. unfold alloyMigration in M. rewrite E4 in M. discriminate.
    + unfold alloyDiffusion. rewrite E4. destruct (Z.ltb_spec (ib (axis 4 r)) 70); [lia|]. split; [lra|]. intros [F|[F|[_ F]]]; [discriminate|discriminate|lia].
  - destruct (c60_alloy_partial a r Ha HN) as [(e & _ & M & D)|[M D]]; [rewrite <- alloy_pure, E4; intros [F _]; discriminate| |]; unfold alloyMigration in M; rewrite E4 in M;
      destruct (alloyOn 0 r), (alloyOn 3 r); try discriminate; (split; [tauto|]); try (intros; lra); intros [F|[F|[F _]]]; discriminate.
Qed.
Print Assumptions c60_alloy_who.
Theorem c60_alloy_mixed : forall a r, mixed 6 r -> alloyMigration r = Inf /\ alloyDiffusion a r = 0 /\ alloyRadius a r = 0.
Proof.
  intros a r M. assert (N : forall k, alloyOn k r = false) by (intros k; destruct (alloyOn k r) eqn:E; [apply alloy_pure in E; elim (pure_mixed 6 k r E M)|reflexivity]).
  unfold alloyMigration, alloyDiffusion, alloyRadius. rewrite !N. auto.
Qed.
Print Assumptions c60_alloy_mixed.
Example c60_alloy_mixed_ok : mixed 6 [Iv 1 2; Iv 0 1; Iv 0 1; Iv 0 1; Iv 3 4; Iv 0 1] /\ pure 6 4 [Iv 0 1; Iv 0 1; Iv 0 1; Iv 0 1; Iv 3 4; Iv 0 1].
Proof.
  split; [exists 0%nat, 4%nat; cbn; repeat split; lia|]. split; [discriminate|]. intros j Hj N. destruct j as [|[|[|[|[|[|j]]]]]]; try reflexivity; lia.
Qed.
(** A perfect loop of 70 or more has a migration energy, but never moves. *)
Theorem c60_alloy_refuted : forall a n T, (70 <= n)%Z -> let r := [Iv 0 1; Iv 0 1; Iv 0 1; Iv 0 1; Iv n (n + 1); Iv 0 1] in
  alloyMigration r = Fin 0.5 /\ coefficient (alloyDiffusion a r) (alloyMigration r) T = 0.
Proof.
  intros a n T Hn r. assert (E4 : alloyOn 4 r = true) by (unfold alloyOn; cbn; destruct (Z.eqb_spec n 0); [lia|reflexivity]).
  unfold alloyMigration, alloyDiffusion. rewrite E4. split; [reflexivity|]. change (axis 4 r) with (Iv n (n + 1)). cbn [ib]. destruct (Z.ltb_spec n 70); [lia|].
  unfold coefficient. apply updated_zero.
Qed.
Print Assumptions c60_alloy_refuted.
Example c60_alloy_ok : alloySelect 10 10 100 100 [Iv 0 1; Iv 0 1; Iv 0 1; Iv 0 1; Iv 80 81; Iv 0 1] = true /\
  alloyDiffusion 1 [Iv 2 3; Iv 0 1; Iv 0 1; Iv 0 1; Iv 0 1; Iv 0 1] = alloyJump 1 2.
Proof. split; reflexivity. Qed.

(** ** NE: a diffusivity given in the file (migration energy 0) is used as it is; otherwise the clusters do not move. *)
Theorem c60_ne : forall D T, 0 < T -> / 4503599627370496 <= D -> neCoefficient D (Fin 0) T = D.
Proof. intros D T HT HD. unfold neCoefficient. rewrite updated_large by exact HD. destruct (Rlt_dec 0 0); [lra|reflexivity]. Qed.
Theorem c60_ne_immobile : forall T, neCoefficient 0 Inf T = 0. Proof. intros T. apply updated_zero. Qed.
(** A diffusivity below 2^-52 nm^2/s is taken for 0. *)
Theorem c60_ne_small_refuted : forall D T, 0 < D < / 4503599627370496 -> neCoefficient D (Fin 0) T = 0.
Proof. intros D T HD. unfold neCoefficient, updated. rewrite Rabs_left1 by lra. destruct (Rlt_dec (- (0 - D)) (/ 4503599627370496)); [reflexivity|lra]. Qed.
Example c60_ne_ok : / 4503599627370496 <= 1. Proof. lra. Qed.
Print Assumptions c60_ne.
Print Assumptions c60_ne_immobile.
Print Assumptions c60_ne_small_refuted.
