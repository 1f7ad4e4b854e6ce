(** C39 (the helium-per-vacancy bound), C45 (dissociation rates) and C54 (binding energy tables). *)
From Coq Require Import Reals List ZArith Lia Lra Bool.
From Verif Require Import EnergyModel.
Import ListNotations.
Open Scope R_scope.

(** *** C39 *)
Lemma some_inj (A : Type) (x y : A) : Some x = Some y -> x = y. Proof. congruence. Qed.
Lemma table_step : forall n m, (n <= m)%nat -> (m < 30)%nat -> (nth n maxHePerV 0 <= nth m maxHePerV 0)%Z.
Proof.
  assert (H : forall m, (S m < 30)%nat -> (nth m maxHePerV 0 <= nth (S m) maxHePerV 0)%Z).
  { intros m Hm. do 29 (destruct m as [|m]; [cbn; lia|]). lia. }
  intros n m Hnm. induction Hnm as [|m Hnm IH]; intros Hm; [lia|]. specialize (H m Hm). specialize (IH ltac:(lia)). lia.
Qed.
Lemma toAmount_mono x y a b : x <= y -> toAmount x = Some a -> toAmount y = Some b -> (a <= b)%Z.
Proof.
  unfold toAmount. intros H. destruct (Rle_dec x (-1)); [discriminate|]. destruct (Rlt_dec x _); [|discriminate].
  destruct (Rle_dec y (-1)); [discriminate|]. destruct (Rlt_dec y _); [|discriminate]. intros E1 E2. apply some_inj in E1, E2; subst.
  assert (Int_part x <= Int_part y)%Z; [|lia]. destruct (base_Int_part x) as [A B], (base_Int_part y) as [C D].
  assert (IZR (Int_part x) < IZR (Int_part y + 1)) by (rewrite plus_IZR; lra). apply lt_IZR in H0. lia.
Qed.
Lemma toAmount_nonpos x a : x <= 0 -> toAmount x = Some a -> a = 0%Z.
Proof.
  unfold toAmount. intros H. destruct (Rle_dec x (-1)); [discriminate|]. destruct (Rlt_dec x _); [|discriminate]. intros E. apply some_inj in E; subst.
  destruct (base_Int_part x) as [A B]. assert (IZR (Int_part x) < IZR 1) by lra. apply lt_IZR in H0. lia.
Qed.
Lemma toAmount_nonneg x a : toAmount x = Some a -> (0 <= a)%Z.
Proof. unfold toAmount. destruct (Rle_dec x (-1)); [discriminate|]. destruct (Rlt_dec x _); [|discriminate]. intros E. apply some_inj in E; subst. lia. Qed.
Lemma u32_small x : (0 <= x < 4294967296)%Z -> u32 x = x.
Proof. intros H. unfold u32. apply Z.mod_small. auto. Qed.
(** Non-decreasing in the vacancy number, across the end of the table too, while v + 87 fits into
    32 bits. *)
Theorem c39_monotone v v' ratio h h' : (0 <= v <= v')%Z -> (v' + 87 < 4294967296)%Z ->
  getMaxHePerV v ratio = Some h -> getMaxHePerV v' ratio = Some h' -> (h <= h')%Z.
Proof.
  intros Hv Hw. unfold getMaxHePerV. change (nth 29 maxHePerV 0)%Z with 116%Z. destruct (Z.ltb_spec v 30), (Z.ltb_spec v' 30); try lia.
  - intros E1 E2. apply some_inj in E1, E2; subst. apply table_step; lia.
  - destruct (toAmount (ratio * IZR v')) as [a|]; [|discriminate]. intros E1 E2. apply some_inj in E1, E2; subst.
    rewrite u32_small by lia. pose proof (table_step (Z.to_nat v) 29 ltac:(lia) ltac:(lia)) as T. change (nth 29 maxHePerV 0)%Z with 116%Z in T. lia.
  - destruct (toAmount (ratio * IZR v)) as [a|] eqn:Ea; [|discriminate]. destruct (toAmount (ratio * IZR v')) as [b|] eqn:Eb; [|discriminate].
    intros E1 E2. apply some_inj in E1, E2; subst. rewrite !u32_small by lia.
    assert (IZR v <= IZR v') by (apply IZR_le; lia). assert (0 <= IZR v) by (apply IZR_le; lia).
    destruct (Rle_dec 0 ratio) as [Hr|Hr].
    + pose proof (toAmount_mono (ratio * IZR v) (ratio * IZR v') a b (Rmult_le_compat_l _ _ _ Hr H1) Ea Eb). lia.
    + assert (ratio * IZR v <= 0) by nra. rewrite (toAmount_nonpos _ _ H3 Ea). pose proof (toAmount_nonneg _ _ Eb). lia.
Qed.
Theorem c39_defined v ratio : (0 <= v)%Z -> 0 <= ratio -> ratio * IZR v < 4294967296 -> exists h, getMaxHePerV v ratio = Some h /\ (0 <= h)%Z.
Proof.
  intros Hv Hr Hw. unfold getMaxHePerV. assert (0 <= IZR v) by (apply IZR_le; lia). assert (0 <= ratio * IZR v) by nra. destruct (Z.ltb_spec v 30).
  - eexists. split; [reflexivity|]. apply (table_step 0 (Z.to_nat v)); lia.
  - unfold toAmount. destruct (Rle_dec _ (-1)); [lra|]. destruct (Rlt_dec _ _); [|lra]. eexists. split; [reflexivity|]. lia.
Qed.
(** Above the table the bound is at least the whole part of ratio * v ... *)
Theorem c39_ratio_above v ratio h : (30 <= v)%Z -> getMaxHePerV v ratio = Some h -> ratio * IZR v < IZR h + 1.
Proof.
  intros Hv. unfold getMaxHePerV. destruct (Z.ltb_spec v 30); [lia|]. destruct (toAmount _) as [a|] eqn:E; [|discriminate]. intros E'. apply some_inj in E'; subst.
  unfold toAmount in E. destruct (Rle_dec _ _); [discriminate|]. destruct (Rlt_dec _ _); [|discriminate]. apply some_inj in E; subst.
  destruct (base_Int_part (ratio * IZR v)) as [A B].
  match goal with |- _ < IZR ?m + 1 => assert (IZR (Int_part (ratio * IZR v)) <= IZR m) by (apply IZR_le; lia) end. lra.
Qed.
(** ... and within the table for ratios up to 4 (the default). *)
Theorem c39_ratio_partial v ratio h : (0 <= v < 30)%Z -> ratio <= 4 -> getMaxHePerV v ratio = Some h -> ratio * IZR v <= IZR h.
Proof.
  intros Hv Hr. unfold getMaxHePerV. destruct (Z.ltb_spec v 30); [|lia]. intros E. apply some_inj in E; subst.
  assert (T : forall n, (n < 30)%nat -> (4 * Z.of_nat n <= nth n maxHePerV 0)%Z). { intros n Hn. do 30 (destruct n as [|n]; [cbn; lia|]). lia. }
  specialize (T (Z.to_nat v) ltac:(lia)). rewrite Z2Nat.id in T by lia. apply IZR_le in T. rewrite mult_IZR in T.
  assert (0 <= IZR v) by (apply IZR_le; lia). nra.
Qed.
(** A larger ratio is not honoured within the table. *)
Theorem c39_ratio_refuted ratio : 4 < ratio -> exists h, getMaxHePerV 29 ratio = Some h /\ IZR h < ratio * 29.
Proof. intros H. exists 116%Z. split; [reflexivity|]. lra. Qed.
(** Unsigned wrap: the bound falls to ratio * v again. *)
Theorem c39_wrap_refuted : exists v v' h h', (v < v')%Z /\ getMaxHePerV v 0 = Some h /\ getMaxHePerV v' 0 = Some h' /\ (h' < h)%Z.
Proof.
  exists 4294967208%Z, 4294967209%Z, 4294967295%Z, 0%Z. split; [lia|]. unfold getMaxHePerV, toAmount. cbn [Z.ltb Z.compare Pos.compare Pos.compare_cont].
  assert (I0 : Int_part 0 = 0%Z). { destruct (base_Int_part 0) as [A B]. assert (IZR (Int_part 0) < IZR 1) by lra. assert (IZR (-1) < IZR (Int_part 0)) by lra. apply lt_IZR in H, H0. lia. }
  rewrite !Rmult_0_l. destruct (Rle_dec 0 (-1)); [lra|]. destruct (Rlt_dec 0 4294967296); [|lra]. rewrite I0. repeat split.
Qed.
(** The values of the table. *)
Theorem c39_table ratio : map (fun v => getMaxHePerV (Z.of_nat v) ratio) (seq 0 30) =
  map Some [0; 9; 14; 18; 20; 27; 30; 35; 40; 45; 50; 55; 60; 65; 70; 75; 80; 85; 90; 95; 98; 100; 101; 103; 105; 107; 109; 110; 112; 116]%Z.
Proof. reflexivity. Qed.
Theorem c39_above v ratio h : (30 <= v < 4294967296 - 87)%Z -> 0 <= ratio -> getMaxHePerV v ratio = Some h ->
  (v + 87 <= h)%Z /\ ((h = v + 87)%Z \/ IZR h <= ratio * IZR v).
Proof.
  intros Hv Hr. unfold getMaxHePerV. destruct (Z.ltb_spec v 30); [lia|]. change (nth 29 maxHePerV 0)%Z with 116%Z. rewrite u32_small by lia.
  destruct (toAmount _) as [a|] eqn:E; [|discriminate]. intros E'. apply some_inj in E'; subst. split; [lia|].
  destruct (Z.max_spec a (116 + v - 30 + 1)) as [[A ->]|[A ->]]; [left; lia|right].
  unfold toAmount in E. destruct (Rle_dec _ _); [discriminate|]. destruct (Rlt_dec _ _); [|discriminate]. apply some_inj in E; subst.
  destruct (base_Int_part (ratio * IZR v)) as [B _]. assert (0 <= ratio * IZR v) by (apply Rmult_le_pos; [lra|apply IZR_le; lia]).
  destruct (Z.max_spec 0 (Int_part (ratio * IZR v))) as [[_ ->]|[_ ->]]; lra.
Qed.
Example c39_ok : exists h h', getMaxHePerV 29 4 = Some h /\ getMaxHePerV 40 4 = Some h' /\ (h < h')%Z /\ (0 <= 29 <= 40)%Z /\ (40 + 87 < 4294967296)%Z /\ 4 * IZR 40 < 4294967296.
Proof.
  exists 116%Z. unfold getMaxHePerV, toAmount. cbn [Z.ltb Z.compare Pos.compare Pos.compare_cont]. destruct (Rle_dec _ _); [lra|]. destruct (Rlt_dec _ _); [|lra].
  eexists. split; [reflexivity|]. split; [reflexivity|]. split; [|split; [lia|split; [lia|lra]]].
  match goal with |- (_ < Z.max _ ?m)%Z => change m with 127%Z end. lia.
Qed.
Print Assumptions c39_monotone.
Print Assumptions c39_table.
Print Assumptions c39_above.
Print Assumptions c39_ratio_above.
Print Assumptions c39_ratio_partial.
Print Assumptions c39_ratio_refuted.
Print Assumptions c39_wrap_refuted.

(** *** C45 *)
Lemma kB_pos : 0 < kB. Proof. unfold kB. lra. Qed.
Theorem c45_positive omega T kPlus E : 0 < omega -> 0 < kPlus -> 0 < computeRate omega T kPlus (Fin E).
Proof.
  intros Ho Hk. unfold computeRate, boltzmann. apply Rmult_lt_0_compat; [|apply exp_pos]. apply Rmult_lt_0_compat; [|auto].
  apply Rdiv_lt_0_compat; lra.
Qed.
Theorem c45_proportional omega T kPlus E a : computeRate omega T (a * kPlus) E = a * computeRate omega T kPlus E.
Proof. unfold computeRate. ring. Qed.
Lemma quot_lt a b c : 0 < c -> a < b -> a / c < b / c.
Proof. intros Hc H. unfold Rdiv. apply Rmult_lt_compat_r; auto. apply Rinv_0_lt_compat; auto. Qed.
Theorem c45_decreasing omega T kPlus E E' : 0 < omega -> 0 < kPlus -> 0 < T -> E < E' ->
  computeRate omega T kPlus (Fin E') < computeRate omega T kPlus (Fin E) /\ computeRate omega T kPlus Inf < computeRate omega T kPlus (Fin E).
Proof.
  intros Ho Hk HT HE. pose proof kB_pos as Hb. assert (0 < (1 / omega) * kPlus). { apply Rmult_lt_0_compat; auto. apply Rdiv_lt_0_compat; lra. }
  assert (0 < kB * T) by (apply Rmult_lt_0_compat; auto). unfold computeRate, boltzmann. split; apply Rmult_lt_compat_l; auto.
  - apply exp_increasing. apply quot_lt; auto; lra.
  - apply exp_pos.
Qed.
(** For a bound cluster the rate increases with the temperature. *)
Theorem c45_hotter omega T T' kPlus E : 0 < omega -> 0 < kPlus -> 0 < T -> T < T' -> 0 < E ->
  computeRate omega T kPlus (Fin E) < computeRate omega T' kPlus (Fin E).
Proof.
  intros Ho Hk HT HTT HE. pose proof kB_pos as Hb. assert (0 < (1 / omega) * kPlus). { apply Rmult_lt_0_compat; auto. apply Rdiv_lt_0_compat; lra. }
  unfold computeRate, boltzmann. apply Rmult_lt_compat_l; auto. apply exp_increasing.
  assert (0 < kB * T) by (apply Rmult_lt_0_compat; auto). assert (kB * T < kB * T') by (apply Rmult_lt_compat_l; auto).
  unfold Rdiv. rewrite !Ropp_mult_distr_l_reverse. apply Ropp_lt_contravar. apply Rmult_lt_compat_l; auto. apply Rinv_lt_contravar; auto. nra.
Qed.
Theorem c45_zero omega T kPlus : 0 < omega -> computeRate omega T kPlus (Fin 0) = kPlus / omega.
Proof. intros H. unfold computeRate, boltzmann. replace (- 0 / (kB * T)) with 0 by (unfold Rdiv; ring). rewrite exp_0. field. lra. Qed.

(** Thermodynamics, independent of the code: at temperature T the equilibrium concentration of
    a cluster with formation energy E is exp(- E / kT) per lattice site. The association
    A + B -> C and the dissociation C -> A + B are in detailed balance when their rates are
    equal at these concentrations. *)
Definition equilibrium (omega T E : R) : R := / omega * exp (- E / (8.6173324e-5 * T)).
Lemma kB_lit : 8.6173324e-5 = kB.
Proof. unfold kB. lra. Qed.
Definition balanced (omega T kPlus kMinus EA EB EC : R) : Prop :=
  kPlus * equilibrium omega T EA * equilibrium omega T EB = kMinus * equilibrium omega T EC.
Theorem c45_balance_iff omega T kPlus EA EB EC be : 0 < omega -> 0 < T -> 0 < kPlus ->
  (balanced omega T kPlus (computeRate omega T kPlus (Fin be)) EA EB EC <-> be = EA + EB - EC).
Proof.
  intros Ho HT Hk. pose proof kB_pos as Hb. assert (Hq : 0 < kB * T) by (apply Rmult_lt_0_compat; auto).
  unfold balanced, equilibrium, computeRate, boltzmann. rewrite kB_lit.
  assert (L : kPlus * (/ omega * exp (- EA / (kB * T))) * (/ omega * exp (- EB / (kB * T))) = kPlus * / omega * / omega * exp ((- EA - EB) / (kB * T))).
  { replace ((- EA - EB) / (kB * T)) with (- EA / (kB * T) + - EB / (kB * T)) by (field; lra). rewrite exp_plus. ring. }
  assert (M : 1 / omega * kPlus * exp (- be / (kB * T)) * (/ omega * exp (- EC / (kB * T))) = kPlus * / omega * / omega * exp ((- be - EC) / (kB * T))).
  { replace ((- be - EC) / (kB * T)) with (- be / (kB * T) + - EC / (kB * T)) by (field; lra). rewrite exp_plus. unfold Rdiv. ring. }
  rewrite L, M. assert (0 < kPlus * / omega * / omega). { apply Rmult_lt_0_compat; [apply Rmult_lt_0_compat; auto|]; apply Rinv_0_lt_compat; auto. }
  split; intros H0.
  - apply Rmult_eq_reg_l in H0; [|lra]. apply exp_inv in H0. unfold Rdiv in H0. apply Rmult_eq_reg_r in H0; [lra|]. apply Rinv_neq_0_compat. lra.
  - subst be. f_equal. f_equal. f_equal. ring.
Qed.

(** The forward rate does not depend on the order of the two clusters, so that the association
    of A with B, whichever way it is stored, and the dissociation into A and B use the same
    rate. *)
Theorem c45_forward_psi r0 r1 dc0 dc1 : getRate r0 r1 dc0 dc1 = getRate r1 r0 dc1 dc0.
Proof. unfold getRate. ring. Qed.
Theorem c45_forward_alloy s0 s1 i0 i1 r0 r1 dc0 dc1 : alloyRate s0 s1 i0 i1 r0 r1 dc0 dc1 = alloyRate s1 s0 i1 i0 r1 r0 dc1 dc0.
Proof.
  unfold alloyRate. rewrite (andb_comm s1 s0), (orb_comm i1 i0), (Rplus_comm dc1 dc0). replace (r1 + r0 + alloyCore) with (r0 + r1 + alloyCore) by ring.
  destruct s0, s1; cbn [andb negb]; try reflexivity. destruct (Rlt_dec r0 r1), (Rlt_dec r1 r0); try reflexivity; try lra.
  assert (r0 = r1) by lra. subst. reflexivity.
Qed.
Theorem c45_forward_zr_partial x0 x1 p dc0 dc1 n : (zSize x0 <= 9 \/ zSize x1 <= 9)%Z -> zrRate x0 x1 p dc0 dc1 n = zrRate x1 x0 p dc1 dc0 n.
Proof.
  intros H. unfold zrRate. rewrite (Rplus_comm dc1 dc0). replace (zR x1 + zR x0 + zrCore) with (zR x0 + zR x1 + zrCore) by ring.
  destruct (Z.ltb_spec 9 (zSize x0)), (Z.ltb_spec 9 (zSize x1)); try reflexivity; lia.
Qed.
(** With two loops the first one counts as the loop. *)
Theorem c45_forward_zr_refuted : exists x0 x1 p dc0 dc1 n, 0 < zR x0 /\ 0 < zR x1 /\ 0 < dc0 /\ 0 < dc1 /\
  zrRate x0 x1 p dc0 dc1 n <> zrRate x1 x0 p dc1 dc0 n.
Proof.
  (* two basal loops below the transition size: spherical capture with the capture radius of the first *)
  exists (Zr false true 10 1 1 1), (Zr false true 10 1 2 2), 1, 1, 1, 20%Z. cbn [zR]. repeat split; try lra.
  unfold zrRate, loopRate, rd. cbn [zSize zV zBasal zR zRdI zRdV Z.ltb Z.compare Pos.compare Pos.compare_cont negb andb]. intros E.
  assert (PI = 0); [|pose proof PI_RGT_0; lra]. rewrite !Rminus_diag_eq in E by reflexivity. rewrite !Rmult_0_l in E. lra.
Qed.

(** PSI: the binding energy does not depend on the order of the products ... *)
Theorem c45_binding_symmetric heV cl prod1 prod2 : bindingEnergy heV cl prod1 prod2 = bindingEnergy heV cl prod2 prod1.
Proof.
  assert (T : tableEnergy cl prod1 prod2 = tableEnergy cl prod2 prod1). { unfold tableEnergy, useTable. rewrite (orb_comm (isSimplex (reg prod2) && _)). reflexivity. }
  assert (S : isSpecial cl prod1 prod2 = isSpecial cl prod2 prod1). { unfold isSpecial. rewrite (orb_comm (onV (lo (reg prod2)))). reflexivity. }
  unfold bindingEnergy. rewrite T, S. destruct (tableEnergy cl prod2 prod1); [|reflexivity]. destruct (Req_EM_T r 0); [|reflexivity]. destruct (isSpecial cl prod2 prod1); [reflexivity|].
  unfold eplus. destruct (formation cl), (formation prod1), (formation prod2); try reflexivity. rewrite Rplus_comm. reflexivity.
Qed.
(** ... and without table, special case and cut-off at -5 eV the reaction and its reverse are in
    detailed balance. *)
Theorem c45_psi_balance_partial heV cl prod1 prod2 E EA EB omega T r0 r1 dc0 dc1 :
  formation cl = Fin E -> formation prod1 = Fin EA -> formation prod2 = Fin EB ->
  useTable cl prod1 prod2 = false -> isSpecial cl prod1 prod2 = false -> -5 <= EA + EB - E ->
  0 < omega -> 0 < T -> 0 < r0 + r1 -> 0 < dc0 + dc1 ->
  exists be, bindingEnergy heV cl prod1 prod2 = Some be /\
    balanced omega T (getRate r0 r1 dc0 dc1) (computeRate omega T (getRate r1 r0 dc1 dc0) be) EA EB E.
Proof.
  intros H H1 H2 Ht Hs Hm Ho HT Hr Hd. exists (Fin (EA + EB - E)). split.
  - unfold bindingEnergy, tableEnergy. rewrite Ht. destruct (Req_EM_T 0 0); [|lra]. rewrite Hs, H, H1, H2. cbn [eplus eminus emax]. rewrite Rmax_left by lra. reflexivity.
  - rewrite (c45_forward_psi r1 r0). apply c45_balance_iff; auto. unfold getRate. apply Rmult_lt_0_compat; auto. apply Rmult_lt_0_compat; auto. pose proof PI_RGT_0. lra.
Qed.
Definition at_ (he d t v : Z) (e : energy) : cluster := Cluster (single (Comp he d t v 0)) e.
Example c45_psi_balance_ok : let cl := at_ 2 0 0 3 (Fin 11) in let a := at_ 1 0 0 0 (Fin 6.15) in let b := at_ 1 0 0 3 (Fin 10) in
  formation cl = Fin 11 /\ formation a = Fin 6.15 /\ formation b = Fin 10 /\ useTable cl a b = false /\ isSpecial cl a b = false /\ -5 <= 6.15 + 10 - 11.
Proof. cbn zeta. repeat split; try reflexivity. lra. Qed.
(** The cut-off: a cluster unbound by more than 5 eV dissociates too slowly. *)
Theorem c45_cutoff_refuted heV cl prod1 prod2 E EA EB omega T kPlus :
  formation cl = Fin E -> formation prod1 = Fin EA -> formation prod2 = Fin EB ->
  useTable cl prod1 prod2 = false -> isSpecial cl prod1 prod2 = false -> EA + EB - E < -5 -> 0 < omega -> 0 < T -> 0 < kPlus ->
  exists be, bindingEnergy heV cl prod1 prod2 = Some be /\ ~ balanced omega T kPlus (computeRate omega T kPlus be) EA EB E.
Proof.
  intros H H1 H2 Ht Hs Hm Ho HT Hk. exists (Fin (-5)). split.
  - unfold bindingEnergy, tableEnergy. rewrite Ht. destruct (Req_EM_T 0 0); [|lra]. rewrite Hs, H, H1, H2. cbn [eplus eminus emax]. rewrite Rmax_right by lra. reflexivity.
  - rewrite c45_balance_iff by auto. lra.
Qed.
(** Hydrogen: the formation energies of pure deuterium and tritium are infinite
    (PSIClusterGenerator.tpp:531-540). Clusters with three or more vacancies never release
    hydrogen, although they capture it. *)
Theorem c45_hydrogen_refuted heV d t v he E E2 omega T kPlus : (3 <= v)%Z -> (0 < he + d + t)%Z ->
  let cl := at_ he (d + 1) t v (Fin E) in let a := at_ 0 1 0 0 Inf in let b := at_ he d t v (Fin E2) in
  (0 <= he)%Z -> (0 <= d)%Z -> (0 <= t)%Z ->
  exists be, bindingEnergy heV cl a b = Some be /\ computeRate omega T kPlus be = 0.
Proof.
  intros Hv Hp cl a b Hhe Hd Ht. exists Inf. split; [|unfold computeRate, boltzmann; ring]. unfold bindingEnergy.
  assert (E0 : tableEnergy cl a b = Some 0).
  { unfold tableEnergy. subst cl a b. cbn [reg at_ single lo aV]. destruct (useTable _ _ _); [|reflexivity]. destruct (Z.eqb_spec v 1); [lia|]. destruct (Z.eqb_spec v 2); [lia|]. reflexivity. }
  rewrite E0. destruct (Req_EM_T 0 0); [|lra]. replace (isSpecial cl a b) with false; [reflexivity|].
  subst cl a b. unfold isSpecial, onV. cbn [reg at_ single lo aHe aD aT aV aI Z.eqb Pos.eqb negb andb orb].
  destruct (Z.eqb_spec he 0), (Z.eqb_spec d 0), (Z.eqb_spec t 0); cbn [andb]; try reflexivity. lia.
Qed.

Example c45_hydrogen_ok : (3 <= 4)%Z /\ (0 < 2 + 1 + 0)%Z. Proof. lia. Qed.
Example c45_ok : 0 < 0.0159 /\ 0 < getRate 0.3 0.4 0 1e10 /\ 0 < 1000 /\ 1000 < 1200 /\ 0 < 1.2.
Proof. repeat split; try lra. unfold getRate. pose proof PI_RGT_0. nra. Qed.

(** NE: with rates from the reaction file the two rate constants are in the ratio
    exp(dG0 / kT) / omega, whatever the sign of dG0; otherwise exp(- be / kT) / omega. *)
Theorem c45_ne_balance k0 k1 omega dG0 T r0 r1 dc0 dc1 be : 0 < k0 -> 0 < k1 -> 0 < T -> 0 < omega ->
  neDissociation (Some (k0, k1)) omega dG0 T r0 r1 dc0 dc1 be = neProduction (Some (k0, k1)) dG0 T r0 r1 dc0 dc1 / omega * exp (dG0 / (kB * T)) /\
  neDissociation None omega dG0 T r0 r1 dc0 dc1 be = neProduction None dG0 T r0 r1 dc0 dc1 / omega * exp (- be / (kB * T)).
Proof.
  intros H0 H1 HT Ho. pose proof kB_pos as Hb. assert (0 < kB * T) by (apply Rmult_lt_0_compat; auto). unfold neDissociation, neProduction. split.
  - destruct (Rlt_dec 0 dG0).
    + destruct (Rlt_dec 0 k1); [|lra]. assert (0 < k1 * exp (- dG0 / (kB * T))) by (apply Rmult_lt_0_compat; auto; apply exp_pos).
      destruct (Rlt_dec 0 _); [|lra]. replace (- dG0 / (kB * T)) with (- (dG0 / (kB * T))) by (field; lra). rewrite exp_Ropp. field. split; [|lra]. apply Rgt_not_eq, exp_pos.
    + destruct (Rlt_dec 0 k0); [|lra]. assert (0 < k0 * exp (dG0 / (kB * T))) by (apply Rmult_lt_0_compat; auto; apply exp_pos).
      destruct (Rlt_dec 0 _); [|lra]. field. lra.
  - destruct (Rlt_dec 0 (-1)); [lra|]. field. lra.
Qed.
(** The file rates use the radius of the first cluster only: stored in the other order the same
    reaction has another rate. *)
Theorem c45_ne_order_refuted k0 k1 dG0 T r0 r1 dc0 dc1 : 0 < k0 -> 0 < k1 -> r0 <> r1 ->
  neProduction (Some (k0, k1)) dG0 T r0 r1 dc0 dc1 <> neProduction (Some (k0, k1)) dG0 T r1 r0 dc1 dc0.
Proof.
  intros H0 H1 Hr. unfold neProduction. set (rate := if Rlt_dec 0 dG0 then _ else _).
  assert (Hp : 0 < rate). { unfold rate. destruct (Rlt_dec 0 dG0); auto. apply Rmult_lt_0_compat; auto. apply exp_pos. }
  destruct (Rlt_dec 0 rate); [|lra]. intros E. apply Hr. unfold zFactor in E. pose proof PI_RGT_0. assert (0 < rate * 4 * PI) by nra.
  apply Rmult_eq_reg_r in E; [|lra]. apply Rmult_eq_reg_l in E; lra.
Qed.
(** Thermal creation of the two reactants of a recombination without product: in balance with
    the recombination it would equal the recombination rate at equilibrium. dG0 / kB * T is
    computed instead of dG0 / (kB * T): creation is too slow at every temperature above 1 K. *)
Theorem c45_ne_creation_refuted omega k0 k1 EA EB T r0 r1 dc0 dc1 : 0 < omega -> 0 < k0 -> 0 < r0 -> 1 < T -> 0 < EA + EB ->
  let dG0 := - (EA + EB) in
  neCreation omega k0 dG0 T r0 < neProduction (Some (k0, k1)) dG0 T r0 r1 dc0 dc1 * equilibrium omega T EA * equilibrium omega T EB.
Proof.
  intros Ho Hk Hr HT HE dG0. pose proof kB_pos as Hb. assert (0 < kB * T) by (apply Rmult_lt_0_compat; lra). unfold neProduction, equilibrium. rewrite !kB_lit.
  destruct (Rlt_dec 0 dG0); [unfold dG0 in *; lra|]. destruct (Rlt_dec 0 k0); [|lra].
  replace (k0 * 4 * PI * r0 * zFactor * (/ omega * exp (- EA / (kB * T))) * (/ omega * exp (- EB / (kB * T))))
    with ((k0 * 4 * PI * r0 * zFactor * (/ omega * / omega)) * exp (dG0 / (kB * T))).
  2: { replace (dG0 / (kB * T)) with (- EA / (kB * T) + - EB / (kB * T)) by (unfold dG0; field; lra). rewrite exp_plus. ring. }
  unfold neCreation. replace (1 / (omega * omega) * k0 * exp (dG0 / kB * T) * 4 * PI * r0 * zFactor) with ((k0 * 4 * PI * r0 * zFactor * (/ omega * / omega)) * exp (dG0 / kB * T)) by (field; lra).
  apply Rmult_lt_compat_l.
  - pose proof PI_RGT_0. pose proof (Rinv_0_lt_compat _ Ho). unfold zFactor. repeat (apply Rmult_lt_0_compat; try lra).
  - apply exp_increasing. unfold dG0, Rdiv. rewrite !Ropp_mult_distr_l_reverse. apply Ropp_lt_contravar. rewrite Rmult_assoc. apply Rmult_lt_compat_l; auto.
    apply (Rmult_lt_reg_l (kB * T)); auto. rewrite Rinv_r by lra. replace (kB * T * (/ kB * T)) with (T * T) by (field; lra). nra.
Qed.
Example c45_ne_ok : 0 < 1e10 /\ 0.3 <> 0.4 /\ 1 < 1000 /\ 0 < 3 + 4. Proof. repeat split; lra. Qed.
Print Assumptions c45_positive.
Print Assumptions c45_decreasing.
Print Assumptions c45_hotter.
Print Assumptions c45_balance_iff.
Print Assumptions c45_forward_alloy.
Print Assumptions c45_forward_zr_partial.
Print Assumptions c45_forward_zr_refuted.
Print Assumptions c45_binding_symmetric.
Print Assumptions c45_psi_balance_partial.
Print Assumptions c45_cutoff_refuted.
Print Assumptions c45_hydrogen_refuted.
Print Assumptions c45_ne_balance.
Print Assumptions c45_ne_order_refuted.
Print Assumptions c45_ne_creation_refuted.

(** The constants of the rate law: diffusion-limited capture 4 pi (r0 + r1) (D0 + D1), the Boltzmann factor with
    k_B = 8.6173324e-5 eV/K. *)
Theorem c45_law omega T r0 r1 dc0 dc1 E : computeRate omega T (getRate r0 r1 dc0 dc1) (Fin E) * omega =
  if Req_EM_T omega 0 then 0 else 4 * PI * (r0 + r1) * (dc0 + dc1) * exp (- E / (8.6173324e-5 * T)).
Proof.
  rewrite kB_lit. unfold computeRate, getRate, boltzmann. destruct (Req_EM_T omega 0) as [->|N]; [ring|]. field. auto.
Qed.
(** Alloy: two spheres (vacancies, voids, interstitials) see each other as above with the core radius added; a loop
    is seen as a sphere and as a torus, weighted by the squares of the other radius and of its own. Rates with an
    interstitial are 1.2 times larger. *)
Inductive loopPair : bool -> bool -> R -> R -> R -> R -> Prop :=
| lp_first s0 r0 r1 : s0 = false -> loopPair s0 true r0 r1 r0 r1
| lp_second s1 r0 r1 : s1 = false -> loopPair true s1 r0 r1 r1 r0
| lp_both_first r0 r1 : r1 <= r0 -> loopPair false false r0 r1 r0 r1
| lp_both_second r0 r1 : r0 < r1 -> loopPair false false r0 r1 r1 r0.
Theorem c45_alloy_law i0 i1 s0 s1 r0 r1 dc0 dc1 rl rs : 0 < r0 -> 0 < r1 -> loopPair s0 s1 r0 r1 rl rs ->
  let sphere := 4 * PI * (r0 + r1 + 0.36) in let torus := 4 * PI * PI * rl / ln (1 + 8 * rl / (rs + 0.36)) in
  alloyRate s0 s1 i0 i1 r0 r1 dc0 dc1 * ((rs + 0.36) * (rs + 0.36) + rl * rl) =
  (dc0 + dc1) * ((rs + 0.36) * (rs + 0.36) * sphere + rl * rl * torus) * (if i0 then 1.2 else if i1 then 1.2 else 1).
Proof.
  intros H0 H1 H. cbv zeta.
  assert (E : rl > 0 /\ rs > 0 /\ alloyRate s0 s1 i0 i1 r0 r1 dc0 dc1 =
    (dc0 + dc1) * (1 / (1 + Rsqr (rl / (rs + alloyCore))) * (4 * PI * (r0 + r1 + alloyCore)) +
      (1 - 1 / (1 + Rsqr (rl / (rs + alloyCore)))) * (4 * PI * PI * rl / ln (1 + 8 * rl / (rs + alloyCore)))) * (if i0 || i1 then 1.2 else 1)).
  { destruct H as [s0 r0 r1 ->|s1 r0 r1 ->|r0 r1 L|r0 r1 L]; (split; [lra|split; [lra|]]); unfold alloyRate; cbn [andb negb]; try reflexivity;
    destruct (Rlt_dec r0 r1); try lra; reflexivity. }
  destruct E as (Hl & Hs & ->). unfold alloyCore, Rsqr.
  set (t := 4 * PI * PI * rl / ln (1 + 8 * rl / (rs + 0.36))). assert (Hc : rs + 0.36 <> 0) by lra.
  assert (Hq : (rs + 0.36) * (rs + 0.36) + rl * rl <> 0) by nra.
  replace (1 / (1 + rl / (rs + 0.36) * (rl / (rs + 0.36)))) with ((rs + 0.36) * (rs + 0.36) / ((rs + 0.36) * (rs + 0.36) + rl * rl)) by (field; split; [nra|auto]).
  destruct i0; [|destruct i1]; cbn [orb]; field; auto.
Qed.
Theorem c45_alloy_spheres i0 i1 r0 r1 dc0 dc1 : alloyRate true true i0 i1 r0 r1 dc0 dc1 = 4 * PI * (r0 + r1 + 0.36) * (dc0 + dc1).
Proof. reflexivity. Qed.
(** Zr: clusters of at most nine see each other as spheres with the core radius 0.645; a larger one is a loop. *)
Theorem c45_zr_spheres x0 x1 p dc0 dc1 n : (zSize x0 <= 9)%Z -> (zSize x1 <= 9)%Z -> zrRate x0 x1 p dc0 dc1 n = 4 * PI * (zR x0 + zR x1 + 0.645) * (dc0 + dc1).
Proof. intros A B. unfold zrRate. destruct (Z.ltb_spec 9 (zSize x0)); [lia|]. destruct (Z.ltb_spec 9 (zSize x1)); [lia|]. reflexivity. Qed.
(** The factor for the direction of the diffusion, by the kind of loop. *)
Definition anisotropy (loop : zr) (p : R) : R :=
  if zV loop then 0.78 * / (p * p) + 0.66 * p - 0.44 else if zBasal loop then p else 0.70 * / (p * p) + 0.78 * p - 0.47.
Definition capture (loop other : zr) : R := zR other + (if zV other then zRdV loop else zRdI loop).
Theorem c45_zr_law x0 x1 p dc0 dc1 n : (9 < zSize x0)%Z -> 0 < capture x0 x1 -> 0 < zR x0 ->
  let cap := 9 * (capture x0 x1 * capture x0 x1) in let sphere := 4 * PI * (zR x0 + capture x0 x1) in
  let torus := 4 * PI * PI * zR x0 / ln (1 + 8 * zR x0 / capture x0 x1) in
  if negb (zV x0) && zBasal x0 && (zSize x0 <? n)%Z then zrRate x0 x1 p dc0 dc1 n = sphere * (dc0 + dc1)
  else zrRate x0 x1 p dc0 dc1 n * (cap + zR x0 * zR x0) = (zR x0 * zR x0 * torus * anisotropy x0 p + cap * sphere) * (dc0 + dc1).
Proof.
  intros Hs Hc Hr. cbv zeta. unfold zrRate. destruct (Z.ltb_spec 9 (zSize x0)); [|lia]. unfold loopRate.
  change (zR x1 + rd x0 x1) with (capture x0 x1). unfold anisotropy, Rsqr.
  replace (zR x0 + zR x1 + rd x0 x1) with (zR x0 + capture x0 x1) by (unfold capture, rd; ring).
  set (t := 4 * PI * PI * zR x0 / ln (1 + 8 * zR x0 / capture x0 x1)).
  destruct (negb (zV x0) && zBasal x0 && (zSize x0 <? n)%Z); [ring|].
  set (a := if zV x0 then _ else _).
  assert (E : / (1 + zR x0 / (3 * capture x0 x1) * (zR x0 / (3 * capture x0 x1))) = 9 * (capture x0 x1 * capture x0 x1) / (9 * (capture x0 x1 * capture x0 x1) + zR x0 * zR x0)).
  { field. repeat split; try nra; lra. }
  rewrite E. field. nra.
Qed.
Theorem c45_ne_law k0 k1 dG0 T r0 r1 dc0 dc1 : 0 < k0 ->
  neProduction None dG0 T r0 r1 dc0 dc1 = 100 * (4 * PI * (r0 + r1) * (dc0 + dc1)) /\
  (dG0 <= 0 -> neProduction (Some (k0, k1)) dG0 T r0 r1 dc0 dc1 = 100 * (4 * PI * r0 * k0)).
Proof.
  intros Hk. unfold neProduction, zFactor, getRate. split.
  - destruct (Rlt_dec 0 (-1)); [lra|]. ring.
  - intros Hd. destruct (Rlt_dec 0 dG0); [lra|]. destruct (Rlt_dec 0 k0); [|lra]. ring.
Qed.
(** The vacancy sizes for which the binding energy of a vacancy is interpolated start two above the largest size
    (of 1 ... 30) that cannot hold the helium, at 16 at the earliest. *)
Definition holds30 : list Z := [9; 14; 18; 20; 27; 30; 35; 40; 45; 50; 55; 60; 65; 70; 75; 80; 85; 90; 95; 98; 100; 101; 103; 105; 107; 109; 110; 112; 116; 120]%Z.
Definition tooSmall (he : Z) : Z := Z.of_nat (length (filter (fun b => b <? he)%Z holds30)).
Lemma getMax30 : getMaxHePerV 30 4.0 = Some 120%Z.
Proof.
  unfold getMaxHePerV. cbn [Z.ltb Z.compare Pos.compare Pos.compare_cont]. unfold toAmount. destruct (Rle_dec _ _); [lra|]. destruct (Rlt_dec _ _); [|lra].
  match goal with |- context [Int_part ?x] => assert (E : Int_part x = 120%Z) end.
  { match goal with |- Int_part ?x = _ => destruct (base_Int_part x) as [A B]; assert (C : IZR (Int_part x) < IZR 121) by lra; assert (D : IZR 119 < IZR (Int_part x)) by lra end.
    apply lt_IZR in C, D. lia. }
  rewrite E. reflexivity.
Qed.
Lemma fold_last he : forall (l : list Z) (i m : Z), (forall a b l1 l2, l = l1 ++ a :: b :: l2 -> a <= b)%Z ->
  fst (fold_left (fun st b => (if (b <? he)%Z then snd st else fst st, snd st + 1)%Z) l (m, i)) =
  (if Nat.eqb (length (filter (fun b => b <? he)%Z l)) 0 then m else i + Z.of_nat (length (filter (fun b => b <? he)%Z l)) - 1)%Z.
Proof.
  induction l as [|a l IH]; intros i m Hs; [reflexivity|]. cbn [fold_left fst snd filter]. rewrite IH.
  2:{ intros x y l1 l2 E. apply (Hs x y (a :: l1) l2). rewrite E. reflexivity. }
  destruct (Z.ltb_spec a he); cbn [length].
  - destruct (Nat.eqb_spec (length (filter (fun b => b <? he)%Z l)) 0) as [->|N]; cbn [Nat.eqb]; lia.
  - destruct l as [|b l]; [reflexivity|].
    assert (F : filter (fun b => b <? he)%Z (b :: l) = []).
    { assert (G : forall l b, (he <= b)%Z -> (forall x y l1 l2, b :: l = l1 ++ x :: y :: l2 -> x <= y)%Z -> filter (fun b => b <? he)%Z (b :: l) = []).
      { clear. induction l as [|y l IH]; intros b Hb Hs.
        - cbn. destruct (Z.ltb_spec b he); [lia|reflexivity].
        - cbn [filter]. destruct (Z.ltb_spec b he); [lia|]. apply IH. 1:{ specialize (Hs b y [] l eq_refl). lia. }
          intros u v l1 l2 E. apply (Hs u v (b :: l1) l2). rewrite E. reflexivity. }
      apply G. 1:{ specialize (Hs a b [] l eq_refl). lia. } intros u v l1 l2 E. apply (Hs u v (a :: l1) l2). rewrite E. reflexivity. }
    rewrite F. reflexivity.
Qed.
Lemma fold_idx he (f : Z -> option Z) : forall (l : list Z) n m, (forall k, (k < length l)%nat -> f (Z.of_nat (n + k)) = Some (nth k l 0%Z)) ->
  fold_left (fun m i => match f i with Some b => if (b <? he)%Z then i else m | None => m end) (map Z.of_nat (seq n (length l))) m =
  fst (fold_left (fun st b => (if (b <? he)%Z then snd st else fst st, snd st + 1)%Z) l (m, Z.of_nat n)).
Proof.
  induction l as [|a l IH]; intros n m Hf; [reflexivity|]. cbn [length seq map fold_left fst snd].
  assert (E := Hf 0%nat ltac:(cbn; lia)). rewrite Nat.add_0_r in E. rewrite E. cbn [nth].
  replace (Z.of_nat n + 1)%Z with (Z.of_nat (S n)) by lia. apply IH. intros k Hk. specialize (Hf (S k) ltac:(cbn; lia)). rewrite Nat.add_succ_r in Hf. exact Hf.
Qed.
Theorem c45_window he : lowerV he = Z.max 16 (Z.max 1 (tooSmall he) + 2).
Proof.
  unfold lowerV, tooSmall. do 2 f_equal. unfold minV. change 30%nat with (length holds30).
  rewrite (fold_idx he (fun i => getMaxHePerV i 4.0)).
  - rewrite fold_last.
    + destruct (Nat.eqb_spec (length (filter (fun b => b <? he)%Z holds30)) 0) as [->|N]; cbn [Z.of_nat]; lia.
    + assert (SS : forall k, (S k < length holds30)%nat -> (nth k holds30 0 <= nth (S k) holds30 0)%Z).
      { intros k Hk. do 29 (destruct k as [|k]; [cbn; lia|]). cbn in Hk. lia. }
      intros a b l1 l2 E. specialize (SS (length l1)). rewrite E in SS. rewrite app_length in SS. cbn [length] in SS. specialize (SS ltac:(lia)).
      rewrite app_nth2, app_nth2 in SS by lia. replace (S (length l1) - length l1)%nat with 1%nat in SS by lia. rewrite Nat.sub_diag in SS. exact SS.
  - intros k Hk. do 29 (destruct k as [|k]; [reflexivity|]). destruct k as [|k]; [exact getMax30|cbn in Hk; lia].
Qed.
(** Inside the window the energy to take one vacancy off is interpolated linearly between the energies at both ends of
    the window; it is the one at the upper end if the window is shorter than four. *)
Definition takeOff (heV : comp -> R) (c : comp) (v : Z) : R :=
  heV (Comp (aHe c) (aD c) (aT c) (v - 1) (aI c)) + heV (Comp 0 0 0 1 0) - heV (Comp (aHe c) (aD c) (aT c) v (aI c)).
Lemma interp_eq x y n k : n <> 0 -> (x + k * (y - x) / n) * n = (n - k) * x + k * y.
Proof. intros. field. auto. Qed.
Theorem c45_window_energy heV cl prod1 prod2 : let c := lo (reg cl) in let l := Z.max 16 (Z.max 1 (tooSmall (aHe c)) + 2) in
  tableEnergy cl prod1 prod2 = Some 0 -> onV (lo (reg prod1)) = true \/ onV (lo (reg prod2)) = true -> (l <= aV c <= 31)%Z ->
  exists e, bindingEnergy heV cl prod1 prod2 = Some (Fin (Rmax e (-5))) /\
    if (l <? 28)%Z then e * IZR (31 - l) = IZR (31 - aV c) * takeOff heV c l + IZR (aV c - l) * takeOff heV c 31 else e = takeOff heV c 31.
Proof.
  cbv zeta. intros Ht Ho Hv. exists (special heV (lo (reg cl))). split.
  - unfold bindingEnergy. rewrite Ht. destruct (Req_EM_T 0 0) as [_|N]; [|contradiction N; reflexivity].
    assert (S : isSpecial cl prod1 prod2 = true).
    { unfold isSpecial. rewrite c45_window. rewrite (proj2 (Z.leb_le _ _) (proj1 Hv)), (proj2 (Z.leb_le _ _) (proj2 Hv)).
      destruct Ho as [->| ->]; [reflexivity|]. rewrite orb_true_r. reflexivity. }
    rewrite S. reflexivity.
  - unfold special. rewrite c45_window. set (l := Z.max 16 _) in *. unfold takeOff, withV. change (30)%Z with (31 - 1)%Z.
    rewrite u32_small by lia. destruct (Z.ltb_spec l 28), (Z.ltb_spec (31 - l) 4); try lia; [|reflexivity].
    assert (N : IZR (31 - l) <> 0) by (apply not_0_IZR; lia).
    assert (M : IZR (31 - aV (lo (reg cl))) = IZR (31 - l) - IZR (aV (lo (reg cl)) - l)) by (rewrite <- minus_IZR; apply f_equal; lia).
    rewrite M. clear M. generalize (IZR (31 - l)) (IZR (aV (lo (reg cl)) - l)) N. clear. intros n k N.
    match goal with |- (?x + k * (?y - ?x) / n) * n = _ => exact (interp_eq x y n k N) end.
Qed.
Example c45_window_ok : let cl := Cluster (single (Comp 70 0 0 20 0)) (Fin 0) in let a := Cluster (single (Comp 0 0 0 1 0)) (Fin 3.6) in
  tableEnergy cl a a = Some 0 /\ onV (lo (reg a)) = true /\ (Z.max 16 (Z.max 1 (tooSmall 70) + 2) <= 20 <= 31)%Z.
Proof. cbv zeta. split; [reflexivity|]. split; [reflexivity|]. vm_compute. split; discriminate. Qed.
Print Assumptions c45_law.
Print Assumptions c45_alloy_law.
Print Assumptions c45_alloy_spheres.
Print Assumptions c45_zr_spheres.
Print Assumptions c45_zr_law.
Print Assumptions c45_ne_law.
Print Assumptions c45_window.
Print Assumptions c45_window_energy.
(** *** C54: the binding energy tables are read inside their bounds *)
Definition inTable (c : comp) : Prop := forall cl a b, lo (reg cl) = c -> tableEnergy cl a b <> None.
(** Every cluster of a single composition the generator selects. *)
Theorem c54_in_table_partial mHe mD mT mV mP mI ratio c : (0 <= aHe c)%Z -> (0 <= aD c)%Z -> (0 <= aT c)%Z -> (0 <= aI c)%Z -> (0 <= mV < 4294967296)%Z ->
  select mHe mD mT mV mP mI ratio (single c) = Some true -> ~ (aV c = 2 /\ aHe c = 0 /\ aD c + aT c = 12)%Z -> inTable c.
Proof.
  intros HHe HD HT HI HmV Hs Hn cl a b Ec. unfold tableEnergy. rewrite Ec. destruct (useTable cl a b); [|discriminate].
  unfold select in Hs. destruct (selectAxes _ _ _ _ _ _ _) eqn:Ea; [|discriminate].
  assert (Main : forall v h, aV c = v -> (v = 1 /\ h = 9 \/ v = 2 /\ h = 14)%Z ->
    (aHe c <= h /\ 0 <= u32 (aD c + aT c) /\ (aHe c = 0 -> u32 (aD c + aT c) <= 6 * v) /\ (aHe c <> 0 -> 6 * u32 (aD c + aT c) <= 4 * aHe c + 3) /\
     3 * aD c <= 2 * h /\ 3 * aT c <= 2 * h)%Z).
  { intros v h Ev Hv. assert (U : (0 <= u32 (aD c + aT c))%Z) by (unfold u32; apply Z.mod_pos_bound; lia).
    unfold selectEdge, single in Hs. cbn [lo hi aHe aD aT aV aI] in Hs.
    replace (1 <? aV c + 1)%Z with true in Hs by (symmetry; apply Z.ltb_lt; lia). replace (aV c + 1 - 1)%Z with v in Hs by lia.
    destruct (onV c) eqn:Eo.
    { unfold onV in Eo. rewrite !andb_true_iff in Eo. destruct Eo as [[[[E1 E2] E3] _] _]. apply Z.eqb_eq in E1, E2, E3. rewrite E1, E2, E3 in *. change (u32 (0 + 0)) with 0%Z in *. lia. }
    assert (HV : (v <= mV)%Z).
    { unfold selectAxes in Ea. cbn [lo hi single] in Ea. rewrite Eo in Ea. rewrite !andb_true_iff in Ea. destruct Ea as [[_ Ea] _].
      apply negb_true_iff, andb_false_iff in Ea. destruct Ea as [Ea|Ea]; [apply Z.ltb_ge in Ea; lia|discriminate]. }
    rewrite (Z.min_l v mV) in Hs by lia. destruct (getMaxHePerV mV ratio) as [top|]; [|discriminate].
    replace (getMaxHePerV v ratio) with (Some h) in Hs by (destruct Hv as [[-> ->] | [-> ->]]; reflexivity).
    apply some_inj in Hs. rewrite !andb_true_iff in Hs. destruct Hs as [[[[_ H1] H2] H3] H4].
    apply negb_true_iff, Z.ltb_ge in H1, H2, H3. destruct (Z.eqb_spec (aHe c) 0) as [E0|E0]; apply negb_true_iff, Z.ltb_ge in H4.
    - rewrite (u32_small (6 * v)) in H4 by lia. lia.
    - lia. }
  assert (L : forall (t : list (list R)) n m i j, length t = n -> Forall (fun row => length row = m) t -> (0 <= i < Z.of_nat n)%Z -> (0 <= j < Z.of_nat m)%Z -> lookup t i j <> None).
  { intros t n m i j Hl Hf Hi Hj. unfold lookup. destruct (nth_error t (Z.to_nat i)) as [row|] eqn:Er.
    - apply nth_error_In in Er. rewrite Forall_forall in Hf. apply Hf in Er. apply nth_error_Some. lia.
    - exfalso. revert Er. apply nth_error_Some. lia. }
  destruct (Z.eqb_spec (aV c) 1) as [E1|E1]; [|destruct (Z.eqb_spec (aV c) 2) as [E2|E2]; [|discriminate]].
  - destruct (Main 1 9 E1 ltac:(lia))%Z as [M1 [M2 [M3 [M4 _]]]]. apply (L beTableV1 10 7)%nat; [reflexivity|repeat constructor|lia|].
    destruct (Z.eq_dec (aHe c) 0) as [e0|e0]; [specialize (M3 e0)|specialize (M4 e0)]; lia.
  - destruct (Main 2 14 E2 ltac:(lia))%Z as [M1 [M2 [M3 [M4 [M5 M6]]]]]. rewrite u32_small in * by lia. apply (L beTableV2 15 12)%nat; [reflexivity|repeat constructor|lia|].
    destruct (Z.eq_dec (aHe c) 0) as [e0|e0]; [specialize (M3 e0)|specialize (M4 e0)]; lia.
Qed.
(** The excluded compositions are selected (nine deuterium and three tritium atoms, or the like, in
    two vacancies), and the table for two vacancies, with columns for at most 11 hydrogen
    atoms, is read in column 12 for the emission of a deuterium atom. *)
Theorem c54_twelve_refuted mHe mD mT mV mP mI ratio d t a e e' : (3 <= d <= 9)%Z -> (t = 12 - d)%Z ->
  (1 <= mD)%Z -> (1 <= mT)%Z -> (2 <= mV < 30)%Z -> (2 <= mP)%Z -> (0 <= mI)%Z ->
  let c := Comp 0 d t 2 0 in
  select mHe mD mT mV mP mI ratio (single c) = Some true /\
  tableEnergy (Cluster (single c) e) (Cluster (single (Comp 0 1 0 0 0)) e') a = None.
Proof.
  intros Hd Ht HmD HmT HmV HmP HmI c. subst t. split.
  - unfold select. replace (selectAxes _ _ _ _ _ _ _) with true.
    + unfold selectEdge, c, single. cbn [lo hi aHe aD aT aV aI]. change (1 <? 2 + 1)%Z with true. cbn iota. change (2 + 1 - 1)%Z with 2%Z. rewrite Z.min_l by lia.
      unfold getMaxHePerV. destruct (Z.ltb_spec mV 30); [|lia]. change (2 <? 30)%Z with true. cbn iota. change (nth (Z.to_nat 2) maxHePerV 0%Z) with 14%Z.
      replace (d + (12 - d))%Z with 12%Z by lia. change (u32 12) with 12%Z. change (0 =? 0)%Z with true. cbn iota. change (u32 (6 * 2)) with 12%Z. change (12 <? 12)%Z with false.
      f_equal. rewrite !(proj2 (Z.ltb_ge _ _)) by lia. reflexivity.
    + symmetry. unfold selectAxes, c, single, ends, onI, onV, one, any. cbn [lo hi aHe aD aT aV aI]. change (2 + 1 =? 1)%Z with false. change (0 <? 0)%Z with false. change (0 + 1 =? 1)%Z with true.
      rewrite !(proj2 (Z.eqb_neq (d + 1) 1)), !(proj2 (Z.eqb_neq (12 - d + 1) 1)) by lia. rewrite !(proj2 (Z.ltb_ge mI 0)), !(proj2 (Z.ltb_ge mP 2)), !(proj2 (Z.ltb_ge mV 2)) by lia.
      rewrite (proj2 (Z.eqb_neq mD 0)) by lia. rewrite !andb_false_r. reflexivity.
  - unfold tableEnergy, useTable. unfold single, isSimplex, onD, c. cbn [reg lo hi aHe aD aT aV aI].
    rewrite !Z.eqb_refl. cbn [andb orb negb Z.eqb Pos.eqb]. replace (d + (12 - d))%Z with 12%Z by lia. change (u32 12) with 12%Z. reflexivity.
Qed.
Example c54_ok : select 8 1 1 10 20 5 4 (single (Comp 3 1 1 1 0)) = Some true /\ ~ (aV (Comp 3 1 1 1 0) = 2 /\ aHe (Comp 3 1 1 1 0) = 0 /\ aD (Comp 3 1 1 1 0) + aT (Comp 3 1 1 1 0) = 12)%Z.
Proof. split; [reflexivity|]. cbn. lia. Qed.
Print Assumptions c54_in_table_partial.
Print Assumptions c54_twelve_refuted.
