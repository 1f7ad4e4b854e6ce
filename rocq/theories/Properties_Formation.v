(** C62: formation energies of the PSI clusters, and the energies to emit a helium atom or a vacancy. *)
From Coq Require Import Reals ZArith List Lra Lia Bool.
From Verif Require Import FormationModel FormationProofs Properties_Energy Properties_Select.
Import ListNotations.
Open Scope R_scope.

(** ** Every selected cluster has a formation energy *)
Theorem c62_formed mHe mD mT mV mP mI ratio B g c :
  (0 <= mHe /\ 0 <= mD /\ 0 <= mT /\ 0 <= mV /\ 0 <= mP /\ 0 <= mI)%Z -> (6 * mV + 87 < 4294967296)%Z ->
  (forall v, (0 <= v <= mV)%Z -> getMaxHePerV v ratio = Some (B v)) -> nonneg c -> fits c ->
  select mHe mD mT mV mP mI ratio (single c) = Some true -> psiFormation g (single c) <> None.
Proof.
  intros HL HS HB Hn Hf Hs. apply (c58_psi mHe mD mT mV mP mI ratio B HL HS HB c Hn Hf) in Hs.
  unfold psiFormation. destruct (g <=? _)%Z; [discriminate|]. destruct (isSimplex (single c)); [|discriminate]. cbn [single lo].
  destruct (onI c); [discriminate|]. destruct (onHe c) eqn:EH; [destruct (aHe c <? 9)%Z; discriminate|]. destruct (onD c) eqn:ED; [discriminate|]. destruct (onT c) eqn:ET; [discriminate|].
  destruct (heVFormation c) eqn:EF; [discriminate|]. exfalso. unfold heVFormation in EF.
  inversion Hs as [i A E|he A E|d A E|t A E|v A E|he d t v A A1 A2 A3 A4 A5 A6 A7 A8 A9 A10 E]; subst c; cbn [aHe aV] in EF; try discriminate EF;
  try (unfold onHe, onD, onT in *; cbn in *; match type of A with (0 < ?x <= _)%Z => destruct (Z.eqb_spec x 0); [lia|discriminate] end).
  - destruct (Z.ltb_spec v 3); cbn [andb Z.eqb] in EF; [discriminate|]. destruct (Z.ltb_spec 2 v); [discriminate|lia].
  - destruct ((he =? 0)%Z && (v <? 3)%Z)%bool; [discriminate|]. destruct (Z.ltb_spec 2 v); [discriminate|].
    assert (C : v = 1%Z \/ v = 2%Z) by lia. pose proof (HB v ltac:(lia)) as E. unfold getMaxHePerV in E. destruct (Z.ltb_spec v 30); [|lia]. injection E as E.
    destruct C as [-> | ->]; [change (9 = B 1)%Z in E|change (14 = B 2)%Z in E]; cbn in EF.
    + destruct (Z.ltb_spec he 15); [discriminate|lia].
    + destruct (Z.ltb_spec he 19); [discriminate|lia].
Qed.
Print Assumptions c62_formed.
Example c62_formed_ok : nonneg (Comp 9 2 0 1 0) /\ fits (Comp 9 2 0 1 0) /\ select 8 1 1 50 50 6 4 (single (Comp 9 2 0 1 0)) <> None.
Proof.
  split; [unfold nonneg; cbn; lia|]. split; [unfold fits; cbn; lia|]. unfold select. destruct (selectAxes _ _ _ _ _ _ _); [|discriminate].
  unfold selectEdge. cbn [single lo hi aHe aD aT aV aI]. destruct (c39_defined 50 4 ltac:(lia) ltac:(lra) ltac:(lra)) as (h & -> & _). cbn. discriminate.
Qed.

(** ** The energies to emit one atom. A cluster of one composition below the grouping size, as the network has it. *)
Definition heVR (c : comp) : R := match heVFormation c with Some e => e | None => 0 end.
Definition cluster_ (g : Z) (c : comp) : cluster := Cluster (single c) (match psiFormation g (single c) with Some e => e | None => Fin 0 end).
Definition emission (g : Z) (c p q : comp) : option energy := bindingEnergy heVR (cluster_ g c) (cluster_ g p) (cluster_ g q).
Definition most (ratio : R) (v : Z) (h : Z) : Prop := exists b, getMaxHePerV v ratio = Some b /\ (0 <= h <= b)%Z.
Lemma single_simplex c : isSimplex (single c) = true.
Proof. destruct c. unfold isSimplex, single. cbn. rewrite !Z.eqb_refl. reflexivity. Qed.
Lemma most_heMost ratio v h : (0 <= v < 4294967209)%Z -> ratio <= 4 -> most ratio v h -> (0 <= h <= heMost v)%Z.
Proof.
  intros Hv Hr (b & E & Hb). split; [lia|]. apply Z.le_trans with b; [lia|]. unfold getMaxHePerV in E. unfold heMost. destruct (Z.ltb_spec v 30).
  - injection E as <-. reflexivity || lia.
  - unfold toAmount in E. destruct (Rle_dec _ _); [discriminate|]. destruct (Rlt_dec _ _); [|discriminate]. apply some_inj in E. subst b.
    assert (W : u32 (nth 29 maxHePerV 0%Z + v - 30 + 1) = (v + 87)%Z) by (unfold maxHePerV; cbn [nth]; unfold u32; rewrite Z.mod_small by lia; lia).
    rewrite W. destruct (base_Int_part (ratio * IZR v)) as [I1 _].
    assert (Int_part (ratio * IZR v) <= 4 * v)%Z; [|lia]. apply le_IZR. rewrite mult_IZR. apply IZR_le in H. nra.
Qed.
Lemma heVR_fit he d t v i : (3 <= v)%Z -> heVR (Comp he d t v i) = fit he v.
Proof.
  intros H. unfold heVR, heVFormation. cbn [aHe aV]. destruct (Z.ltb_spec v 3); [lia|]. rewrite andb_false_r. destruct (Z.ltb_spec 2 v); [reflexivity|lia].
Qed.
Lemma heVR_1 n d t i : (n < 15)%nat -> heVR (Comp (Z.of_nat n) d t 1 i) =
  nth n [3.6; 5.14166; 8.20919; 11.5304; 14.8829; 18.6971; 22.2847; 26.3631; 30.1049; 34.0081; 38.2069; 42.4217; 46.7378; 51.1551; 55.6738] 0.
Proof. intros H. do 15 (destruct n as [|n]; [reflexivity|]). lia. Qed.
Lemma heVR_2 n d t i : (n < 19)%nat -> heVR (Comp (Z.of_nat n) d t 2 i) =
  nth n [7.25; 7.10098; 8.39913; 9.41133; 11.8748; 14.8296; 17.7259; 20.7747; 23.7993; 26.7984; 30.0626; 33.0385; 36.5173; 39.9406; 43.48; 46.8537; 50.4484; 54.0879; 57.7939] 0.
Proof. intros H. do 19 (destruct n as [|n]; [reflexivity|]). lia. Qed.
Lemma heVR_V1 : heVR (Comp 0 0 0 1 0) = 3.6. Proof. reflexivity. Qed.
Lemma formation_v g he d t v : (0 <= he)%Z -> (1 <= v)%Z -> (v + 1 < g)%Z -> (v = 1%Z -> (he <= 14)%Z) -> (v = 2%Z -> (he <= 18)%Z) ->
  formation (cluster_ g (Comp he d t v 0)) = Fin (heVR (Comp he d t v 0)).
Proof.
  intros Hh Hv Hg H1 H2. unfold cluster_, psiFormation. cbn [formation]. rewrite single_simplex. cbn [single hi lo aV]. destruct (Z.leb_spec g (v + 1)); [lia|].
  unfold onI, onHe, onD, onT. cbn [aHe aD aT aV aI]. destruct (Z.eqb_spec v 0); [lia|]. rewrite !andb_false_r. cbn [andb]. unfold heVR.
  destruct (heVFormation (Comp he d t v 0)) eqn:E; [reflexivity|]. exfalso. unfold heVFormation in E. cbn [aHe aV] in E.
  destruct ((he =? 0)%Z && (v <? 3)%Z)%bool; [discriminate|]. destruct (Z.ltb_spec 2 v); [discriminate|].
  assert (C : v = 1%Z \/ v = 2%Z) by lia. destruct C as [-> | ->]; cbn in E.
  - destruct (Z.ltb_spec he 15); [discriminate|lia].
  - destruct (Z.ltb_spec he 19); [discriminate|lia].
Qed.
Lemma formation_He1 g : (1 < g)%Z -> formation (cluster_ g (Comp 1 0 0 0 0)) = Fin 6.15.
Proof. intros H. unfold cluster_, psiFormation. cbn. destruct (Z.leb_spec g 1); [lia|]. reflexivity. Qed.
Lemma no_table g c p q : (1 <= aV c)%Z -> onD p = false -> onT p = false -> onD q = false -> onT q = false ->
  tableEnergy (cluster_ g c) (cluster_ g p) (cluster_ g q) = Some 0.
Proof.
  intros Hv H1 H2 H3 H4. unfold tableEnergy, useTable, cluster_. cbn [reg single lo]. rewrite H1, H2, H3, H4. cbn [orb]. rewrite !andb_false_r. reflexivity.
Qed.
Lemma not_special g c p q : onV p = false -> onV q = false -> isSpecial (cluster_ g c) (cluster_ g p) (cluster_ g q) = false.
Proof. intros H1 H2. unfold isSpecial, cluster_. cbn [reg single lo]. rewrite H1, H2. reflexivity. Qed.
Lemma emission_plain g c p q e f h : tableEnergy (cluster_ g c) (cluster_ g p) (cluster_ g q) = Some 0 ->
  isSpecial (cluster_ g c) (cluster_ g p) (cluster_ g q) = false ->
  formation (cluster_ g c) = Fin e -> formation (cluster_ g p) = Fin f -> formation (cluster_ g q) = Fin h -> emission g c p q = Some (Fin (Rmax (f + h - e) (-5))).
Proof. intros H1 H2 H3 H4 H5. unfold emission, bindingEnergy. rewrite H1, H2, H3, H4, H5. destruct (Req_EM_T 0 0); [|lra]. reflexivity. Qed.
Lemma he_positive he v : (3 <= v <= 812)%Z -> (1 <= he <= heMost v)%Z -> 0 < fit (he - 1) v + 6.15 - fit he v.
Proof.
  intros Hv Hh. pose proof (he_all v ltac:(lia)) as C. apply (positiveOn_spec 1 (heMost v) (hePoly v) (IZR he)) in C; [|split; apply IZR_le; lia].
  rewrite hePoly_spec in C by lia. pose proof (energyDen_pos v ltac:(lia)) as D. apply IZR_lt in D.
  apply Rmult_lt_reg_l with (IZR (energyDen v)); [exact D|]. lra.
Qed.
Lemma v_positive he v : (4 <= v <= 812)%Z -> v <> 28%Z -> (0 <= he <= heMost (v - 1))%Z -> 0 < fit he (v - 1) + 3.6 - fit he v.
Proof.
  intros Hv H28 Hh. pose proof (v_all v ltac:(lia) H28) as P. apply (positiveOn_spec 0 (heMost (v - 1)) (vPoly v) (IZR he)) in P; [|split; apply IZR_le; lia].
  rewrite vPoly_spec in P by lia. assert (D : 0 < 16000 * 9 ^ 5 * (IZR v * IZR (v - 1)) ^ 5 * IZR (yDen v) ^ 3).
  { assert (0 < IZR v) by (apply IZR_lt; lia). assert (0 < IZR (v - 1)) by (apply IZR_lt; lia). assert (0 < IZR (yDen v)) by (apply IZR_lt; unfold yDen; destruct (high v); lia).
    apply Rmult_lt_0_compat; [|apply pow_lt; assumption]. apply Rmult_lt_0_compat; [lra|]. apply pow_lt. apply Rmult_lt_0_compat; assumption. }
  apply Rmult_lt_reg_l with (16000 * 9 ^ 5 * (IZR v * IZR (v - 1)) ^ 5 * IZR (yDen v) ^ 3); [exact D|]. lra.
Qed.
(** Any helium atom is bound, in clusters of up to 812 vacancies, and the energy is that between the formation energies -
    except the last atom in clusters of 16 to 31 vacancies. *)
Theorem c62_helium_partial : forall g ratio he d t v, ratio <= 4 -> (1 <= v <= 812)%Z -> (v + 1 < g)%Z -> (1 <= he)%Z -> most ratio v he -> (0 <= d)%Z -> (0 <= t)%Z ->
  ~ (he = 1 /\ d = 0 /\ t = 0 /\ 16 <= v <= 31)%Z ->
  exists e, 0 < e /\ emission g (Comp he d t v 0) (Comp (he - 1) d t v 0) (Comp 1 0 0 0 0) = Some (Fin e) /\
  e = heVR (Comp (he - 1) d t v 0) + 6.15 - heVR (Comp he d t v 0).
Proof.
  intros g ratio he d t v Hr Hv Hg Hh Hm Hd Ht HN. pose proof (most_heMost ratio v he ltac:(lia) Hr Hm) as HM.
  assert (P : 0 < heVR (Comp (he - 1) d t v 0) + 6.15 - heVR (Comp he d t v 0)).
  { destruct (Z_le_dec 3 v) as [L|L].
    - rewrite !heVR_fit by exact L. apply he_positive; lia.
    - assert (C : v = 1%Z \/ v = 2%Z) by lia. destruct C as [-> | ->]; [change (heMost 1) with 9%Z in HM|change (heMost 2) with 14%Z in HM].
      + destruct (Z_of_nat_complete_inf he ltac:(lia)) as [[|n] ->]; [lia|]. replace (Z.of_nat (S n) - 1)%Z with (Z.of_nat n) by lia. rewrite !heVR_1 by lia.
        do 9 (destruct n as [|n]; [cbn [nth]; lra|]). lia.
      + destruct (Z_of_nat_complete_inf he ltac:(lia)) as [[|n] ->]; [lia|]. replace (Z.of_nat (S n) - 1)%Z with (Z.of_nat n) by lia. rewrite !heVR_2 by lia.
        do 14 (destruct n as [|n]; [cbn [nth]; lra|]). lia. }
  eexists. split; [exact P|]. split; [|reflexivity].
  assert (M1 : (v = 1%Z -> he <= 9)%Z) by (intros ->; change (heMost 1) with 9%Z in HM; lia). assert (M2 : (v = 2%Z -> he <= 14)%Z) by (intros ->; change (heMost 2) with 14%Z in HM; lia).
  assert (TB : tableEnergy (cluster_ g (Comp he d t v 0)) (cluster_ g (Comp (he - 1) d t v 0)) (cluster_ g (Comp 1 0 0 0 0)) = Some 0).
  { apply no_table; try reflexivity; cbn [aV]; [lia|unfold onD|unfold onT]; cbn [aHe aD aT aV aI]; destruct (Z.eqb_spec v 0); try lia; rewrite ?andb_false_r; reflexivity. }
  assert (SP : isSpecial (cluster_ g (Comp he d t v 0)) (cluster_ g (Comp (he - 1) d t v 0)) (cluster_ g (Comp 1 0 0 0 0)) = false).
  { destruct (onV (Comp (he - 1) d t v 0)) eqn:EV; [|apply not_special; [exact EV|reflexivity]].
    unfold onV in EV. cbn [aHe aD aT aV aI] in EV. rewrite !andb_true_iff, !Z.eqb_eq in EV. destruct EV as ((((E1 & E2) & E3) & _) & _).
    unfold isSpecial, cluster_. cbn [reg single lo]. rewrite c45_window. cbn [aHe aV]. subst d t. destruct (Z.leb_spec (Z.max 16 (Z.max 1 (tooSmall he) + 2)) v); [|rewrite andb_false_r; reflexivity].
    destruct (Z.leb_spec v 31); [exfalso; lia|]. rewrite !andb_false_r. reflexivity. }
  rewrite (emission_plain g _ _ _ (heVR (Comp he d t v 0)) (heVR (Comp (he - 1) d t v 0)) 6.15); [|exact TB|exact SP|apply formation_v; lia|apply formation_v; lia|apply formation_He1; lia].
  rewrite Rmax_left by lra. reflexivity.
Qed.
Print Assumptions c62_helium_partial.
Example c62_helium_ok : exists g ratio he v, ratio <= 4 /\ (1 <= v <= 812)%Z /\ (v + 1 < g)%Z /\ (1 <= he)%Z /\ most ratio v he /\ ~ (he = 1 /\ 0 = 0 /\ 0 = 0 /\ 16 <= v <= 31)%Z.
Proof. exists 100%Z, 4, 75%Z, 20%Z. repeat split; try lia; try lra. exists 98%Z. split; [reflexivity|lia]. Qed.

(** ** The last helium atom, and the last hydrogen atom, of 16 to 31 vacancies *)
Lemma fit_le he v a b : (1 <= v)%Z -> (0 < b)%Z -> (evz (energyPoly v) he * b <=? a * energyDen v)%Z = true -> fit he v <= IZR a / IZR b.
Proof.
  intros Hv Hb H. apply Z.leb_le, IZR_le in H. rewrite !mult_IZR, ev_evz, fit_spec in H by exact Hv. pose proof (IZR_lt _ _ (energyDen_pos v Hv)) as D. apply IZR_lt in Hb.
  apply Rmult_le_reg_l with (IZR (energyDen v) * IZR b); [apply Rmult_lt_0_compat; assumption|]. replace (IZR (energyDen v) * IZR b * (IZR a / IZR b)) with (IZR a * IZR (energyDen v)) by (field; lra). lra.
Qed.
Lemma fit_ge he v a b : (1 <= v)%Z -> (0 < b)%Z -> (a * energyDen v <=? evz (energyPoly v) he * b)%Z = true -> IZR a / IZR b <= fit he v.
Proof.
  intros Hv Hb H. apply Z.leb_le, IZR_le in H. rewrite !mult_IZR, ev_evz, fit_spec in H by exact Hv. pose proof (IZR_lt _ _ (energyDen_pos v Hv)) as D. apply IZR_lt in Hb.
  apply Rmult_le_reg_l with (IZR (energyDen v) * IZR b); [apply Rmult_lt_0_compat; assumption|]. replace (IZR (energyDen v) * IZR b * (IZR a / IZR b)) with (IZR a * IZR (energyDen v)) by (field; lra). lra.
Qed.
Ltac bounds h v a := let b := eval compute in (a + 1)%Z in let H := fresh in
  assert (H : IZR a / 1000 <= fit h v <= IZR b / 1000) by
    (split; [apply fit_ge; [lia|lia|vm_compute; reflexivity]|apply fit_le; [lia|lia|vm_compute; reflexivity]]).
Lemma between x y k : 0 <= k <= 15 -> 2 < x < 3 -> 2 < y < 3 -> 2 < x + k * (y - x) / 15 < 3.
Proof.
  intros Hk Hx Hy. replace (x + k * (y - x) / 15) with ((1 - k / 15) * x + k / 15 * y) by field. assert (K : 0 <= k / 15 <= 1) by lra. generalize dependent (k / 15). intros q Hq.
  destruct (Req_dec q 0) as [->|N]; [lra|]. assert (0 < q * (y - 2)) by (apply Rmult_lt_0_compat; lra). assert (0 < q * (3 - y)) by (apply Rmult_lt_0_compat; lra).
  assert (0 <= (1 - q) * (x - 2)) by (apply Rmult_le_pos; lra). assert (0 <= (1 - q) * (3 - x)) by (apply Rmult_le_pos; lra). lra.
Qed.
Lemma special_no_helium he d t v : (0 <= he <= 1)%Z -> (16 <= v <= 31)%Z -> 2 < special heVR (Comp he d t v 0) < 3.
Proof.
  intros Hh Hv. unfold special. rewrite c45_window. cbn [aHe aV withV]. unfold withV. cbn [aHe aD aT aI]. assert (L : Z.max 16 (Z.max 1 (tooSmall he) + 2) = 16%Z).
  { assert (C : he = 0%Z \/ he = 1%Z) by lia. destruct C as [-> | ->]; reflexivity. }
  rewrite L. change (u32 (31 - 16) <? 4)%Z with false. cbv iota. rewrite heVR_V1, !heVR_fit by lia. change (16 - 1)%Z with 15%Z. change (31 - 16)%Z with 15%Z.
  assert (B : 2 < fit he 15 + 3.6 - fit he 16 < 3 /\ 2 < fit he 30 + 3.6 - fit he 31 < 3).
  { assert (C : he = 0%Z \/ he = 1%Z) by lia. destruct C as [-> | ->].
    - bounds 0%Z 15%Z 32267%Z. bounds 0%Z 16%Z 33558%Z. bounds 0%Z 30%Z 52763%Z. bounds 0%Z 31%Z 53758%Z. lra.
    - bounds 1%Z 15%Z 31886%Z. bounds 1%Z 16%Z 33234%Z. bounds 1%Z 30%Z 52411%Z. bounds 1%Z 31%Z 53427%Z. lra. }
  destruct B as [[B1 B2] [B3 B4]]. assert (P : 0 <= IZR (v - 16) <= 15) by (split; [apply (IZR_le 0)|apply (IZR_le _ 15)]; lia).
  generalize dependent (IZR (v - 16)). intros k P. remember (fit he 15 + 3.6 - fit he 16) as x. remember (fit he 30 + 3.6 - fit he 31) as y. apply between; lra.
Qed.

Lemma forty_fits v : (16 <= v <= 31)%Z -> 5 < fit 0 v + 6.15 - fit 1 v.
Proof.
  intros Hv. assert (C : (5 * energyDen v <? evz (hePoly v) 1)%Z = true) by (apply (forallb_Z (fun w => 5 * energyDen w <? evz (hePoly w) 1)%Z 16 16 v 16 32); [vm_compute; reflexivity|reflexivity|reflexivity|lia]).
  apply Z.ltb_lt, IZR_lt in C. rewrite mult_IZR, ev_evz, hePoly_spec in C by lia. pose proof (IZR_lt _ _ (energyDen_pos v ltac:(lia))) as D.
  apply Rmult_lt_reg_l with (IZR (energyDen v)); [exact D|]. change (1 - 1)%Z with 0%Z in C. lra.
Qed.
(** Taking the only helium atom out of 16 to 31 vacancies costs more than 5 eV after the formation energies; the rate is
    computed with the energy of a vacancy, less than 3 eV, because the other product is on the vacancy axis. *)
Theorem c62_last_helium_refuted g v : (16 <= v <= 31)%Z -> (v + 1 < g)%Z ->
  exists e, emission g (Comp 1 0 0 v 0) (Comp 0 0 0 v 0) (Comp 1 0 0 0 0) = Some (Fin e) /\ 2 < e < 3 /\
  exists e0 e1, formation (cluster_ g (Comp 1 0 0 v 0)) = Fin e1 /\ formation (cluster_ g (Comp 0 0 0 v 0)) = Fin e0 /\
  formation (cluster_ g (Comp 1 0 0 0 0)) = Fin 6.15 /\ 5 < e0 + 6.15 - e1.
Proof.
  intros Hv Hg. pose proof (special_no_helium 1 0 0 v ltac:(lia) Hv) as S. exists (special heVR (Comp 1 0 0 v 0)). split; [|split; [exact S|]].
  - unfold emission, bindingEnergy. rewrite no_table; [|cbn [aV]; lia|reflexivity|unfold onT; cbn [aHe aD aT aV aI]; rewrite ?andb_false_r; reflexivity|reflexivity|reflexivity].
    destruct (Req_EM_T 0 0); [|lra]. assert (I : isSpecial (cluster_ g (Comp 1 0 0 v 0)) (cluster_ g (Comp 0 0 0 v 0)) (cluster_ g (Comp 1 0 0 0 0)) = true).
    { unfold isSpecial, cluster_. cbn [reg single lo aHe aV]. rewrite c45_window. change (Z.max 16 (Z.max 1 (tooSmall 1) + 2)) with 16%Z.
      unfold onV. cbn [aHe aD aT aV aI]. destruct (Z.eqb_spec v 0); [lia|]. destruct (Z.leb_spec 16 v); [|lia]. destruct (Z.leb_spec v 31); [|lia]. reflexivity. }
    rewrite I. cbn [emax cluster_ reg single lo]. rewrite Rmax_left by lra. reflexivity.
  - exists (heVR (Comp 0 0 0 v 0)), (heVR (Comp 1 0 0 v 0)). split; [apply formation_v; lia|]. split; [apply formation_v; lia|]. split; [apply formation_He1; lia|].
    rewrite !heVR_fit by lia. apply forty_fits. exact Hv.
Qed.
Print Assumptions c62_last_helium_refuted.
Example c62_last_helium_ok : (16 <= 20 <= 31)%Z /\ (20 + 1 < 50)%Z. Proof. lia. Qed.
(** Hydrogen is never emitted by three or more vacancies (its formation energy is infinite) - except the only deuterium
    or tritium atom of 16 to 31 vacancies, at less than 3 eV. *)
Theorem c62_last_hydrogen_refuted g v (h : bool) : (3 <= v)%Z -> (v + 1 < g)%Z ->
  let cl := if h then Comp 0 1 0 v 0 else Comp 0 0 1 v 0 in let a := if h then Comp 0 1 0 0 0 else Comp 0 0 1 0 0 in
  ((16 <= v <= 31)%Z -> exists e, emission g cl (Comp 0 0 0 v 0) a = Some (Fin e) /\ 2 < e < 3) /\
  (~ (16 <= v <= 31)%Z -> emission g cl (Comp 0 0 0 v 0) a = Some Inf).
Proof.
  intros Hv Hg cl a.
  assert (T : tableEnergy (cluster_ g cl) (cluster_ g (Comp 0 0 0 v 0)) (cluster_ g a) = Some 0).
  { unfold tableEnergy. destruct (useTable _ _ _); [|reflexivity]. unfold cl, cluster_. destruct h; cbn [reg single lo aV]; destruct (Z.eqb_spec v 1); try lia; destruct (Z.eqb_spec v 2); try lia; reflexivity. }
  assert (I : isSpecial (cluster_ g cl) (cluster_ g (Comp 0 0 0 v 0)) (cluster_ g a) = ((16 <=? v) && (v <=? 31))%Z).
  { unfold isSpecial, cluster_, cl, a. destruct h; cbn [reg single lo aHe aV]; rewrite c45_window; change (Z.max 16 (Z.max 1 (tooSmall 0) + 2)) with 16%Z;
    unfold onV; cbn [aHe aD aT aV aI]; (destruct (Z.eqb_spec v 0); [lia|]); reflexivity. }
  assert (F : formation (cluster_ g a) = Inf). { unfold cluster_, a, psiFormation. destruct h; cbn; (destruct (Z.leb_spec g 1); [lia|]); reflexivity. }
  assert (F1 : exists e, formation (cluster_ g cl) = Fin e) by (unfold cl; destruct h; eexists; apply formation_v; lia). destruct F1 as [e1 F1].
  unfold emission, bindingEnergy. rewrite T, I, F, F1. destruct (Req_EM_T 0 0); [|lra]. split; intros Hw.
  - destruct (Z.leb_spec 16 v); [|lia]. destruct (Z.leb_spec v 31); [|lia]. cbn [andb].
    assert (S : 2 < special heVR cl < 3) by (unfold cl; destruct h; apply special_no_helium; lia). exists (special heVR cl). split; [|exact S].
    unfold cluster_. cbn [reg single lo emax]. rewrite Rmax_left by lra. reflexivity.
  - destruct (Z.leb_spec 16 v), (Z.leb_spec v 31); cbn [andb]; try lia; destruct (formation (cluster_ g (Comp 0 0 0 v 0))); reflexivity.
Qed.
Print Assumptions c62_last_hydrogen_refuted.
Example c62_last_hydrogen_ok : (3 <= 15)%Z /\ (15 + 1 < 50)%Z /\ ~ (16 <= 15 <= 31)%Z. Proof. lia. Qed.

(** ** Vacancies *)
Notation windowStart he := (Z.max 16 (Z.max 1 (tooSmall he) + 2)).
Notation windowCheck := (fun he : Z => (forallb (fun v => (heMost (v - 1) <? he) || (windowStart he <=? v))%Z (map Z.of_nat (seq 16 16)) &&
  (he <=? heMost (windowStart he - 1)) && (windowStart he <=? 31))%Z).
Lemma window_checked : forallb windowCheck (map Z.of_nat (seq 0 121)) = true. Proof. vm_compute. reflexivity. Qed.
Lemma window_facts he v : (16 <= v <= 31)%Z -> (0 <= he <= heMost (v - 1))%Z -> (windowStart he <= v)%Z /\ (he <= heMost (windowStart he - 1))%Z /\ (he <= 120)%Z.
Proof.
  intros Hv Hh. assert (M : (heMost (v - 1) <= 120)%Z).
  { apply Z.leb_le. apply (forallb_Z (fun v => heMost (v - 1) <=? 120)%Z 16 16 v 16 32); [vm_compute; reflexivity|reflexivity|reflexivity|lia]. }
  pose proof (forallb_Z windowCheck 0 121 he 0 121 window_checked eq_refl eq_refl ltac:(lia)) as C. cbv beta in C. rewrite !andb_true_iff in C. destruct C as ((C & C1) & _).
  pose proof (forallb_Z _ 16 16 v 16 32 C eq_refl eq_refl ltac:(lia)) as D. cbv beta in D. clear C. apply Z.leb_le in C1. destruct (Z.ltb_spec (heMost (v - 1)) he); [lia|]. rewrite orb_false_l in D. apply Z.leb_le in D. lia.
Qed.
Lemma v2_positive n : (1 <= n < 10)%nat -> forall d t, 0 < heVR (Comp (Z.of_nat n) d t 1 0) + 3.6 - heVR (Comp (Z.of_nat n) d t 2 0).
Proof. intros H d t. rewrite heVR_1, heVR_2 by lia. destruct n as [|n]; [lia|]. do 9 (destruct n as [|n]; [cbn [nth]; lra|]). lia. Qed.
Lemma v3_positive n : (n < 15)%nat -> forall d t, 0 < heVR (Comp (Z.of_nat n) d t 2 0) + 3.6 - heVR (Comp (Z.of_nat n) d t 3 0).
Proof.
  intros H d t. rewrite heVR_2 by lia. rewrite heVR_fit by lia.
  Ltac three n a := destruct n as [|n]; [match goal with |- context [fit ?z 3] => let z' := eval compute in z in change z with z' end;
    match goal with |- context [fit ?z 3] => bounds z 3%Z a end; cbn [nth]; lra|].
  three n 9646%Z. three n 9470%Z. three n 10177%Z. three n 11505%Z. three n 13257%Z. three n 15295%Z. three n 17526%Z. three n 19900%Z.
  three n 22397%Z. three n 25018%Z. three n 27779%Z. three n 30700%Z. three n 33800%Z. three n 37081%Z. three n 40530%Z. lia.
Qed.
Lemma formation_V1 g : (2 < g)%Z -> formation (cluster_ g (Comp 0 0 0 1 0)) = Fin 3.6.
Proof. intros H. rewrite formation_v by lia. rewrite heVR_V1. reflexivity. Qed.
Lemma plain_vacancy g he d t v : (2 <= v <= 812)%Z -> (v < 16 \/ 31 < v)%Z -> (v + 1 < g)%Z -> (0 <= he <= heMost (v - 1))%Z -> ~ (he = 0 /\ v = 2)%Z ->
  tableEnergy (cluster_ g (Comp he d t v 0)) (cluster_ g (Comp he d t (v - 1) 0)) (cluster_ g (Comp 0 0 0 1 0)) = Some 0 ->
  exists e, 0 < e /\ emission g (Comp he d t v 0) (Comp he d t (v - 1) 0) (Comp 0 0 0 1 0) = Some (Fin e) /\
  (~ (16 <= v <= 31)%Z -> e = heVR (Comp he d t (v - 1) 0) + 3.6 - heVR (Comp he d t v 0)).
Proof.
  intros Hv Hw Hg HM HN T.
  assert (P : 0 < heVR (Comp he d t (v - 1) 0) + 3.6 - heVR (Comp he d t v 0)).
  { destruct (Z.eq_dec v 2) as [->|N2]; [|destruct (Z.eq_dec v 3) as [->|N3]].
    - change (heMost (2 - 1)) with 9%Z in HM. destruct (Z_of_nat_complete_inf he ltac:(lia)) as [n ->]. change (2 - 1)%Z with 1%Z. apply v2_positive. lia.
    - change (heMost (3 - 1)) with 14%Z in HM. destruct (Z_of_nat_complete_inf he ltac:(lia)) as [n ->]. change (3 - 1)%Z with 2%Z. apply v3_positive. lia.
    - rewrite !heVR_fit by lia. apply v_positive; lia. }
  assert (S : isSpecial (cluster_ g (Comp he d t v 0)) (cluster_ g (Comp he d t (v - 1) 0)) (cluster_ g (Comp 0 0 0 1 0)) = false).
  { unfold isSpecial, cluster_. cbn [reg single lo aHe aV]. rewrite c45_window. destruct (Z.leb_spec (Z.max 16 (Z.max 1 (tooSmall he) + 2)) v), (Z.leb_spec v 31); try lia; rewrite ?andb_false_r; reflexivity. }
  eexists. split; [exact P|]. split; [|reflexivity].
  assert (M1 : (v - 1 = 1 -> he <= 9)%Z) by (intros E; rewrite E in HM; change (heMost 1) with 9%Z in HM; lia).
  assert (M2 : (v - 1 = 2 -> he <= 14)%Z) by (intros E; rewrite E in HM; change (heMost 2) with 14%Z in HM; lia).
  rewrite (emission_plain g _ _ _ (heVR (Comp he d t v 0)) (heVR (Comp he d t (v - 1) 0)) 3.6); [|exact T|exact S|apply formation_v; lia|apply formation_v; lia|apply formation_V1; lia].
  rewrite Rmax_left by lra. reflexivity.
Qed.
Lemma mix_pos a b x y : 0 <= a -> 0 <= b -> 0 < a + b -> 0 < x -> 0 < y -> 0 < a * x + b * y.
Proof.
  intros Ha Hb Hab Hx Hy. assert (0 <= a * x) by (apply Rmult_le_pos; lra). assert (0 <= b * y) by (apply Rmult_le_pos; lra).
  destruct (Req_dec a 0) as [->|N]; [assert (0 < b * y) by (apply Rmult_lt_0_compat; lra); lra|]. assert (0 < a * x) by (apply Rmult_lt_0_compat; lra). lra.
Qed.
(** A vacancy is bound in every cluster of two to 812 vacancies, whatever it holds, except the empty pair. *)
Theorem c62_vacancy_partial : forall g ratio he d t v, ratio <= 4 -> (2 <= v <= 812)%Z -> (v + 1 < g)%Z -> most ratio (v - 1) he -> (0 <= d)%Z -> (0 <= t)%Z ->
  ~ (he = 0 /\ v = 2)%Z -> exists e, 0 < e /\ emission g (Comp he d t v 0) (Comp he d t (v - 1) 0) (Comp 0 0 0 1 0) = Some (Fin e) /\
  (~ (16 <= v <= 31)%Z -> e = heVR (Comp he d t (v - 1) 0) + 3.6 - heVR (Comp he d t v 0)).
Proof.
  intros g ratio he d t v Hr Hv Hg Hm Hd Ht HN. pose proof (most_heMost ratio (v - 1) he ltac:(lia) Hr Hm) as HM.
  assert (T : tableEnergy (cluster_ g (Comp he d t v 0)) (cluster_ g (Comp he d t (v - 1) 0)) (cluster_ g (Comp 0 0 0 1 0)) = Some 0).
  { apply no_table; try reflexivity; cbn [aV]; [lia|unfold onD|unfold onT]; cbn [aHe aD aT aV aI]; destruct (Z.eqb_spec (v - 1) 0); try lia; rewrite ?andb_false_r; reflexivity. }
  destruct (Z_le_dec 16 v) as [L|L]; [destruct (Z_le_dec v 31) as [U|U]|].
  - destruct (window_facts he v ltac:(lia) HM) as (W1 & W2 & W3).
    pose proof (c45_window_energy heVR (cluster_ g (Comp he d t v 0)) (cluster_ g (Comp he d t (v - 1) 0)) (cluster_ g (Comp 0 0 0 1 0))) as Q. cbv zeta in Q.
    change (lo (reg (cluster_ g (Comp he d t v 0)))) with (Comp he d t v 0) in Q. cbn [aHe aV] in Q.
    specialize (Q T (or_intror eq_refl) (conj W1 U)). destruct Q as (e & E & Q).
    assert (S : forall l, (4 <= l)%Z -> takeOff heVR (Comp he d t v 0) l = fit he (l - 1) + 3.6 - fit he l).
    { intros l Hl. unfold takeOff. cbn [aHe aD aT aV aI]. rewrite ?heVR_V1, !heVR_fit by lia. reflexivity. }
    assert (S31 : 0 < takeOff heVR (Comp he d t v 0) 31) by (rewrite S by lia; apply v_positive; [lia|lia|change (heMost (31 - 1)) with 120%Z; lia]).
    assert (P : 0 < e).
    { destruct (Z.ltb_spec (windowStart he) 28) as [A|A]; [|rewrite Q; exact S31].
      assert (A16 : (16 <= windowStart he)%Z) by lia.
      assert (SL : 0 < takeOff heVR (Comp he d t v 0) (windowStart he)) by (rewrite S by lia; apply v_positive; lia).
      assert (K1 : 0 <= IZR (31 - v)) by (apply IZR_le; lia). assert (K2 : 0 <= IZR (v - windowStart he)) by (apply IZR_le; lia).
      assert (K3 : IZR (31 - windowStart he) = IZR (31 - v) + IZR (v - windowStart he)) by (rewrite <- plus_IZR; apply f_equal; lia).
      assert (K4 : 0 < IZR (31 - windowStart he)) by (apply IZR_lt; lia). apply Rmult_lt_reg_r with (IZR (31 - windowStart he)); [exact K4|]. rewrite Rmult_0_l, Q. apply mix_pos; lra. }
    exists e. split; [exact P|]. split; [|lia]. unfold emission. rewrite E, Rmax_left by lra. reflexivity.
  - apply plain_vacancy; try assumption; lia.
  - apply plain_vacancy; try assumption; lia.
Qed.
Print Assumptions c62_vacancy_partial.
Example c62_vacancy_ok : exists g ratio he v, ratio <= 4 /\ (2 <= v <= 812)%Z /\ (v + 1 < g)%Z /\ most ratio (v - 1) he /\ ~ (he = 0 /\ v = 2)%Z.
Proof. exists 100%Z, 4, 95%Z, 20%Z. repeat split; try lia; try lra. exists 95%Z. split; [reflexivity|lia]. Qed.
(** The empty pair is not bound, with or without hydrogen. *)
Theorem c62_divacancy_refuted g d t : (3 < g)%Z -> (0 <= d)%Z -> (0 <= t)%Z ->
  emission g (Comp 0 d t 2 0) (Comp 0 d t 1 0) (Comp 0 0 0 1 0) = Some (Fin (-0.05)).
Proof.
  intros Hg Hd Ht. rewrite (emission_plain g _ _ _ 7.25 3.6 3.6).
  - rewrite Rmax_left by lra. do 2 f_equal. lra.
  - apply no_table; try reflexivity; cbn [aV]; [lia|unfold onD|unfold onT]; cbn [aHe aD aT aV aI]; rewrite ?andb_false_r; reflexivity.
  - unfold isSpecial, cluster_. cbn [reg single lo aHe aV]. rewrite c45_window. apply andb_false_r.
  - rewrite formation_v by lia. reflexivity.
  - rewrite formation_v by lia. reflexivity.
  - apply formation_V1. lia.
Qed.
Print Assumptions c62_divacancy_refuted.
Example c62_divacancy_ok : (3 < 10)%Z /\ (0 <= 1)%Z. Proof. lia. Qed.
(** A single vacancy with one to eight helium atoms. *)
Theorem c62_trap : forall g n, (2 < g)%Z -> (1 <= n <= 8)%nat ->
  exists e, 4 < e /\ emission g (Comp (Z.of_nat n) 0 0 1 0) (Comp (Z.of_nat n) 0 0 0 0) (Comp 0 0 0 1 0) = Some (Fin e).
Proof.
  intros g n Hg Hn.
  set (E1 := nth n [3.6; 5.14166; 8.20919; 11.5304; 14.8829; 18.6971; 22.2847; 26.3631; 30.1049; 34.0081; 38.2069; 42.4217; 46.7378; 51.1551; 55.6738] 0).
  set (E0 := nth n [0.0; 6.15; 11.44; 16.35; 21.0; 26.1; 30.24; 34.93; 38.80] 0).
  assert (P : 4 < E0 + 3.6 - E1) by (unfold E0, E1; destruct n as [|n]; [lia|]; do 8 (destruct n as [|n]; [cbn [nth]; lra|]); lia).
  exists (E0 + 3.6 - E1). split; [exact P|]. rewrite (emission_plain g _ _ _ E1 E0 3.6).
  - rewrite Rmax_left by lra. reflexivity.
  - apply no_table; [cbn [aV]; lia|unfold onD; cbn [aHe aD aT aV aI]; rewrite ?andb_false_r; reflexivity|unfold onT; cbn [aHe aD aT aV aI]; rewrite ?andb_false_r; reflexivity|reflexivity|reflexivity].
  - unfold isSpecial, cluster_. cbn [reg single lo aHe aV]. rewrite c45_window. destruct (Z.leb_spec (Z.max 16 (Z.max 1 (tooSmall (Z.of_nat n)) + 2)) 1); [lia|]. apply andb_false_r.
  - rewrite formation_v by lia. rewrite heVR_1 by lia. reflexivity.
  - unfold cluster_, psiFormation. cbn [formation]. rewrite single_simplex. cbn [single hi lo aV]. destruct (Z.leb_spec g (0 + 1)); [lia|].
    unfold E0. destruct n as [|n]; [lia|]. do 8 (destruct n as [|n]; [reflexivity|]). lia.
  - apply formation_V1. lia.
Qed.
Print Assumptions c62_trap.
Example c62_trap_ok : (2 < 10)%Z /\ (1 <= 3 <= 8)%nat. Proof. lia. Qed.

(** ** Clusters without vacancies *)
Lemma formation_I g i : (1 < g)%Z -> (1 <= i)%Z -> formation (cluster_ g (Comp 0 0 0 0 i)) = Fin (if (i <? 7)%Z then nth (Z.to_nat i) [0.0; 10.0; 18.5; 27.0; 35.0; 42.5; 48.0] 0 else 48 + IZR (i - 6)).
Proof.
  intros Hg Hi. unfold cluster_, psiFormation. cbn [formation]. rewrite single_simplex. cbn [single hi lo aV]. destruct (Z.leb_spec g (0 + 1)); [lia|].
  unfold onI. cbn [aHe aD aT aV aI]. destruct (Z.eqb_spec i 0); [lia|]. cbn [negb andb Z.eqb]. destruct (Z.ltb_spec i 7); [reflexivity|].
  unfold iFormation. cbn [nth]. do 2 f_equal; [lra|]. apply f_equal. lia.
Qed.
Lemma plain0 g c p q : aV c = 0%Z -> onV p = false -> onV q = false -> tableEnergy (cluster_ g c) (cluster_ g p) (cluster_ g q) = Some 0 /\ isSpecial (cluster_ g c) (cluster_ g p) (cluster_ g q) = false.
Proof.
  intros Hv H1 H2. split; [|apply not_special; assumption]. unfold tableEnergy. destruct (useTable _ _ _); [|reflexivity]. cbn [cluster_ reg single lo]. rewrite Hv. reflexivity.
Qed.
(** Interstitial clusters: 1.5, 1.5, 2, 2.5, 4.5 and then 9 eV. *)
Theorem c62_interstitials g i : (1 < g)%Z -> (2 <= i)%Z ->
  exists e, emission g (Comp 0 0 0 0 i) (Comp 0 0 0 0 (i - 1)) (Comp 0 0 0 0 1) = Some (Fin e) /\ 1.5 <= e <= 9 /\
  ((7 <= i)%Z -> e = 9) /\ forall i' e', (i <= i')%Z -> emission g (Comp 0 0 0 0 i') (Comp 0 0 0 0 (i' - 1)) (Comp 0 0 0 0 1) = Some (Fin e') -> e <= e'.
Proof.
  intros Hg Hi.
  assert (F : forall j, (2 <= j)%Z -> emission g (Comp 0 0 0 0 j) (Comp 0 0 0 0 (j - 1)) (Comp 0 0 0 0 1) =
    Some (Fin (if (j <? 7)%Z then nth (Z.to_nat j) [0; 0; 1.5; 1.5; 2; 2.5; 4.5] 0 else 9))).
  { intros j Hj. destruct (plain0 g (Comp 0 0 0 0 j) (Comp 0 0 0 0 (j - 1)) (Comp 0 0 0 0 1) eq_refl eq_refl eq_refl) as [T S].
    rewrite (emission_plain g _ _ _ _ _ _ T S (formation_I g j Hg ltac:(lia)) (formation_I g (j - 1) Hg ltac:(lia)) (formation_I g 1 Hg ltac:(lia))).
    assert (C : j = 2%Z \/ j = 3%Z \/ j = 4%Z \/ j = 5%Z \/ j = 6%Z \/ j = 7%Z \/ (8 <= j)%Z) by lia.
    destruct C as [-> |[-> |[-> |[-> |[-> |[-> |L]]]]]].
    1-6: repeat match goal with
      | |- context [Z.to_nat ?z] => let n := eval compute in (Z.to_nat z) in change (Z.to_nat z) with n
      | |- context [(?a <? ?b)%Z] => let n := eval compute in (a <? b)%Z in change (a <? b)%Z with n
      | |- context [IZR (?a - ?b)] => let n := eval compute in (a - b)%Z in change (a - b)%Z with n
      end; cbv iota; cbn [nth]; rewrite Rmax_left by lra; do 2 f_equal; lra.
    destruct (Z.ltb_spec j 7); [lia|]. destruct (Z.ltb_spec (j - 1) 7); [lia|]. change (1 <? 7)%Z with true. change (Z.to_nat 1) with 1%nat. cbn [nth].
    rewrite !minus_IZR, Rmax_left by lra. do 2 f_equal. lra. }
  assert (U : forall n, (2 <= n < 7)%nat -> 1.5 <= nth n [0; 0; 1.5; 1.5; 2; 2.5; 4.5] 0 <= 4.5).
  { intros n Hn. do 7 (destruct n as [|n]; [cbn [nth]; try lia; lra|]). lia. }
  assert (M : forall n m, (2 <= n)%nat -> (n <= m < 7)%nat -> nth n [0; 0; 1.5; 1.5; 2; 2.5; 4.5] 0 <= nth m [0; 0; 1.5; 1.5; 2; 2.5; 4.5] 0).
  { intros n m Hn Hm. do 7 (destruct n as [|n]; [try lia; do 7 (destruct m as [|m]; [cbn [nth]; try lia; lra|]); lia|]). lia. }
  eexists. split; [apply F; exact Hi|]. split; [|split].
  - destruct (Z.ltb_spec i 7); [|lra]. specialize (U (Z.to_nat i) ltac:(lia)). lra.
  - intros L. destruct (Z.ltb_spec i 7); [lia|reflexivity].
  - intros i' e' Hi' E. rewrite F in E by lia. injection E as <-. destruct (Z.ltb_spec i 7), (Z.ltb_spec i' 7); try lia; try lra.
    + apply M; lia.
    + specialize (U (Z.to_nat i) ltac:(lia)). lra.
Qed.
Print Assumptions c62_interstitials.
Example c62_interstitials_ok : (1 < 10)%Z /\ (2 <= 5)%Z. Proof. lia. Qed.
Lemma formation_He g n : (1 < g)%Z -> (1 <= n)%nat -> formation (cluster_ g (Comp (Z.of_nat n) 0 0 0 0)) = if (n <? 9)%nat then Fin (nth n [0.0; 6.15; 11.44; 16.35; 21.0; 26.1; 30.24; 34.93; 38.80] 0) else Inf.
Proof.
  intros Hg Hn. unfold cluster_, psiFormation. cbn [formation]. rewrite single_simplex. cbn [single hi lo aV]. destruct (Z.leb_spec g (0 + 1)); [lia|].
  unfold onI, onHe. cbn [aHe aD aT aV aI]. destruct (Z.eqb_spec (Z.of_nat n) 0); [lia|]. cbn [negb andb Z.eqb]. destruct (Z.ltb_spec (Z.of_nat n) 9), (Nat.ltb_spec n 9); try lia; [|reflexivity].
  rewrite Nat2Z.id. reflexivity.
Qed.
(** Helium clusters of two to eight atoms. *)
Theorem c62_heliums g n : (1 < g)%Z -> (2 <= n <= 8)%nat ->
  exists e, 0.8 < e < 2.3 /\ emission g (Comp (Z.of_nat n) 0 0 0 0) (Comp (Z.of_nat n - 1) 0 0 0 0) (Comp 1 0 0 0 0) = Some (Fin e).
Proof.
  intros Hg Hn. destruct n as [|[|n]]; [lia|lia|]. replace (Z.of_nat (S (S n)) - 1)%Z with (Z.of_nat (S n)) by lia.
  destruct (plain0 g (Comp (Z.of_nat (S (S n))) 0 0 0 0) (Comp (Z.of_nat (S n)) 0 0 0 0) (Comp 1 0 0 0 0) eq_refl eq_refl eq_refl) as [T S].
  pose proof (formation_He g (Datatypes.S (Datatypes.S n)) Hg ltac:(lia)) as F2. pose proof (formation_He g (Datatypes.S n) Hg ltac:(lia)) as F1.
  destruct (Nat.ltb_spec (Datatypes.S (Datatypes.S n)) 9); [|lia]. destruct (Nat.ltb_spec (Datatypes.S n) 9); [|lia].
  rewrite (emission_plain g _ _ _ _ _ _ T S F2 F1 (formation_He1 g Hg)). eexists. split; [|reflexivity].
  do 7 (destruct n as [|n]; [cbn [nth]; rewrite Rmax_left by lra; lra|]). lia.
Qed.
Print Assumptions c62_heliums.
Example c62_heliums_ok : (1 < 10)%Z /\ (2 <= 5 <= 8)%nat. Proof. lia. Qed.
(** Nine helium atoms (only when the user asks for that many): no formation energy; they fall apart at the highest rate. *)
Theorem c62_helium_nine_refuted g : (1 < g)%Z -> emission g (Comp 9 0 0 0 0) (Comp 8 0 0 0 0) (Comp 1 0 0 0 0) = Some (Fin (-5)).
Proof.
  intros Hg. destruct (plain0 g (Comp 9 0 0 0 0) (Comp 8 0 0 0 0) (Comp 1 0 0 0 0) eq_refl eq_refl eq_refl) as [T S].
  pose proof (formation_He g 9 Hg ltac:(lia)) as F9. pose proof (formation_He g 8 Hg ltac:(lia)) as F8. pose proof (formation_He1 g Hg) as F1. change (9 <? 9)%nat with false in F9. change (8 <? 9)%nat with true in F8. cbv iota in F9, F8. change (Z.of_nat 9) with 9%Z in F9. change (Z.of_nat 8) with 8%Z in F8.
  unfold emission, bindingEnergy. rewrite T, S, F9, F8, F1. destruct (Req_EM_T 0 0); [|lra]. reflexivity.
Qed.
Print Assumptions c62_helium_nine_refuted.

(** ** Where it fails *)
(** The fit is not limited to the sizes it was made for: at 813 vacancies a full cluster is above its own products. *)
Theorem c62_extrapolated_refuted g : (814 < g)%Z -> most 4 813 3252 /\
  exists e, e < 0 /\ emission g (Comp 3252 0 0 813 0) (Comp 3251 0 0 813 0) (Comp 1 0 0 0 0) = Some (Fin e).
Proof.
  intros Hg. split.
  { destruct (c39_defined 813 4 ltac:(lia) ltac:(lra) ltac:(lra)) as (b & E & _). exists b. split; [exact E|]. split; [lia|].
    pose proof (c39_ratio_above 813 4 b ltac:(lia) E) as L. assert (IZR 3252 < IZR (b + 1)) by (rewrite plus_IZR; lra). apply lt_IZR in H. lia. }
  bounds 3252%Z 813%Z 4646879%Z. bounds 3251%Z 813%Z 4640727%Z.
  rewrite (emission_plain g _ _ _ (fit 3252 813) (fit 3251 813) 6.15).
  - eexists. split; [|reflexivity]. unfold Rmax. destruct (Rle_dec _ _); lra.
  - apply no_table; try reflexivity. cbn; lia.
  - apply not_special; reflexivity.
  - rewrite formation_v by lia. rewrite heVR_fit by lia. reflexivity.
  - rewrite formation_v by lia. rewrite heVR_fit by lia. reflexivity.
  - apply formation_He1. lia.
Qed.
Print Assumptions c62_extrapolated_refuted.
(** The last size before the grouping starts is taken as grouped: its formation energy is zero, its neighbours' is not. *)
Theorem c62_boundary_refuted v : (32 <= v)%Z ->
  emission (v + 1) (Comp 0 0 0 v 0) (Comp 0 0 0 (v - 1) 0) (Comp 0 0 0 1 0) = Some (Fin (Rmax (fit 0 (v - 1) + 3.6) (-5))) /\
  (v = 40%Z -> 60 < Rmax (fit 0 (v - 1) + 3.6) (-5)).
Proof.
  intros Hv. split.
  - rewrite (emission_plain _ _ _ _ 0 (fit 0 (v - 1)) 3.6).
    + do 3 f_equal. lra.
    + apply no_table; [cbn [aV]; lia|reflexivity|unfold onT; cbn [aHe aD aT aV aI]; rewrite ?andb_false_r; reflexivity|reflexivity|reflexivity].
    + unfold isSpecial, cluster_. cbn [reg single lo aHe aV]. rewrite c45_window. destruct (Z.leb_spec v 31); [lia|]. rewrite !andb_false_r. reflexivity.
    + unfold cluster_, psiFormation. cbn [formation single hi aV]. destruct (Z.leb_spec (v + 1) (v + 1)); [reflexivity|lia].
    + rewrite formation_v by lia. rewrite heVR_fit by lia. reflexivity.
    + apply formation_V1. lia.
  - intros ->. change (40 - 1)%Z with 39%Z. bounds 0%Z 39%Z 61626%Z. rewrite Rmax_left by lra. lra.
Qed.
Print Assumptions c62_boundary_refuted.
Example c62_boundary_ok : (32 <= 40)%Z. Proof. lia. Qed.
