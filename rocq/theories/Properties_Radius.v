(** C61: the reaction radii. *)
From Verif Require Import MobilityModel MobilityProofs Properties_Mobility.
Open Scope R_scope.

(** A radius which goes with the number of atoms like that of a sphere of volume [omega] per atom, shifted to [r1] for
    the smallest. *)
Definition sphereLaw (omega r1 : R) (r : Z -> R) : Prop :=
  exists c, 0 < c /\ 4 / 3 * PI * c ^ 3 = omega /\ forall n, (1 <= n)%Z -> 4 / 3 * PI * (c + (r n - r1)) ^ 3 = IZR n * omega.
Lemma cube_le x y : x <= y -> x ^ 3 <= y ^ 3.
Proof.
  intros H. assert (E : y ^ 3 - x ^ 3 = (y - x) * (((x + y) * (x + y) + x * x + y * y) / 2)) by field.
  pose proof (Rle_0_sqr (x + y)) as H1. pose proof (Rle_0_sqr x) as H2. pose proof (Rle_0_sqr y) as H3. unfold Rsqr in *.
  assert (0 <= y ^ 3 - x ^ 3); [|lra]. rewrite E. apply Rmult_le_pos; lra.
Qed.
Lemma cube_lt x y : x ^ 3 < y ^ 3 -> x < y.
Proof. intros H. destruct (Rlt_dec x y) as [L|L]; [exact L|]. apply Rnot_lt_le, cube_le in L. lra. Qed.
Lemma cube_le' x y : x ^ 3 <= y ^ 3 -> x <= y.
Proof.
  intros [H|H]; [left; apply cube_lt; exact H|]. destruct (Rle_lt_dec x y) as [|L]; [assumption|]. exfalso.
  assert (E : x ^ 3 - y ^ 3 = (x - y) * (((x + y) * (x + y) + x * x + y * y) / 2)) by field.
  pose proof (Rle_0_sqr (x + y)) as H1. unfold Rsqr in *.
  assert (Q : 0 < x * x + y * y). { destruct (Req_dec x 0) as [->|N]; [assert (0 < y * y) by nra; nra|]. pose proof (Rle_0_sqr y). unfold Rsqr in *. assert (0 < x * x) by (destruct (Rdichotomy _ _ N); nra). lra. }
  assert (0 < x ^ 3 - y ^ 3); [|lra]. rewrite E. apply Rmult_lt_0_compat; lra.
Qed.
Lemma sphereLaw_grows omega r1 r : 0 < omega -> sphereLaw omega r1 r -> forall n m, (1 <= n < m)%Z -> r1 <= r n < r m.
Proof.
  intros HO (c & Hc & E & L) n m H. pose proof PI_RGT_0 as HP.
  assert (M : forall k, (1 <= k)%Z -> r1 <= r k).
  { intros k Hk. specialize (L k Hk). apply IZR_le in Hk. assert (C : c ^ 3 <= (c + (r k - r1)) ^ 3).
    { apply Rmult_le_reg_l with (4 / 3 * PI); [lra|]. rewrite E, L. nra. }
    apply cube_le' in C. lra. }
  split; [apply M; lia|]. pose proof (M n ltac:(lia)). assert (C : c + (r n - r1) < c + (r m - r1)); [|lra]. apply cube_lt.
  apply Rmult_lt_reg_l with (4 / 3 * PI); [lra|]. rewrite (L n), (L m) by lia. apply Rmult_lt_compat_r; [exact HO|]. apply IZR_lt. lia.
Qed.
Lemma root_law k omega r1 r : 0 < omega -> 4 / 3 * PI * k = omega -> (forall n, (1 <= n)%Z -> r n = r1 + root3 (k * IZR n) - root3 k) -> sphereLaw omega r1 r.
Proof.
  intros HO HK Hr. pose proof PI_RGT_0 as HP. assert (K : 0 < k) by nra. exists (root3 k). split; [apply root3_pos; exact K|]. split; [rewrite root3_cube by lra; exact HK|].
  intros n Hn. rewrite Hr by exact Hn. replace (root3 k + (r1 + root3 (k * IZR n) - root3 k - r1)) with (root3 (k * IZR n)) by ring.
  apply IZR_le in Hn. rewrite root3_cube by nra. rewrite <- HK. ring.
Qed.

(** ** PSI *)
Section PSI.
Variables a bias impurity hydrogen : R.
Hypotheses (Ha : 0 < a) (Hb : 0 < bias) (Hi : 0 < impurity) (Hh : 0 < hydrogen).
Notation radius := (psiRadius a bias impurity hydrogen).
Definition ofHe n := single (Comp n 0 0 0 0).
Definition ofD n := single (Comp 0 n 0 0 0).
Definition ofT n := single (Comp 0 0 n 0 0).
Definition ofV n := single (Comp 0 0 0 n 0).
Lemma single_simplex c : isSimplex (single c) = true.
Proof using. destruct c. unfold isSimplex, single. cbn. rewrite !Z.eqb_refl. reflexivity. Qed.
Ltac single_radius := intros n Hn; unfold psiRadius, ofHe, ofD, ofT, ofV, iCluster; rewrite single_simplex; cbn [single lo];
  unfold onI, onHe, onD, onT; cbn [aHe aD aT aV aI]; cbn [Z.eqb]; replace (n =? 0)%Z with false by (symmetry; apply Z.eqb_neq; lia); cbn [andb negb].
Lemma radiusI : forall n, (1 <= n)%Z -> radius (iCluster n) = psiIRadius a bias n. Proof using. single_radius. reflexivity. Qed.
Lemma radiusHe : forall n, (1 <= n)%Z -> radius (ofHe n) = psiHeRadius a impurity n. Proof using. single_radius. reflexivity. Qed.
Lemma radiusD : forall n, (1 <= n)%Z -> radius (ofD n) = psiHeRadius a impurity n * hydrogen. Proof using. single_radius. reflexivity. Qed.
Lemma radiusT : forall n, (1 <= n)%Z -> radius (ofT n) = psiHeRadius a impurity n * hydrogen. Proof using. single_radius. reflexivity. Qed.
Lemma radiusV : forall n, (1 <= n)%Z -> radius (ofV n) = psiVRadius a n. Proof using. single_radius. reflexivity. Qed.
Lemma a3 : 0 < a ^ 3. Proof using Ha. apply pow_lt. exact Ha. Qed.
(** In tungsten (two atoms in the cube of side a): the volume of an interstitial or vacancy is that of an atom, a^3/2, that
    of an impurity a^3/10. *)
Theorem c61_psi_law :
  sphereLaw (a ^ 3 / 2) (bias * (sqrt 3 / 4 * a)) (fun n => radius (iCluster n)) /\
  sphereLaw (a ^ 3 / 2) (sqrt 3 / 4 * a) (fun n => radius (ofV n)) /\
  sphereLaw (a ^ 3 / 10) impurity (fun n => radius (ofHe n)) /\
  sphereLaw (a ^ 3 / 10) impurity (fun n => radius (ofD n) / hydrogen) /\
  sphereLaw (a ^ 3 / 10) impurity (fun n => radius (ofT n) / hydrogen).
Proof using Ha Hh.
  pose proof a3 as A. pose proof PI_RGT_0 as HP. split; [|split; [|split; [|split]]].
  - apply root_law with (3 / (8 * PI) * a ^ 3); [lra|field; lra|]. intros n Hn. rewrite radiusI by exact Hn. unfold psiIRadius. ring.
  - apply root_law with (3 * a ^ 3 / (8 * PI)); [lra|field; lra|]. intros n Hn. rewrite radiusV by exact Hn. unfold psiVRadius.
    replace (3 * a ^ 3 * IZR n / (8 * PI)) with (3 * a ^ 3 / (8 * PI) * IZR n) by (field; lra). ring.
  - apply root_law with (3 / (4 * PI) * (1 / 10) * a ^ 3); [lra|field; lra|]. intros n Hn. rewrite radiusHe by exact Hn. unfold psiHeRadius. ring.
  - apply root_law with (3 / (4 * PI) * (1 / 10) * a ^ 3); [lra|field; lra|]. intros n Hn. rewrite radiusD by exact Hn. unfold psiHeRadius. field. lra.
  - apply root_law with (3 / (4 * PI) * (1 / 10) * a ^ 3); [lra|field; lra|]. intros n Hn. rewrite radiusT by exact Hn. unfold psiHeRadius. field. lra.
Qed.
(** Hence they are positive and grow with the size. *)
Theorem c61_psi_grows : forall k n m, In k [iCluster; ofHe; ofD; ofT; ofV] -> (1 <= n < m)%Z -> 0 < radius (k n) < radius (k m).
Proof using Ha Hb Hi Hh.
  intros k n m Hk H. pose proof a3 as A. destruct c61_psi_law as (LI & LV & LHe & LD & LT).
  assert (S3 : 0 < sqrt 3) by (apply sqrt_lt_R0; lra). assert (SA : 0 < sqrt 3 / 4 * a) by (apply Rmult_lt_0_compat; lra).
  destruct Hk as [<-|[<-|[<-|[<-|[<-|[]]]]]].
  - destruct (sphereLaw_grows (a ^ 3 / 2) _ _ ltac:(lra) LI n m H) as [H1 H2]. cbv beta in *. split; [|exact H2]. pose proof (Rmult_lt_0_compat _ _ Hb SA). lra.
  - destruct (sphereLaw_grows (a ^ 3 / 10) _ _ ltac:(lra) LHe n m H) as [H1 H2]. cbv beta in *. lra.
  - destruct (sphereLaw_grows (a ^ 3 / 10) _ _ ltac:(lra) LD n m H) as [H1 H2]. cbv beta in *.
    assert (E : forall x, x = x / hydrogen * hydrogen) by (intros; field; lra). rewrite (E (radius (ofD n))), (E (radius (ofD m))). split; [nra|]. apply Rmult_lt_compat_r; assumption.
  - destruct (sphereLaw_grows (a ^ 3 / 10) _ _ ltac:(lra) LT n m H) as [H1 H2]. cbv beta in *.
    assert (E : forall x, x = x / hydrogen * hydrogen) by (intros; field; lra). rewrite (E (radius (ofT n))), (E (radius (ofT m))). split; [nra|]. apply Rmult_lt_compat_r; assumption.
  - destruct (sphereLaw_grows (a ^ 3 / 2) _ _ ltac:(lra) LV n m H) as [H1 H2]. cbv beta in *. lra.
Qed.
(** The impurities do not enlarge a cluster with vacancies. *)
Theorem c61_psi_mixed : forall c, (1 <= aV c)%Z -> radius (single c) = radius (ofV (aV c)).
Proof using.
  intros c H. rewrite radiusV by exact H. unfold psiRadius. rewrite single_simplex. cbn [single lo]. unfold onI, onHe, onD, onT.
  replace (aV c =? 0)%Z with false by (symmetry; apply Z.eqb_neq; lia). rewrite !Bool.andb_false_r. cbn [andb]. reflexivity.
Qed.
(** A group has the mean radius of its members (of its V sizes). *)
Theorem c61_psi_group : forall r, proper r -> isSimplex r = false ->
  (onI (lo r) = true -> IZR (aI (hi r) - aI (lo r)) * radius r = Rsum (zlist (aI (lo r)) (aI (hi r) - 1)) (fun n => radius (iCluster n))) /\
  ((1 <= aV (lo r))%Z -> IZR (aV (hi r) - aV (lo r)) * radius r = Rsum (zlist (aV (lo r)) (aV (hi r) - 1)) (fun n => radius (ofV n))).
Proof using.
  intros r (HL & HH & H1 & H2 & H3 & H4 & H5) ES. unfold psiRadius at 1. unfold psiRadius at 2. rewrite ES. split; intros H.
  - rewrite H. unfold mean. pose proof (onI_pos _ HL H). transitivity (Rsum (zlist (aI (lo r)) (aI (hi r) - 1)) (psiIRadius a bias)).
    + field. apply not_0_IZR. lia.
    + apply Rsum_ext. intros n Hn. apply zlist_In in Hn. rewrite radiusI by lia. reflexivity.
  - assert (EI : onI (lo r) = false) by (unfold onI; replace (aV (lo r) =? 0)%Z with false by (symmetry; apply Z.eqb_neq; lia); rewrite Bool.andb_false_r; reflexivity).
    rewrite EI. unfold mean. transitivity (Rsum (zlist (aV (lo r)) (aV (hi r) - 1)) (psiVRadius a)).
    + field. apply not_0_IZR. lia.
    + apply Rsum_ext. intros n Hn. apply zlist_In in Hn. rewrite radiusV by lia. reflexivity.
Qed.
End PSI.
Print Assumptions c61_psi_law.
Print Assumptions c61_psi_grows.
Print Assumptions c61_psi_mixed.
Print Assumptions c61_psi_group.
Example c61_psi_ok : 0 < 0.3165 /\ 0 < 1.15 /\ In ofD [iCluster; ofHe; ofD; ofT; ofV] /\ (1 <= aV (Comp 7 1 0 3 0))%Z /\
  proper (Region (Comp 40 0 0 30 0) (Comp 44 1 1 34 1)) /\ isSimplex (Region (Comp 40 0 0 30 0) (Comp 44 1 1 34 1)) = false.
Proof. split; [lra|]. split; [lra|]. split; [cbn; auto|]. split; [cbn; lia|]. split; [unfold proper, amounts, amount; cbn; lia|reflexivity]. Qed.

(** ** Fe: a sphere of the volume of the vacancies, a^3/2 each. *)
Definition fe (he v i : Z) : reg3 := Reg3 (Iv he (he + 1)) (Iv v (v + 1)) (Iv i (i + 1)).
Lemma fe_simplex he v i : simplex3 (fe he v i) = true. Proof. unfold simplex3, fe. cbn. rewrite !Z.eqb_refl. reflexivity. Qed.
Lemma cube_mult x y z : (x * y * z) ^ 3 = x ^ 3 * y ^ 3 * z ^ 3. Proof. ring. Qed.
Lemma root3_div n : 0 < n -> root3 (3 * n / PI) ^ 3 = 3 * n / PI.
Proof. intros H. apply root3_cube. pose proof PI_RGT_0. left. apply Rdiv_lt_0_compat; lra. Qed.
Theorem c61_fe_vacancies : forall a imp he v, 0 < a -> (0 <= he)%Z -> (1 <= v)%Z ->
  0 < feRadius a imp (fe he v 0) /\ 4 / 3 * PI * feRadius a imp (fe he v 0) ^ 3 = IZR v * (a ^ 3 / 2).
Proof.
  intros a imp he v Ha Hh Hv. pose proof PI_RGT_0 as HP. unfold feRadius. rewrite fe_simplex. cbn [fe rG rV rI ib].
  replace (on3 0 he v) with false by reflexivity. replace (on3 he v 0) with false by (unfold on3; replace (v =? 0)%Z with false by (symmetry; apply Z.eqb_neq; lia); rewrite Bool.andb_false_r; reflexivity).
  apply IZR_le in Hv. assert (P : 0 < 3 * IZR v / PI) by (apply Rdiv_lt_0_compat; lra). pose proof (root3_pos _ P) as R. unfold feVRadius. split.
  - apply Rmult_lt_0_compat; [apply Rmult_lt_0_compat|]; lra.
  - rewrite cube_mult, root3_div by lra. replace 0.5 with (1 / 2) by lra. field. lra.
Qed.
Theorem c61_fe_helium : forall a imp, 0 < a -> sphereLaw (a ^ 3 / 10) imp (fun n => feRadius a imp (fe n 0 0)).
Proof.
  intros a imp Ha. pose proof PI_RGT_0 as HP. assert (A : 0 < a ^ 3) by (apply pow_lt; exact Ha).
  apply root_law with (3 / (4 * PI) * (1 / 10) * a ^ 3); [lra|field; lra|]. intros n Hn. unfold feRadius. rewrite fe_simplex. cbn [fe rG rV rI ib].
  replace (on3 0 n 0) with false by reflexivity. replace (on3 n 0 0) with true by (unfold on3; replace (n =? 0)%Z with false by (symmetry; apply Z.eqb_neq; lia); reflexivity).
  unfold psiHeRadius. ring.
Qed.
(** The interstitial has the size of a vacancy. *)
Theorem c61_fe_interstitial : forall a imp, feRadius a imp (fe 0 0 1) = feRadius a imp (fe 0 1 0).
Proof. intros a imp. unfold feRadius. rewrite !fe_simplex. cbn. unfold feVRadius. rewrite Rmult_1_r. reflexivity. Qed.
Theorem c61_fe_group : forall a imp r, simplex3 r = false -> (1 <= ib (rV r) < ie (rV r))%Z ->
  IZR (len (rV r)) * feRadius a imp r = Rsum (zlist (ib (rV r)) (ie (rV r) - 1)) (fun n => feRadius a imp (fe 0 n 0)).
Proof.
  intros a imp r ES H. unfold feRadius at 1. rewrite ES. unfold mean, len. transitivity (Rsum (zlist (ib (rV r)) (ie (rV r) - 1)) (feVRadius a)).
  - field. apply not_0_IZR. lia.
  - apply Rsum_ext. intros n Hn. apply zlist_In in Hn. unfold feRadius. rewrite fe_simplex. cbn [fe rG rV rI ib].
    replace (on3 0 0 n) with false by reflexivity. replace (on3 0 n 0) with false by reflexivity. reflexivity.
Qed.
Print Assumptions c61_fe_vacancies.
Print Assumptions c61_fe_helium.
Print Assumptions c61_fe_interstitial.
Print Assumptions c61_fe_group.
Example c61_fe_ok : simplex3 (Reg3 (Iv 10 14) (Iv 10 14) (Iv 0 1)) = false /\ 0 < 0.287. Proof. split; [reflexivity|lra]. Qed.

(** ** NE: the clusters with gas and vacancies; four uranium atoms in the cube of side a. *)
(** Interstitials have half the lattice parameter, xenon without vacancies the radius of the impurity. *)
Theorem c61_ne_point : forall a imp n, (1 <= n)%Z -> 2 * neRadius a imp (fe 0 0 n) = a /\ neRadius a imp (fe n 0 0) = imp.
Proof.
  intros a imp n Hn. unfold neRadius. rewrite !fe_simplex. cbn [fe rG rV rI ib]. unfold on3.
  destruct (Z.eqb_spec n 0); [lia|]. cbn [negb Z.eqb andb]. split; [lra|reflexivity].
Qed.
Example c61_ne_point_ok : neRadius 3 1 (fe 0 0 4) = 3 / 2.
Proof. reflexivity. Qed.
Print Assumptions c61_ne_point.
Theorem c61_ne_law : forall a imp g, 0 < a -> (1 <= g)%Z -> sphereLaw (a ^ 3 / 4) (a * sqrt 2 / 2) (fun n => neRadius a imp (fe g n 0)).
Proof.
  intros a imp g Ha Hg. pose proof PI_RGT_0 as HP. assert (A : 0 < a ^ 3) by (apply pow_lt; exact Ha).
  apply root_law with (3 * (0.25 * a * a * a) / (4 * PI)); [lra|replace 0.25 with (1 / 4) by lra; field; lra|]. intros n Hn. unfold neRadius. rewrite fe_simplex. cbn [fe rG rV rI ib].
  replace (on3 0 g n) with false by reflexivity.
  replace (on3 g n 0) with false by (unfold on3; replace (n =? 0)%Z with false by (symmetry; apply Z.eqb_neq; lia); rewrite Bool.andb_false_r; reflexivity).
  replace (on3 n g 0) with false by (unfold on3; replace (g =? 0)%Z with false by (symmetry; apply Z.eqb_neq; lia); rewrite Bool.andb_false_r; reflexivity).
  unfold neVRadius. cbv zeta. replace (3 * (0.25 * a * a * a) * IZR n / (4 * PI)) with (3 * (0.25 * a * a * a) / (4 * PI) * IZR n) by (field; lra). ring.
Qed.
Print Assumptions c61_ne_law.
(** V_1 and V_2 are both in the network, with the same radius. *)
Theorem c61_ne_vacancies_refuted : forall a imp maxXe maxV, 0 < a -> (0 <= maxXe)%Z -> (2 <= maxV)%Z ->
  neSelect maxXe maxV (fe 0 1 0) = true /\ neSelect maxXe maxV (fe 0 2 0) = true /\
  neRadius a imp (fe 0 2 0) = neRadius a imp (fe 0 1 0) /\ neRadius a imp (fe 0 2 0) < neRadius a imp (fe 1 2 0).
Proof.
  intros a imp mx mv Ha H1 H2. split; [|split; [|split; [reflexivity|]]].
  - unfold neSelect. cbn. replace (mx <? 0)%Z with false by (symmetry; apply Z.ltb_ge; lia). replace (mv <? 1)%Z with false by (symmetry; apply Z.ltb_ge; lia). reflexivity.
  - unfold neSelect. cbn. replace (mx <? 0)%Z with false by (symmetry; apply Z.ltb_ge; lia). replace (mv <? 2)%Z with false by (symmetry; apply Z.ltb_ge; lia). reflexivity.
  - pose proof (c61_ne_law a imp 1 Ha ltac:(lia)) as L. assert (A : 0 < a ^ 3) by (apply pow_lt; exact Ha).
    destruct (sphereLaw_grows (a ^ 3 / 4) _ _ ltac:(lra) L 1%Z 2%Z ltac:(lia)) as [G1 G2]. cbv beta in *. change (neRadius a imp (fe 0 2 0)) with (a * sqrt 2 / 2). lra.
Qed.
Print Assumptions c61_ne_vacancies_refuted.
(** A group has the mean radius over its numbers of vacancies of the clusters with gas. *)
Theorem c61_ne_group : forall a imp r, simplex3 r = false -> (1 <= ib (rV r) < ie (rV r))%Z ->
  IZR (len (rV r)) * neRadius a imp r = Rsum (zlist (ib (rV r)) (ie (rV r) - 1)) (fun n => neRadius a imp (fe 1 n 0)).
Proof.
  intros a imp r ES H. unfold neRadius at 1. rewrite ES. unfold mean, len. transitivity (Rsum (zlist (ib (rV r)) (ie (rV r) - 1)) (neVRadius a)).
  - field. apply not_0_IZR. lia.
  - apply Rsum_ext. intros n Hn. apply zlist_In in Hn. unfold neRadius. rewrite fe_simplex. cbn [fe rG rV rI ib].
    replace (on3 0 1 n) with false by reflexivity. replace (on3 1 n 0) with false by (unfold on3; replace (n =? 0)%Z with false by (symmetry; apply Z.eqb_neq; lia); reflexivity).
    replace (on3 n 1 0) with false by (unfold on3; rewrite Bool.andb_false_r; reflexivity). reflexivity.
Qed.
Print Assumptions c61_ne_group.
Example c61_ne_ok : simplex3 (Reg3 (Iv 20 24) (Iv 20 24) (Iv 0 1)) = false /\ (1 <= 20 < 24)%Z /\ 0 < 0.574. Proof. split; [reflexivity|]. split; [lia|lra]. Qed.

(** ** Alloy: spheres (V, Void, I) and loops (Perfect, Frank, Faulted) with the volume of their atoms, a^3/4 each; the
    height of a loop is its Burgers vector. *)
Definition alloyOf (k : nat) (b e : Z) : list iv := map (fun j => if (j =? k)%nat then Iv b e else Iv 0 1) (seq 0 6).
Lemma alloyOf_on k j b e : (j < 6)%nat -> (k < 6)%nat -> (1 <= b)%Z -> alloyOn j (alloyOf k b e) = (j =? k)%nat.
Proof.
  intros Hj Hk Hb. do 6 (destruct k as [|k]; [do 6 (destruct j as [|j]; [unfold alloyOn, alloyOf; cbn; destruct (Z.eqb_spec b 0); try lia; reflexivity|]); lia|]). lia.
Qed.
Theorem c61_alloy_volume : forall a k n, 0 < a -> (1 <= n)%Z ->
  (In k [0; 1; 3]%nat -> 0 < alloyRadius a (alloyOf k n (n + 1)) /\ 4 / 3 * PI * alloyRadius a (alloyOf k n (n + 1)) ^ 3 = IZR n * (a ^ 3 / 4)) /\
  (k = 4%nat -> 0 < alloyRadius a (alloyOf k n (n + 1)) /\ PI * alloyRadius a (alloyOf k n (n + 1)) ^ 2 * (0.5 * a) = IZR n * (a ^ 3 / 4)) /\
  (In k [2; 5]%nat -> 0 < alloyRadius a (alloyOf k n (n + 1)) /\ PI * alloyRadius a (alloyOf k n (n + 1)) ^ 2 * (0.333 * a) = IZR n * (a ^ 3 / 4)).
Proof.
  intros a k n Ha Hn. pose proof PI_RGT_0 as HP. assert (N : 0 < IZR n) by (apply IZR_lt; lia).
  assert (A : 0 < a ^ 3) by (apply pow_lt; exact Ha). assert (A2 : 0 < 0.25 * a * a) by nra.
  assert (Q : 0 < alloyPrefactor a) by (unfold alloyPrefactor; apply Rdiv_lt_0_compat; lra).
  assert (SP : 0 < alloySphere a n /\ 4 / 3 * PI * alloySphere a n ^ 3 = IZR n * (a ^ 3 / 4)).
  { assert (P : 0 < 0.75 * alloyPrefactor a * a * IZR n) by (do 2 (apply Rmult_lt_0_compat; [|assumption]); lra). split; [apply root3_pos; exact P|].
    unfold alloySphere. rewrite root3_cube by lra. unfold alloyPrefactor. replace 0.25 with (1 / 4) by lra. replace 0.75 with (3 / 4) by lra. field. lra. }
  assert (LO : forall b, 0 < b -> 0 < alloyLoop a b n /\ PI * alloyLoop a b n ^ 2 * (b * a) = IZR n * (a ^ 3 / 4)).
  { intros b Hb. assert (P : 0 < IZR n * alloyPrefactor a / b) by (apply Rdiv_lt_0_compat; [apply Rmult_lt_0_compat|]; lra).
    split; [apply sqrt_lt_R0; exact P|]. unfold alloyLoop. rewrite pow2_sqrt by lra. unfold alloyPrefactor. replace 0.25 with (1 / 4) by lra. field. lra. }
  assert (AX : forall j, (j < 6)%nat -> axis j (alloyOf j n (n + 1)) = Iv n (n + 1)) by (intros j Hj; do 6 (destruct j as [|j]; [reflexivity|]); lia).
  assert (M : forall f j, (j < 6)%nat -> mean f (ib (axis j (alloyOf j n (n + 1)))) (ie (axis j (alloyOf j n (n + 1)))) = f n) by (intros f j Hj; rewrite AX by exact Hj; apply mean_one).
  split; [|split].
  - intros [<-|[<-|[<-|[]]]]; unfold alloyRadius; rewrite !alloyOf_on by lia; cbn [Nat.eqb]; rewrite M by lia; exact SP.
  - intros ->. unfold alloyRadius. rewrite !alloyOf_on by lia. cbn [Nat.eqb]. rewrite M by lia. apply LO. lra.
  - intros [<-|[<-|[]]]; unfold alloyRadius; rewrite !alloyOf_on by lia; cbn [Nat.eqb]; rewrite M by lia; apply LO; lra.
Qed.
Theorem c61_alloy_group : forall a k b e, (k < 6)%nat -> (1 <= b < e)%Z ->
  IZR (e - b) * alloyRadius a (alloyOf k b e) = Rsum (zlist b (e - 1)) (fun n => alloyRadius a (alloyOf k n (n + 1))).
Proof.
  intros a k b e Hk H.
  assert (AX : forall n m, axis k (alloyOf k n m) = Iv n m) by (intros n m; do 6 (destruct k as [|k]; [reflexivity|]); lia).
  assert (G : exists f, forall n m, (1 <= n)%Z -> alloyRadius a (alloyOf k n m) = mean f n m).
  { clear AX. assert (C : (k = 0 \/ k = 1 \/ k = 2 \/ k = 3 \/ k = 4 \/ k = 5)%nat) by lia.
    destruct C as [->|[->|[->|[->|[->| ->]]]]]; eexists; intros n m Hn; unfold alloyRadius; rewrite !alloyOf_on by lia; cbn [Nat.eqb]; reflexivity. }
  destruct G as [f G]. rewrite G by lia. unfold mean. transitivity (Rsum (zlist b (e - 1)) f); [field; apply not_0_IZR; lia|].
  apply Rsum_ext. intros n Hn. apply zlist_In in Hn. rewrite G, mean_one by lia. reflexivity.
Qed.
Print Assumptions c61_alloy_volume.
Print Assumptions c61_alloy_group.
Example c61_alloy_ok : In 1%nat [0; 1; 3]%nat /\ alloySelect 4 4 100 100 (alloyOf 5 20 24) = true. Proof. split; [cbn; auto|reflexivity]. Qed.

(** ** Zr: the radius of a single cluster is positive and grows with its size, across the change of law at 10 and at the
    transition size; that of a group is the mean over its members, when they follow the same law. *)
Definition zr (k : nat) (b e : Z) : list iv := map (fun j => if (j =? k)%nat then Iv b e else Iv 0 1) (seq 0 3).
Definition zrLaw (tr : Z) (k : nat) : Z -> Z -> R := match k with 1%nat => zrBasalPoint tr | _ => zrPoint end.
Lemma zr_radius tr k b e : (k < 3)%nat -> (1 <= b)%Z -> zrRadius tr (zr k b e) = mean (zrLaw tr k b) b e.
Proof.
  intros Hk Hb. assert (C : (k = 0 \/ k = 1 \/ k = 2)%nat) by lia.
  destruct C as [->|[->| ->]]; unfold zrRadius, zrOnV, zrOnB, zrOnI, on3, zr, zrLaw; cbn; destruct (Z.eqb_spec b 0); try lia; cbn; reflexivity.
Qed.
Lemma sqrt_bounds x y z : 0 <= x -> 0 <= z -> x * x < y -> y < z * z -> x < sqrt y < z.
Proof.
  intros Hx Hz H1 H2. assert (0 <= y) by nra. pose proof (sqrt_sqrt y H). pose proof (sqrt_pos y). split; nra.
Qed.
Definition basal : R := (sqrt 3 / 2 * 3.232 * 3.232 + 3.232 / 2 * sqrt (3 * 3.232 * 3.232 + 4 * 5.17 * 5.17)) / (4 * PI).
Lemma basal_range : 0 < basal < 2.4.
Proof.
  pose proof (sqrt_bounds 1 3 1.733 ltac:(lra) ltac:(lra) ltac:(lra) ltac:(lra)) as [S1 S2].
  pose proof (sqrt_bounds 1 (3 * 3.232 * 3.232 + 4 * 5.17 * 5.17) 11.8 ltac:(lra) ltac:(lra) ltac:(lra) ltac:(lra)) as [T1 T2].
  pose proof PI2_3_2. pose proof PI_RGT_0. unfold basal. split.
  - apply Rdiv_lt_0_compat; lra.
  - apply Rmult_lt_reg_r with (4 * PI); [lra|]. unfold Rdiv. rewrite Rmult_assoc, Rinv_l by lra. lra.
Qed.
Lemma zrBasal_low tr o j : (o < tr)%Z -> (1 <= j)%Z -> zrBasalPoint tr o j = sqrt (basal * IZR j) / 10.
Proof.
  intros H Hj. unfold zrBasalPoint. destruct (Z.ltb_spec o tr); [|lia]. cbv zeta. do 2 f_equal. unfold basal. field. pose proof PI_RGT_0. lra.
Qed.
Theorem c61_zr_grows : forall tr k n m, (k < 3)%nat -> (1 <= n < m)%Z -> 0 < zrRadius tr (zr k n (n + 1)) < zrRadius tr (zr k m (m + 1)).
Proof.
  intros tr k n m Hk H. rewrite !zr_radius, !mean_one by lia. assert (N : 0 < IZR n < IZR m) by (split; apply IZR_lt; lia).
  assert (PT : 0 < zrPoint n n < zrPoint m m).
  { unfold zrPoint. destruct (Z.ltb_spec n 10), (Z.ltb_spec m 10).
    - split; [apply root3_pos; lra|apply root3_lt; lra].
    - split; [apply root3_pos; lra|]. assert (N9 : IZR n <= 9) by (apply IZR_le; lia). assert (M10 : 10 <= IZR m) by (apply IZR_le; assumption).
      assert (R : root3 (5.586e-3 * IZR n) < 0.4). { apply cube_lt. rewrite root3_cube by lra. lra. }
      pose proof (sqrt_bounds 3 10 4 ltac:(lra) ltac:(lra) ltac:(lra) ltac:(lra)) as [S1 _]. assert (sqrt 10 <= sqrt (IZR m)) by (apply sqrt_le_1; lra). lra.
    - lia.
    - assert (0 < sqrt (IZR n)) by (apply sqrt_lt_R0; lra). assert (sqrt (IZR n) < sqrt (IZR m)) by (apply sqrt_lt_1; lra). lra. }
  assert (C : (k = 0 \/ k = 1 \/ k = 2)%nat) by lia. destruct C as [->|[->| ->]]; cbn [zrLaw]; [exact PT| |exact PT].
  pose proof basal_range as [B1 B2]. assert (SN : 0 < sqrt (IZR n)) by (apply sqrt_lt_R0; lra). assert (SM : sqrt (IZR n) < sqrt (IZR m)) by (apply sqrt_lt_1; lra).
  assert (SB : 0 < sqrt basal) by (apply sqrt_lt_R0; lra). destruct (sqrt_bounds 0 basal 1.55 ltac:(lra) ltac:(lra) ltac:(lra) ltac:(lra)) as [_ SB2].
  destruct (Z_lt_dec n tr), (Z_lt_dec m tr).
  - rewrite !zrBasal_low by lia. rewrite !sqrt_mult by lra. split; nra.
  - rewrite zrBasal_low by lia. rewrite sqrt_mult by lra. unfold zrBasalPoint. destruct (Z.ltb_spec m tr); [lia|]. split; nra.
  - lia.
  - unfold zrBasalPoint. destruct (Z.ltb_spec n tr); [lia|]. destruct (Z.ltb_spec m tr); [lia|]. lra.
Qed.
Print Assumptions c61_zr_grows.
Theorem c61_zr_group_partial : forall tr k b e, (k < 3)%nat -> (1 <= b < e)%Z -> (k <> 1%nat -> (10 <= b \/ e <= 10)%Z) -> (k = 1%nat -> (tr <= b \/ e <= tr)%Z) ->
  IZR (e - b) * zrRadius tr (zr k b e) = Rsum (zlist b (e - 1)) (fun n => zrRadius tr (zr k n (n + 1))).
Proof.
  intros tr k b e Hk H H0 H1. rewrite zr_radius by lia. unfold mean. transitivity (Rsum (zlist b (e - 1)) (zrLaw tr k b)); [field; apply not_0_IZR; lia|].
  apply Rsum_ext. intros n Hn. apply zlist_In in Hn. rewrite zr_radius, mean_one by lia. assert (C : (k = 0 \/ k = 1 \/ k = 2)%nat) by lia.
  destruct C as [->|[->| ->]]; cbn [zrLaw].
  - specialize (H0 ltac:(discriminate)). unfold zrPoint. destruct (Z.ltb_spec b 10), (Z.ltb_spec n 10); try lia; reflexivity.
  - specialize (H1 eq_refl). unfold zrBasalPoint. destruct (Z.ltb_spec b tr), (Z.ltb_spec n tr); try lia; reflexivity.
  - specialize (H0 ltac:(discriminate)). unfold zrPoint. destruct (Z.ltb_spec b 10), (Z.ltb_spec n 10); try lia; reflexivity.
Qed.
Print Assumptions c61_zr_group_partial.
(** A group over size 10 follows the law of its smallest member: its radius is below that of every member but the first. *)
Theorem c61_zr_group_refuted : forall tr k, (k = 0 \/ k = 2)%nat ->
  zrSelect 20 20 20 (zr k 9 12) = true /\ forall n, (10 <= n < 12)%Z -> zrRadius tr (zr k 9 12) < zrRadius tr (zr k n (n + 1)).
Proof.
  intros tr k Hk. split; [destruct Hk as [-> | ->]; reflexivity|]. intros n Hn. rewrite !zr_radius by (destruct Hk as [-> | ->]; lia). rewrite mean_one.
  assert (E : zrLaw tr k = zrPoint) by (destruct Hk as [-> | ->]; reflexivity). rewrite E.
  assert (R : mean (zrPoint 9) 9 12 <= 0.4).
  { apply mean_bounds with (x := 0); [lia|]. intros j Hj. unfold zrPoint. cbn [Z.ltb Z.compare Pos.compare Pos.compare_cont].
    assert (J : 9 <= IZR j <= 11) by (split; apply IZR_le; lia). split; [left; apply root3_pos; lra|]. left. apply cube_lt. rewrite root3_cube by lra. lra. }
  apply Rle_lt_trans with 0.4; [exact R|]. unfold zrPoint. destruct (Z.ltb_spec n 10); [lia|]. assert (M10 : 10 <= IZR n) by (apply IZR_le; lia).
  pose proof (sqrt_bounds 3 10 4 ltac:(lra) ltac:(lra) ltac:(lra) ltac:(lra)) as [S1 _]. assert (sqrt 10 <= sqrt (IZR n)) by (apply sqrt_le_1; lra). lra.
Qed.
Print Assumptions c61_zr_group_refuted.
Example c61_zr_ok : (1 <= 40 < 43)%Z /\ zrSelect 50 50 50 (zr 1 40 43) = true. Proof. split; [lia|reflexivity]. Qed.
