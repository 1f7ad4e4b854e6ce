(** C63: binding energies of the Alloy, Fe, Zr and NE networks. *)
From Coq Require Import Reals Lra Lia List ZArith Bool.
From Verif Require Import BindingModel BindingProofs FormationModel MobilityProofs.
Import ListNotations.
Set Implicit Arguments.
Open Scope R_scope.

(** *** Specification *)
(** A cluster of one of the six Alloy species (0 V, 1 Void, 2 Faulted, 3 I, 4 Perfect, 5 Frank), or of the three Zr species
    (0 V, 1 Basal, 2 I), with sizes from [a] to [b - 1]. *)
Definition six (k : nat) (i : iv) : list iv := map (fun j => if Nat.eqb j k then i else Iv 0 1) [0; 1; 2; 3; 4; 5]%nat.
Definition three (k : nat) (i : iv) : list iv := map (fun j => if Nat.eqb j k then i else Iv 0 1) [0; 1; 2]%nat.
(** The mean size of a group *)
Definition size (i : iv) : R := (IZR (ib i) + IZR (ie i) - 1) / 2.
Definition sized (i : iv) : Prop := (0 < ib i < ie i)%Z /\ 1 < size i.
(** What it costs to take one unit from a body of [n] with surface energy [s] n^p *)
Definition unit_cost (s p n : R) : R := s * (Rpower n p - Rpower (n - 1) p).

Lemma size_mean i : meanAmount i = size i.
Proof. unfold meanAmount, size. rewrite minus_IZR, plus_IZR. reflexivity. Qed.
Lemma on_six k j a b : (j < 6)%nat -> (k < 6)%nat -> (0 < a)%Z -> alloyOn j (six k (Iv a b)) = Nat.eqb j k.
Proof.
  intros Hj Hk Ha. assert (N : (a =? 0)%Z = false) by (apply Z.eqb_neq; lia).
  do 6 (destruct k as [|k]; [do 6 (destruct j as [|j]; [unfold alloyOn, six, axis; cbn; rewrite ?N; reflexivity|]); lia|]). lia.
Qed.
Lemma axis_six k i : (k < 6)%nat -> axis k (six k i) = i.
Proof. intros H. do 6 (destruct k as [|k]; [reflexivity|]). lia. Qed.
Lemma root3_square n : 0 < n -> root3 (n * n) = Rpower n (2 / 3).
Proof.
  intros H. unfold root3. destruct (Rlt_dec 0 (n * n)); [|nra].
  rewrite <- Rpower_mult_distr by exact H. rewrite <- Rpower_plus. f_equal. lra.
Qed.
Lemma alloy_step n : 1 < n -> alloyStep n = Rpower n (2 / 3) - Rpower (n - 1) (2 / 3).
Proof. intros H. unfold alloyStep. rewrite !root3_square by lra. reflexivity. Qed.
Lemma clamp_alloy x : x <= 5 -> Rmin 5.0 (Rmax x 0.1) = Rmax 0.1 x.
Proof. intros H. unfold Rmin, Rmax. repeat destruct Rle_dec; lra. Qed.

(** *** Alloy *)
(** A vacancy leaves a vacancy cluster, a void or a faulted loop, single or grouped. *)
Definition alloy_surface (k : nat) : R := if Nat.eqb k 2 then 3.2 else 3.1.
Theorem c63_alloy k i v w other : (k <= 2)%nat -> sized i -> (0 < v)%Z ->
  alloyBinding (six k i) (six 0 (Iv v w)) other = Rmax 0.1 (1.9 - unit_cost (alloy_surface k) (2 / 3) (size i)) /\
  alloyBinding (six k i) other (six 0 (Iv v w)) = Rmax 0.1 (1.9 - unit_cost (alloy_surface k) (2 / 3) (size i)).
Proof.
  intros Hk [Hi Hs] Hv. unfold alloyBinding.
  rewrite !(@on_six 0 0 v w) by lia. rewrite orb_true_r. cbn [Nat.eqb orb].
  destruct i as [a b]. cbn [ib ie] in Hi.
  rewrite !on_six by lia.
  assert (P := @power_step_pos (2 / 3) _ ltac:(lra) Hs).
  assert (k = 0 \/ k = 1 \/ k = 2)%nat as [-> | [-> | ->]] by lia; cbn [Nat.eqb]; rewrite ?axis_six by lia; rewrite size_mean, alloy_step by exact Hs;
    unfold unit_cost, alloy_surface; cbn [Nat.eqb]; rewrite clamp_alloy by lra; auto.
Qed.
Print Assumptions c63_alloy.
Example c63_alloy_example : sized (Iv 10 11) /\ size (Iv 10 11) = 10 /\ sized (Iv 50 60) /\ size (Iv 50 60) = 54.5 /\ sized (Iv 1 3).
Proof. unfold sized, size; cbn. repeat split; try lia; lra. Qed.

(** The binding grows with the size and stays between the floor and the formation energy of a vacancy. *)
Theorem c63_alloy_grows k i j : (k <= 2)%nat -> sized i -> sized j -> size i <= size j ->
  0.1 <= alloyBinding (six k i) (six 0 (Iv 1 2)) (six k i) <= alloyBinding (six k j) (six 0 (Iv 1 2)) (six k j) /\
  alloyBinding (six k j) (six 0 (Iv 1 2)) (six k j) < 1.9.
Proof.
  intros Hk Hi Hj H. rewrite (proj1 (c63_alloy 2 (six k i) Hk Hi Z.lt_0_1)), (proj1 (c63_alloy 2 (six k j) Hk Hj Z.lt_0_1)).
  destruct Hi as [Ii Si], Hj as [Ij Sj].
  assert (P := @power_step (2 / 3) _ _ ltac:(lra) Si H). assert (Q := @power_step_pos (2 / 3) _ ltac:(lra) Sj).
  unfold unit_cost. assert (3 < alloy_surface k < 4) by (unfold alloy_surface; destruct Nat.eqb; lra).
  unfold Rmax. repeat destruct Rle_dec; split; try split; nra.
Qed.
Print Assumptions c63_alloy_grows.
Example c63_alloy_grows_example : sized (Iv 3 4) /\ sized (Iv 3 5) /\ size (Iv 3 4) <= size (Iv 3 5).
Proof. unfold sized, size; cbn. repeat split; try lia; lra. Qed.

(** The law is not what the pair and the triple get: the floor hides it at 2 and not at 3. *)
Theorem c63_alloy_pair_refuted :
  (forall k, (k <= 2)%nat -> 1.9 - unit_cost (alloy_surface k) (2 / 3) 2 < 0.1 /\
             alloyBinding (six k (Iv 2 3)) (six 0 (Iv 1 2)) (six 0 (Iv 1 2)) = 0.1) /\
  (forall k i, (k <= 2)%nat -> sized i -> 3 <= size i ->
     0.3 < alloyBinding (six k i) (six 0 (Iv 1 2)) (six 0 (Iv 1 2)) /\
     alloyBinding (six k i) (six 0 (Iv 1 2)) (six 0 (Iv 1 2)) = 1.9 - unit_cost (alloy_surface k) (2 / 3) (size i)).
Proof.
  assert (T1 : forall p, Rpower 1 p = 1) by (intros p; unfold Rpower; rewrite ln_1, Rmult_0_r; apply exp_0).
  assert (E : 2 / 3 = INR 2 / INR 3) by (cbn [INR]; lra).
  assert (T2 : 1.587 < Rpower 2 (2 / 3)) by (apply (@Rpower_above _ _ _ 2 3 E); [lia|lra|lra|cbn; lra]).
  assert (T2' : 1.5 < Rpower 2 (2 / 3)) by lra.
  assert (T3 : Rpower 3 (2 / 3) < 2.081) by (apply (@Rpower_below _ _ _ 2 3 E); [lia|lra|lra|cbn; lra]).
  assert (S : forall k, alloy_surface k = 3.1 \/ alloy_surface k = 3.2) by (intros k; unfold alloy_surface; destruct Nat.eqb; auto).
  split.
  - intros k Hk. assert (Z2 : sized (Iv 2 3)) by (unfold sized, size; cbn; split; [lia|lra]).
    assert (L : 1.9 - unit_cost (alloy_surface k) (2 / 3) 2 < 0.1).
    { unfold unit_cost. replace (2 - 1) with 1 by lra. rewrite T1. destruct (S k) as [-> | ->]; lra. }
    split; [exact L|]. rewrite (proj1 (c63_alloy 2 (six 0 (Iv 1 2)) Hk Z2 Z.lt_0_1)).
    replace (size (Iv 2 3)) with 2 by (unfold size; cbn; lra). unfold Rmax. destruct Rle_dec; lra.
  - intros k i Hk Hi H. rewrite (proj1 (c63_alloy 2 (six 0 (Iv 1 2)) Hk Hi Z.lt_0_1)).
    assert (P := @power_step (2 / 3) 3 _ ltac:(lra) ltac:(lra) H). replace (3 - 1) with 2 in P by lra.
    assert (0.3 < 1.9 - unit_cost (alloy_surface k) (2 / 3) (size i)) by (unfold unit_cost; destruct (S k) as [-> | ->]; lra).
    unfold Rmax. destruct Rle_dec; lra.
Qed.
Print Assumptions c63_alloy_pair_refuted.

(** It is not the difference of the formation energies the network itself computes. *)
Theorem c63_alloy_formation_refuted n : (3 <= n)%Z ->
  let E m := alloyFormation (six 0 (Iv m (m + 1))) in
  E (n - 1)%Z + E 1%Z - E n < alloyBinding (six 0 (Iv n (n + 1))) (six 0 (Iv (n - 1) n)) (six 0 (Iv 1 2)).
Proof.
  intros H E.
  assert (F : forall m, (0 < m)%Z -> E m = 1.9 + 3.4 * (Rpower (IZR m) (2 / 3) - 1)).
  { intros m Hm. unfold E, alloyFormation. rewrite !on_six by lia. cbn [Nat.eqb]. rewrite axis_six by lia. cbn [ib ie].
    unfold mean, zlist. replace (m + 1 - 1 - m + 1)%Z with 1%Z by lia. change (Z.to_nat 1) with 1%nat. cbn [seq map]. cbn [Rsum].
    replace (m + 1 - m)%Z with 1%Z by lia. unfold alloyEnergy. rewrite Z.add_0_r. lra. }
  assert (Sn : sized (Iv n (n + 1))).
  { unfold sized, size. cbn [ib ie]. rewrite plus_IZR. apply IZR_le in H as H'. split; [lia|lra]. }
  assert (Zs : size (Iv n (n + 1)) = IZR n) by (unfold size; cbn [ib ie]; rewrite plus_IZR; lra).
  assert (N1 : (0 < n - 1)%Z) by lia. rewrite (proj1 (@c63_alloy 0 _ (n - 1) n (six 0 (Iv 1 2)) ltac:(lia) Sn N1)), Zs.
  rewrite !F by lia. rewrite minus_IZR. unfold unit_cost, alloy_surface. cbn [Nat.eqb].
  assert (T1 : Rpower 1 (2 / 3) = 1) by (unfold Rpower; rewrite ln_1, Rmult_0_r; apply exp_0). rewrite T1.
  apply IZR_le in H. assert (P := @power_step_pos (2 / 3) (IZR n) ltac:(lra) ltac:(lra)).
  eapply Rlt_le_trans; [|apply Rmax_r]. lra.
Qed.
Print Assumptions c63_alloy_formation_refuted.

(** *** Zr *)
Lemma zrV_three k a b : (k < 3)%nat -> (0 < a)%Z -> zrOnV (three k (Iv a b)) = Nat.eqb k 0 /\ zrOnB (three k (Iv a b)) = Nat.eqb k 1 /\
  zrOnI (three k (Iv a b)) = Nat.eqb k 2 /\ axis k (three k (Iv a b)) = Iv a b.
Proof.
  intros Hk Ha. assert (N : (a =? 0)%Z = false) by (apply Z.eqb_neq; lia).
  do 3 (destruct k as [|k]; [unfold zrOnV, zrOnB, zrOnI, on3, three, axis; cbn; rewrite ?N; repeat split|]). lia.
Qed.
Lemma spow_Rpower x p : 0 < x -> spow x p = Rpower x p.
Proof. intros H. unfold spow. destruct (Rlt_dec 0 x); [reflexivity|lra]. Qed.
Lemma zrPow_cost a p n : 1 < n -> zrPow a p n = unit_cost a p n.
Proof. intros H. unfold zrPow, unit_cost. rewrite !spow_Rpower by lra. reflexivity. Qed.

(** The energy of a line or loop of [n] defects *)
Definition line_energy (k c n : R) : R := k * (sqrt n * ln (c * sqrt n)).
Definition zr_vacancy (n : R) : R :=
  if Rlt_dec n 18 then 2.03 - unit_cost 1.9 0.84 n
  else if Rlt_dec n 66 then 2.03 - unit_cost 3.4 0.70 n
  else if Rlt_dec n 925 then 2.03 - (0.11 + line_energy 1.741 4.588 n - line_energy 1.741 4.588 (n - 1))
  else 2.03 - (line_energy 2.918630 (1.69 / 0.23) n - line_energy 2.918630 (1.69 / 0.23) (n - 1)).

Lemma zrE1_step n : 1 < n -> zrE1 n - zrE1 (n - 1) = 0.11 + line_energy 1.741 4.588 n - line_energy 1.741 4.588 (n - 1).
Proof. intros H. unfold zrE1, line_energy. lra. Qed.
Lemma zrE2_step n : 1 < n -> zrE2 n - zrE2 (n - 1) = line_energy 2.918630 (1.69 / 0.23) n - line_energy 2.918630 (1.69 / 0.23) (n - 1).
Proof.
  intros H. unfold zrE2, line_energy.
  replace (1.69 * sqrt n / 0.23) with (1.69 / 0.23 * sqrt n) by lra.
  replace (1.69 * sqrt (n - 1) / 0.23) with (1.69 / 0.23 * sqrt (n - 1)) by lra. lra.
Qed.
Theorem c63_zr_vacancy T i v w other : sized i -> (0 < v)%Z ->
  zrBinding T (three 0 i) (three 0 (Iv v w)) other = Rmax 0.1 (zr_vacancy (size i)) /\
  zrBinding T (three 0 i) other (three 0 (Iv v w)) = Rmax 0.1 (zr_vacancy (size i)).
Proof.
  intros [Hi Hs] Hv. destruct i as [a b]. cbn [ib ie] in Hi.
  destruct (@zrV_three 0 v w ltac:(lia) Hv) as (Ev & _). destruct (@zrV_three 0 a b ltac:(lia) ltac:(lia)) as (Ei & _ & _ & Ai).
  unfold zrBinding. rewrite Ev, Ei, Ai, orb_true_r. cbn [Nat.eqb orb]. rewrite size_mean.
  assert (X : zrVEnergy (size (Iv a b)) = zr_vacancy (size (Iv a b))).
  { unfold zrVEnergy, zr_vacancy. rewrite !zrPow_cost, zrE1_step, zrE2_step by exact Hs. reflexivity. }
  rewrite X. auto.
Qed.
Print Assumptions c63_zr_vacancy.
Example c63_zr_vacancy_example : sized (Iv 2 3) /\ sized (Iv 17 18) /\ sized (Iv 60 72) /\ sized (Iv 1000 1001).
Proof. unfold sized, size; cbn. repeat split; try lia; lra. Qed.

Lemma line_step k c x y : 0 < k -> 1 <= c -> 2 < x -> x <= y ->
  line_energy k c y - line_energy k c (y - 1) <= line_energy k c x - line_energy k c (x - 1).
Proof.
  intros Hk Hc Hx Hy.
  assert (S : forall z, line_energy k c z = k * (fun n => sqrt n * ln (c * sqrt n)) z) by reflexivity. rewrite !S.
  assert (A := @step_le (fun n => sqrt n * ln (c * sqrt n)) (loopSlope c) 1 x y).
  assert (forall z, 1 < z -> derivable_pt_lim (fun n => sqrt n * ln (c * sqrt n)) z (loopSlope c z)) by (intros; apply zrLoop_slope; lra).
  assert (forall u w, 1 < u -> u <= w -> loopSlope c w <= loopSlope c u) by (intros; apply loopSlope_le; nra).
  specialize (A H H0 ltac:(lra) Hy). nra.
Qed.
Lemma line_bounds k c x : 0 < k -> 1 <= c -> 2 < x ->
  k * loopSlope c x <= line_energy k c x - line_energy k c (x - 1) <= k * loopSlope c (x - 1).
Proof.
  intros Hk Hc Hx.
  assert (S : forall z, line_energy k c z = k * (fun n => sqrt n * ln (c * sqrt n)) z) by reflexivity. rewrite !S.
  assert (A := @step_bounds (fun n => sqrt n * ln (c * sqrt n)) (loopSlope c) 1 x).
  assert (forall z, 1 < z -> derivable_pt_lim (fun n => sqrt n * ln (c * sqrt n)) z (loopSlope c z)) by (intros; apply zrLoop_slope; lra).
  assert (forall u w, 1 < u -> u <= w -> loopSlope c w <= loopSlope c u) by (intros; apply loopSlope_le; nra).
  specialize (A H H0 ltac:(lra)). nra.
Qed.
Lemma line_step_pos k c x : 0 < k -> 1 <= c -> 2 < x -> 0 < line_energy k c x - line_energy k c (x - 1).
Proof.
  intros Hk Hc Hx. destruct (line_bounds Hk Hc Hx) as [B _]. eapply Rlt_le_trans; [|exact B].
  apply Rmult_lt_0_compat; [exact Hk|]. assert (1 < sqrt x) by (rewrite <- sqrt_1; apply sqrt_lt_1; lra).
  unfold loopSlope. apply Rdiv_lt_0_compat; [|lra]. assert (0 <= ln (c * sqrt x)); [|lra].
  rewrite <- ln_1. left. apply ln_increasing; nra.
Qed.

(** The sizes are halves of whole numbers. *)
Lemma size_half i m : size i < IZR m -> size i <= IZR m - 1 / 2.
Proof.
  unfold size. intros H. assert ((ib i + ie i - 1 < 2 * m)%Z).
  { apply lt_IZR. rewrite minus_IZR, plus_IZR, mult_IZR. lra. }
  assert (I : (ib i + ie i - 1 <= 2 * m - 1)%Z) by lia. apply IZR_le in I. rewrite !minus_IZR, plus_IZR, mult_IZR in I. lra.
Qed.

Lemma power_above x p y a b c d (m k : nat) : x = IZR c / IZR d -> y = IZR a / IZR b -> p = INR m / INR k -> (0 < k)%nat -> (0 < a)%Z -> (0 < b)%Z -> (0 < c)%Z -> (0 < d)%Z ->
  (a ^ Z.of_nat k * d ^ Z.of_nat m <? c ^ Z.of_nat m * b ^ Z.of_nat k)%Z = true -> y < Rpower x p.
Proof.
  intros -> -> E Hk Ha Hb Hc Hd H. apply (@Rpower_above _ _ _ m k E Hk); [apply Rdiv_lt_0_compat; apply IZR_lt; lia..|].
  apply frac_lt; [lia|lia|]. apply Z.ltb_lt. exact H.
Qed.
Lemma power_below x p y a b c d (m k : nat) : x = IZR c / IZR d -> y = IZR a / IZR b -> p = INR m / INR k -> (0 < k)%nat -> (0 < a)%Z -> (0 < b)%Z -> (0 < c)%Z -> (0 < d)%Z ->
  (c ^ Z.of_nat m * b ^ Z.of_nat k <? a ^ Z.of_nat k * d ^ Z.of_nat m)%Z = true -> Rpower x p < y.
Proof.
  intros -> -> E Hk Ha Hb Hc Hd H. apply (@Rpower_below _ _ _ m k E Hk); [apply Rdiv_lt_0_compat; apply IZR_lt; lia..|].
  apply frac_lt; [lia|lia|]. apply Z.ltb_lt. exact H.
Qed.
Ltac num := first [lra | lia | (cbn [INR]; lra) | (vm_compute; reflexivity)].
(** At the ends of the laws *)
Lemma zr_18 : unit_cost 3.4 0.70 18 < unit_cost 1.9 0.84 17.5.
Proof.
  unfold unit_cost. replace (17.5 - 1) with 16.5 by lra. replace (18 - 1) with 17 by lra.
  assert (11.0700 < Rpower 17.5 0.84) by (apply (@power_above _ _ _ 110700 10000 35 2 21 25); num).
  assert (Rpower 16.5 0.84 < 10.5364) by (apply (@power_below _ _ _ 105364 10000 33 2 21 25); num).
  assert (Rpower 18 0.70 < 7.5631) by (apply (@power_below _ _ _ 75631 10000 18 1 7 10); num).
  assert (7.2662 < Rpower 17 0.70) by (apply (@power_above _ _ _ 72662 10000 17 1 7 10); num).
  lra.
Qed.
Lemma zr_66 : 0.67 < unit_cost 3.4 0.70 65.5.
Proof.
  unfold unit_cost. replace (65.5 - 1) with 64.5 by lra.
  assert (18.679 < Rpower 65.5 0.70) by (apply (@power_above _ _ _ 18679 1000 131 2 7 10); num).
  assert (Rpower 64.5 0.70 < 18.480) by (apply (@power_below _ _ _ 18480 1000 129 2 7 10); num).
  lra.
Qed.
Lemma zr_7 : unit_cost 4.6 0.66 7 < unit_cost 2.8 0.81 6.5.
Proof.
  unfold unit_cost. replace (6.5 - 1) with 5.5 by lra. replace (7 - 1) with 6 by lra.
  assert (4.5546 < Rpower 6.5 0.81) by (apply (@power_above _ _ _ 45546 10000 13 2 81 100); num).
  assert (Rpower 5.5 0.81 < 3.9783) by (apply (@power_below _ _ _ 39783 10000 11 2 81 100); num).
  assert (Rpower 7 0.66 < 3.6122) by (apply (@power_below _ _ _ 36122 10000 7 1 33 50); num).
  assert (3.2627 < Rpower 6 0.66) by (apply (@power_above _ _ _ 32627 10000 6 1 33 50); num).
  lra.
Qed.

Lemma sqrt_between a b x : 0 <= a -> 0 <= x -> a * a <= x -> x <= b * b -> 0 <= b -> a <= sqrt x <= b.
Proof.
  intros Ha Hx H1 H2 Hb. split.
  - rewrite <- (sqrt_square a) by exact Ha. apply sqrt_le_1; nra.
  - rewrite <- (sqrt_square b) by exact Hb. apply sqrt_le_1; nra.
Qed.
Lemma zr_law3_66 : 0.11 + line_energy 1.741 4.588 66 - line_energy 1.741 4.588 (66 - 1) < 0.67.
Proof.
  destruct (@line_bounds 1.741 4.588 66 ltac:(lra) ltac:(lra) ltac:(lra)) as [_ B].
  replace (66 - 1) with 65 in * by lra.
  assert (Q : 8 <= sqrt 65 <= 8.1) by (apply sqrt_between; lra).
  assert (L : ln (4.588 * sqrt 65) <= 4).
  { replace 4.588 with (4.588 / 1) by lra. destruct (Rle_lt_dec (4.588 * sqrt 65) 38) as [H|H]; [|lra].
    rewrite <- (ln_exp 4). left. apply ln_increasing; [lra|]. unfold Rdiv. rewrite Rinv_1, Rmult_1_r.
    replace 4 with (INR 4) at 1 by (cbn [INR]; lra). rewrite exp_nat.
    assert (E := exp_1_above).
    assert (2.7 ^ 4 <= exp 1 ^ 4) by (apply pow_incr; lra). assert (2.7 ^ 4 = 53.1441) by (cbn [pow]; lra). lra. }
  assert (S : loopSlope 4.588 65 <= 5 / 16).
  { unfold loopSlope. apply (Rmult_le_reg_r (2 * sqrt 65)); [lra|]. unfold Rdiv. rewrite Rmult_assoc, Rinv_l by lra. lra. }
  lra.
Qed.

Lemma zr_vacancy_mono i j : sized i -> sized j -> size i <= size j -> size j < 925 -> zr_vacancy (size i) <= zr_vacancy (size j).
Proof.
  intros [_ Hi] [_ Hj] H H9. unfold zr_vacancy.
  assert (H18 := @size_half i 18). assert (H66 := @size_half i 66).
  set (x := size i) in *. set (y := size j) in *.
  assert (A18 : x < 18 -> 18 <= y -> unit_cost 3.4 0.70 y <= unit_cost 1.9 0.84 x).
  { intros L G. specialize (H18 L). assert (Z := zr_18). unfold unit_cost in *.
    assert (P := @power_step 0.84 x 17.5 ltac:(lra) Hi ltac:(lra)). assert (Q := @power_step 0.70 18 y ltac:(lra) ltac:(lra) G). lra. }
  assert (A66 : forall u, u <= 65.5 -> 1 < u -> 66 <= y -> 0.11 + line_energy 1.741 4.588 y - line_energy 1.741 4.588 (y - 1) <= unit_cost 3.4 0.70 u).
  { intros u Hu H1 G. assert (Z := zr_66). assert (W := zr_law3_66). unfold unit_cost in *.
    assert (P := @power_step 0.70 u 65.5 ltac:(lra) H1 Hu). assert (Q := @line_step 1.741 4.588 66 y ltac:(lra) ltac:(lra) ltac:(lra) G). lra. }
  assert (P84 := @power_step 0.84 x y ltac:(lra) Hi H). assert (P70 := @power_step 0.70 x y ltac:(lra) Hi H).
  destruct (Rlt_dec x 18) as [X1|X1]; [|destruct (Rlt_dec x 66) as [X2|X2]; [|destruct (Rlt_dec x 925) as [X3|X3]; [|lra]]];
  (destruct (Rlt_dec y 18) as [Y1|Y1]; [|destruct (Rlt_dec y 66) as [Y2|Y2]; [|destruct (Rlt_dec y 925) as [Y3|Y3]; [|lra]]]); try lra; try (unfold unit_cost; lra).
  - assert (Z := zr_18). assert (A := A66 18 ltac:(lra) ltac:(lra) ltac:(lra)). specialize (H18 X1).
    assert (P := @power_step 0.84 x 17.5 ltac:(lra) Hi ltac:(lra)). unfold unit_cost in *. lra.
  - specialize (A66 x ltac:(lra) Hi ltac:(lra)). unfold unit_cost in *. lra.
  - assert (Q := @line_step 1.741 4.588 x y ltac:(lra) ltac:(lra) ltac:(lra) H). lra.
Qed.
Lemma zr_vacancy_below n : 1 < n -> zr_vacancy n < 2.03.
Proof.
  intros H. unfold zr_vacancy, unit_cost.
  assert (P := @power_step_pos 0.84 n ltac:(lra) H). assert (Q := @power_step_pos 0.70 n ltac:(lra) H).
  destruct (Rlt_dec n 18); [lra|]. destruct (Rlt_dec n 66); [lra|].
  assert (A := @line_step_pos 1.741 4.588 n ltac:(lra) ltac:(lra) ltac:(lra)).
  assert (B := @line_step_pos 2.918630 (1.69 / 0.23) n ltac:(lra) ltac:(lra) ltac:(lra)).
  destruct (Rlt_dec n 925); lra.
Qed.
(** Larger clusters of fewer than 925 vacancies hold a vacancy at least as tightly. *)
Theorem c63_zr_vacancy_grows T i j : sized i -> sized j -> size i <= size j -> size j < 925 \/ 925 <= size i ->
  0.1 <= zrBinding T (three 0 i) (three 0 (Iv 1 2)) (three 0 i) <= zrBinding T (three 0 j) (three 0 (Iv 1 2)) (three 0 j) /\
  zrBinding T (three 0 j) (three 0 (Iv 1 2)) (three 0 j) < 2.03.
Proof.
  intros Hi Hj H B. rewrite (proj1 (c63_zr_vacancy T 2 (three 0 i) Hi Z.lt_0_1)), (proj1 (c63_zr_vacancy T 2 (three 0 j) Hj Z.lt_0_1)).
  assert (M : zr_vacancy (size i) <= zr_vacancy (size j)).
  { destruct B as [B|B]; [apply zr_vacancy_mono; assumption|]. unfold zr_vacancy.
    repeat (destruct Rlt_dec; [lra|]).
    assert (Q := @line_step 2.918630 (1.69 / 0.23) (size i) (size j) ltac:(lra) ltac:(lra) ltac:(lra) H). lra. }
  assert (U := zr_vacancy_below (proj2 Hj)). unfold Rmax. repeat destruct Rle_dec; lra.
Qed.
Print Assumptions c63_zr_vacancy_grows.
Example c63_zr_vacancy_grows_example : sized (Iv 17 19) /\ sized (Iv 18 19) /\ size (Iv 17 19) < 18 /\ size (Iv 18 19) = 18 /\ size (Iv 18 19) < 925.
Proof. unfold sized, size; cbn. repeat split; try lia; lra. Qed.

(** At 925 the binding drops. *)
Theorem c63_zr_vacancy_925_refuted T :
  zrBinding T (three 0 (Iv 925 926)) (three 0 (Iv 1 2)) (three 0 (Iv 924 925)) < zrBinding T (three 0 (Iv 924 925)) (three 0 (Iv 1 2)) (three 0 (Iv 923 924)).
Proof.
  assert (S4 : sized (Iv 924 925)) by (unfold sized, size; cbn; split; [lia|lra]).
  assert (S5 : sized (Iv 925 926)) by (unfold sized, size; cbn; split; [lia|lra]).
  rewrite (proj1 (c63_zr_vacancy T 2 _ S4 Z.lt_0_1)), (proj1 (c63_zr_vacancy T 2 _ S5 Z.lt_0_1)).
  replace (size (Iv 924 925)) with 924 by (unfold size; cbn; lra). replace (size (Iv 925 926)) with 925 by (unfold size; cbn; lra).
  unfold zr_vacancy. destruct (Rlt_dec 925 18); [lra|]. destruct (Rlt_dec 925 66); [lra|]. destruct (Rlt_dec 925 925); [lra|].
  destruct (Rlt_dec 924 18); [lra|]. destruct (Rlt_dec 924 66); [lra|]. destruct (Rlt_dec 924 925); [|lra].
  destruct (@line_bounds 1.741 4.588 924 ltac:(lra) ltac:(lra) ltac:(lra)) as [_ B].
  destruct (@line_bounds 2.918630 (1.69 / 0.23) 925 ltac:(lra) ltac:(lra) ltac:(lra)) as [C _].
  replace (924 - 1) with 923 in * by lra. replace (925 - 1) with 924 in * by lra.
  assert (Q3 : 30.38 <= sqrt 923 <= 30.39) by (apply sqrt_between; lra).
  assert (Q5 : 30.41 <= sqrt 925 <= 30.42) by (apply sqrt_between; lra).
  assert (L1 : 4 <= ln (4.588 * sqrt 923)).
  { assert (X := @ln_above (4.588 * sqrt 923) 4). cbn [pow INR] in X. lra. }
  assert (L2 : ln (4.588 * sqrt 923) <= 8).
  { assert (X := @ln_below (4.588 * sqrt 923) 8). cbn [pow INR] in X. lra. }
  assert (L3 : ln (4.588 * sqrt 923) + 0.375 <= ln (1.69 / 0.23 * sqrt 925)).
  { replace 0.375 with (1 - / 1.6) by lra. assert (X := @ln_ge 1.6 ltac:(lra)).
    assert (Y : ln (4.588 * sqrt 923 * 1.6) <= ln (1.69 / 0.23 * sqrt 925)) by (left; apply ln_increasing; lra).
    rewrite ln_mult in Y by lra. lra. }
  assert (U : loopSlope 4.588 923 <= (ln (4.588 * sqrt 923) + 1) / 60.76).
  { unfold loopSlope, Rdiv. apply Rmult_le_compat_l; [lra|]. apply Rinv_le_contravar; lra. }
  assert (V : (ln (4.588 * sqrt 923) + 1.375) / 60.84 <= loopSlope (1.69 / 0.23) 925).
  { unfold loopSlope. apply Rle_trans with ((ln (1.69 / 0.23 * sqrt 925) + 1) / 60.84); [lra|].
    unfold Rdiv at 1 2. apply Rmult_le_compat_l; [lra|]. apply Rinv_le_contravar; lra. }
  unfold Rmax. repeat destruct Rle_dec; lra.
Qed.
Print Assumptions c63_zr_vacancy_925_refuted.

(** Interstitials *)
Definition zr_interstitial (n : R) : R := if Rlt_dec n 7 then 2.94 - unit_cost 2.8 0.81 n else 2.94 - unit_cost 4.6 0.66 n.
Theorem c63_zr_interstitial T i v w other : sized i -> (0 < v)%Z ->
  zrBinding T (three 2 i) (three 2 (Iv v w)) other = Rmax 0.1 (zr_interstitial (size i)) /\
  zrBinding T (three 2 i) other (three 2 (Iv v w)) = Rmax 0.1 (zr_interstitial (size i)).
Proof.
  intros [Hi Hs] Hv. destruct i as [a b]. cbn [ib ie] in Hi.
  destruct (@zrV_three 2 v w ltac:(lia) Hv) as (_ & _ & Ev & _). destruct (@zrV_three 2 a b ltac:(lia) ltac:(lia)) as (E1 & E2 & Ei & Ai).
  unfold zrBinding. rewrite Ev, E1, E2, Ei, Ai, orb_true_r. cbn [Nat.eqb orb]. rewrite size_mean.
  assert (X : zrIEnergy (size (Iv a b)) = zr_interstitial (size (Iv a b))).
  { unfold zrIEnergy, zr_interstitial. rewrite !zrPow_cost by exact Hs. reflexivity. }
  rewrite X. auto.
Qed.
Print Assumptions c63_zr_interstitial.
Example c63_zr_interstitial_example : sized (Iv 6 7) /\ sized (Iv 7 8) /\ sized (Iv 6 8) /\ size (Iv 6 8) = 6.5.
Proof. unfold sized, size; cbn. repeat split; try lia; lra. Qed.
Theorem c63_zr_interstitial_grows T i j : sized i -> sized j -> size i <= size j ->
  0.1 <= zrBinding T (three 2 i) (three 2 (Iv 1 2)) (three 2 i) <= zrBinding T (three 2 j) (three 2 (Iv 1 2)) (three 2 j) /\
  zrBinding T (three 2 j) (three 2 (Iv 1 2)) (three 2 j) < 2.94.
Proof.
  intros Hi Hj H. rewrite (proj1 (c63_zr_interstitial T 2 (three 2 i) Hi Z.lt_0_1)), (proj1 (c63_zr_interstitial T 2 (three 2 j) Hj Z.lt_0_1)).
  destruct Hi as [_ Hi], Hj as [_ Hj].
  assert (H7 := @size_half i 7). set (x := size i) in *. set (y := size j) in *.
  assert (P81 := @power_step 0.81 x y ltac:(lra) Hi H). assert (P66 := @power_step 0.66 x y ltac:(lra) Hi H).
  assert (A := @power_step_pos 0.81 y ltac:(lra) Hj). assert (B := @power_step_pos 0.66 y ltac:(lra) Hj).
  assert (M : zr_interstitial x <= zr_interstitial y < 2.94).
  { unfold zr_interstitial. destruct (Rlt_dec x 7) as [X|X], (Rlt_dec y 7) as [Y|Y]; try lra; unfold unit_cost; try lra.
    assert (Z := zr_7). unfold unit_cost in Z. specialize (H7 X).
    assert (P := @power_step 0.81 x 6.5 ltac:(lra) Hi ltac:(lra)). assert (Q := @power_step 0.66 7 y ltac:(lra) ltac:(lra) ltac:(lra)). lra. }
  unfold Rmax. repeat destruct Rle_dec; lra.
Qed.
Print Assumptions c63_zr_interstitial_grows.

(** Basal loops, which emit a vacancy and leave a smaller loop *)
Definition zr_basal (T : Z) (n : R) : R :=
  if Rlt_dec n (IZR T) then 1.762 - 0.276 - 5.352 * (sqrt n - sqrt (n - 1))
  else if Rlt_dec n 200 then 2.03 - (line_energy 2.87 1.5 n - line_energy 2.87 1.5 (n - 1)) - 0.155268
  else 2.03 - (line_energy 3.02 1.64 n - line_energy 3.02 1.64 (n - 1)) - 0.0833544.
Theorem c63_zr_basal T i v w other : sized i -> (0 < v)%Z ->
  zrBinding T (three 1 i) (three 1 (Iv v w)) other = Rmax 0.1 (zr_basal T (size i)) /\
  zrBinding T (three 1 i) other (three 1 (Iv v w)) = Rmax 0.1 (zr_basal T (size i)).
Proof.
  intros [Hi Hs] Hv. destruct i as [a b]. cbn [ib ie] in Hi.
  destruct (@zrV_three 1 v w ltac:(lia) Hv) as (_ & Ev & _). destruct (@zrV_three 1 a b ltac:(lia) ltac:(lia)) as (E1 & Ei & _ & Ai).
  unfold zrBinding. rewrite Ev, E1, Ei, Ai, orb_true_r. cbn [Nat.eqb orb]. rewrite size_mean.
  assert (X : zrBEnergy T (size (Iv a b)) = zr_basal T (size (Iv a b))).
  { unfold zrBEnergy, zr_basal, zrPyramid, zrLoop, line_energy. replace 1.50 with 1.5 by lra. repeat destruct Rlt_dec; lra. }
  rewrite X. auto.
Qed.
Print Assumptions c63_zr_basal.
Example c63_zr_basal_example : sized (Iv 10 11) /\ sized (Iv 200 220) /\ sized (Iv 400 401).
Proof. unfold sized, size; cbn. repeat split; try lia; lra. Qed.
Lemma sqrt_step x y : 1 < x -> x <= y -> sqrt y - sqrt (y - 1) <= sqrt x - sqrt (x - 1).
Proof.
  intros Hx Hy. apply (@step_le sqrt (fun z => / (2 * sqrt z)) 0); try lra.
  - intros z Hz. apply derivable_pt_lim_sqrt. exact Hz.
  - intros u w Hu Hw. assert (0 < sqrt u) by (apply sqrt_lt_R0; lra). apply Rinv_le_contravar; [lra|].
    assert (sqrt u <= sqrt w) by (apply sqrt_le_1; lra). lra.
Qed.
(** With a transition size of at least 200 (the default is 325), larger loops hold a vacancy more tightly. *)
Theorem c63_zr_basal_grows T i j : (200 <= T)%Z -> sized i -> sized j -> size i <= size j ->
  0.1 <= zrBinding T (three 1 i) (three 1 i) (three 0 (Iv 1 2)) <= zrBinding T (three 1 j) (three 1 j) (three 0 (Iv 1 2)) /\
  zrBinding T (three 1 j) (three 1 j) (three 0 (Iv 1 2)) < 2.03.
Proof.
  intros HT Hi Hj H. destruct i as [a b], j as [c d].
  rewrite (proj1 (@c63_zr_basal T (Iv a b) a b _ Hi ltac:(destruct Hi; cbn in *; lia))), (proj1 (@c63_zr_basal T (Iv c d) c d _ Hj ltac:(destruct Hj; cbn in *; lia))).
  destruct Hi as [_ Hi], Hj as [_ Hj]. set (x := size (Iv a b)) in *. set (y := size (Iv c d)) in *. apply IZR_le in HT.
  assert (P := @sqrt_step x y Hi H). assert (Q : sqrt (y - 1) < sqrt y) by (apply sqrt_lt_1; lra). assert (Q' : sqrt (x - 1) < sqrt x) by (apply sqrt_lt_1; lra).
  assert (G : forall z, 200 <= z -> line_energy 3.02 1.64 z - line_energy 3.02 1.64 (z - 1) < 0.46).
  { intros z Hz. destruct (@line_bounds 3.02 1.64 200 ltac:(lra) ltac:(lra) ltac:(lra)) as [_ B].
    assert (M := @line_step 3.02 1.64 200 z ltac:(lra) ltac:(lra) ltac:(lra) Hz).
    replace (200 - 1) with 199 in * by lra.
    assert (Q9 : 14.1 <= sqrt 199 <= 14.11) by (apply sqrt_between; lra).
    assert (L : ln (1.64 * sqrt 199) <= 3.29).
    { rewrite <- (ln_exp 3.29). left. apply ln_increasing; [lra|]. replace 3.29 with (INR 3 + 0.29) by (cbn [INR]; lra).
      rewrite exp_plus, exp_nat. assert (E := exp_1_above). assert (2.7 ^ 3 <= exp 1 ^ 3) by (apply pow_incr; lra).
      assert (X := exp_ineq1_le 0.29). assert (2.7 ^ 3 * 1.29 <= exp 1 ^ 3 * exp 0.29) by (apply Rmult_le_compat; cbn [pow] in *; lra).
      cbn [pow] in *. lra. }
    assert (S : loopSlope 1.64 199 <= 4.29 / 28.2).
    { unfold loopSlope. apply (Rmult_le_reg_r (2 * sqrt 199)); [lra|]. unfold Rdiv at 1. rewrite Rmult_assoc, Rinv_l by lra. lra. }
    lra. }
  assert (M : zr_basal T x <= zr_basal T y < 2.03).
  { unfold zr_basal. destruct (Rlt_dec x (IZR T)) as [X|X], (Rlt_dec y (IZR T)) as [Y|Y]; try lra.
    - destruct (Rlt_dec y 200); [lra|]. assert (S := @line_step_pos 3.02 1.64 y ltac:(lra) ltac:(lra) ltac:(lra)). specialize (G y ltac:(lra)). lra.
    - destruct (Rlt_dec x 200); [lra|]. destruct (Rlt_dec y 200); [lra|]. assert (S := @line_step_pos 3.02 1.64 y ltac:(lra) ltac:(lra) ltac:(lra)).
      assert (W := @line_step 3.02 1.64 x y ltac:(lra) ltac:(lra) ltac:(lra) H). lra. }
  unfold Rmax. repeat destruct Rle_dec; lra.
Qed.
Print Assumptions c63_zr_basal_grows.

Example c63_zr_basal_grows_example : (200 <= 325)%Z /\ sized (Iv 324 325) /\ sized (Iv 325 326) /\ size (Iv 324 325) < 325.
Proof. unfold sized, size; cbn. repeat split; try lia; lra. Qed.

(** The loop of 9 vacancies, which the generator lets go into V_8 and V_1 (there is no smaller loop), is held by 5 eV, whatever is
    said of the loops of 10 and more. *)
Theorem c63_zr_basal_nine_refuted T : (10 < T)%Z ->
  zrBinding T (three 1 (Iv 9 10)) (three 0 (Iv 8 9)) (three 0 (Iv 1 2)) = 5 /\
  zrBinding T (three 1 (Iv 10 11)) (three 1 (Iv 9 10)) (three 0 (Iv 1 2)) < 0.65 /\ zr_basal T 9 < 0.6.
Proof.
  intros HT. apply IZR_lt in HT.
  assert (Q10 : sqrt 9 = 3) by (replace 9 with (3 * 3) by lra; apply sqrt_square; lra).
  assert (Q : 3.16 <= sqrt 10 <= 3.17) by (apply sqrt_between; lra). assert (Q8 : 2.82 <= sqrt 8 <= 2.83) by (apply sqrt_between; lra).
  split; [|split].
  - unfold zrBinding. destruct (@zrV_three 1 9 10 ltac:(lia) ltac:(lia)) as (E1 & E2 & _). rewrite E1, E2. cbn [Nat.eqb].
    destruct (@zrV_three 0 8 9 ltac:(lia) ltac:(lia)) as (_ & E3 & _). destruct (@zrV_three 0 1 2 ltac:(lia) ltac:(lia)) as (_ & E4 & _).
    rewrite E3, E4. cbn [Nat.eqb orb]. unfold Rmax. destruct Rle_dec; lra.
  - assert (S : sized (Iv 10 11)) by (unfold sized, size; cbn; split; [lia|lra]).
    rewrite (proj1 (@c63_zr_basal T (Iv 10 11) 9 10 (three 0 (Iv 1 2)) S ltac:(lia))). replace (size (Iv 10 11)) with 10 by (unfold size; cbn; lra).
    unfold zr_basal. destruct (Rlt_dec 10 (IZR T)); [|lra]. replace (10 - 1) with 9 by lra. rewrite Q10. unfold Rmax. destruct Rle_dec; lra.
  - unfold zr_basal. destruct (Rlt_dec 9 (IZR T)); [|lra]. replace (9 - 1) with 8 by lra. rewrite Q10. lra.
Qed.
Print Assumptions c63_zr_basal_nine_refuted.

(** *** Fe: He, V and I; single clusters and groups *)
Definition mix (he v i : Z) : reg3 := Reg3 (Iv he (he + 1)) (Iv v (v + 1)) (Iv i (i + 1)).
Lemma on3_true x : (0 < x)%Z -> on3 x 0 0 = true.
Proof. intros H. unfold on3. replace (x =? 0)%Z with false by (symmetry; apply Z.eqb_neq; lia). reflexivity. Qed.
Lemma on3_second x y z : (0 < y)%Z -> on3 x y z = false.
Proof. intros H. unfold on3. replace (y =? 0)%Z with false by (symmetry; apply Z.eqb_neq; lia). rewrite andb_false_r. reflexivity. Qed.
Lemma on3_third x y z : (0 < z)%Z -> on3 x y z = false.
Proof. intros H. unfold on3. replace (z =? 0)%Z with false by (symmetry; apply Z.eqb_neq; lia). rewrite !andb_false_r. reflexivity. Qed.
Lemma on3_zero y z : on3 0 y z = false. Proof. reflexivity. Qed.
Lemma simplex_mix he v i : simplex3 (mix he v i) = true.
Proof. unfold simplex3, mix. cbn [rG rV rI ib ie]. rewrite !Z.eqb_refl. reflexivity. Qed.
Ltac axes := unfold onGas, onVac, onInt, mix; cbn [rG rV rI ib ie];
  repeat first [rewrite on3_zero | rewrite on3_true by lia | rewrite on3_second by lia | rewrite on3_third by lia].
(** Which species a product has; single clusters *)
Definition gas_only (r : reg3) : Prop := ib (rG r) <> 0%Z /\ ib (rV r) = 0%Z /\ ib (rI r) = 0%Z.
Definition vac_only (r : reg3) : Prop := ib (rV r) <> 0%Z /\ ib (rG r) = 0%Z /\ ib (rI r) = 0%Z.
Definition int_only (r : reg3) : Prop := ib (rI r) <> 0%Z /\ ib (rG r) = 0%Z /\ ib (rV r) = 0%Z.
Definition single (r : reg3) : Prop :=
  ie (rG r) = (ib (rG r) + 1)%Z /\ ie (rV r) = (ib (rV r) + 1)%Z /\ ie (rI r) = (ib (rI r) + 1)%Z.
Lemma single_mix he v i : single (mix he v i). Proof. repeat split. Qed.
Lemma on3_iff x y z : on3 x y z = true <-> x <> 0%Z /\ y = 0%Z /\ z = 0%Z.
Proof. unfold on3. rewrite !andb_true_iff, negb_true_iff, Z.eqb_neq, !Z.eqb_eq. tauto. Qed.
Lemma gas_iff r : onGas r = true <-> gas_only r. Proof. apply on3_iff. Qed.
Lemma vac_iff r : onVac r = true <-> vac_only r. Proof. apply on3_iff. Qed.
Lemma int_iff r : onInt r = true <-> int_only r. Proof. apply on3_iff. Qed.
Lemma single_iff r : simplex3 r = true <-> single r.
Proof. unfold simplex3, single. rewrite !andb_true_iff, !Z.eqb_eq. intuition lia. Qed.
Lemma either_true (f : reg3 -> bool) (P : reg3 -> Prop) p1 p2 : (forall r, f r = true <-> P r) -> P p1 \/ P p2 -> f p1 || f p2 = true.
Proof. intros H [A|A]; apply H in A; rewrite A; auto using orb_true_r. Qed.
Lemma either_false (f : reg3 -> bool) (P : reg3 -> Prop) p1 p2 : (forall r, f r = true <-> P r) -> ~ P p1 -> ~ P p2 -> f p1 || f p2 = false.
Proof. intros H A B. apply orb_false_iff. split; apply not_true_iff_false; rewrite H; assumption. Qed.
Definition clamp5 (x : R) : R := Rmin 5 (Rmax (-5) x).
Lemma clamp5_model x : Rmin 5.0 (Rmax x (-5.0)) = clamp5 x.
Proof. unfold clamp5, Rmin, Rmax. repeat destruct Rle_dec; lra. Qed.

(** The energy to take a vacancy from a cavity of [v] vacancies with [he] helium atoms *)
Definition fe_vacancy (he v : R) : R := 1.73 - 2.59 * (spow v (2 / 3) - spow (v - 1) (2 / 3)) + 2.5 * ln (1 + he / v).
Lemma fpow_spow x p : 0 <= x -> fpow x p = Some (spow x p).
Proof. intros H. unfold fpow, spow. destruct (Rlt_dec x 0); [lra|]. destruct (Rlt_dec 0 x); reflexivity. Qed.
Lemma feStep_spow v : 1 <= v -> feStep v = Some (spow v (2 / 3) - spow (v - 1) (2 / 3)).
Proof. intros H. unfold feStep. rewrite !fpow_spow by lra. reflexivity. Qed.

(** Taking a vacancy and kicking out an interstitial: the two energies add up to 6.61 eV before they are cut to [-5, 5]; helium
    strengthens the first and weakens the second. *)
Theorem c63_fe_mixed he v p1 p2 : (0 < he)%Z -> (0 < v)%Z -> single p1 -> single p2 ->
  (int_only p1 \/ int_only p2 -> feBinding (mix he v 0) p1 p2 = Some (clamp5 (6.61 - fe_vacancy (IZR he) (IZR v)))) /\
  (~ int_only p1 -> ~ int_only p2 -> vac_only p1 \/ vac_only p2 -> feBinding (mix he v 0) p1 p2 = Some (clamp5 (fe_vacancy (IZR he) (IZR v)))) /\
  (forall more, (he < more)%Z -> fe_vacancy (IZR he) (IZR v) < fe_vacancy (IZR more) (IZR v)).
Proof.
  intros Hh Hv S1 S2. apply single_iff in S1, S2.
  assert (V1 : 1 <= IZR v) by (apply IZR_le; lia).
  assert (B : feBinding (mix he v 0) p1 p2 =
    match feMixed (onVac p1 || onVac p2) (onInt p1 || onInt p2) (IZR he) (IZR v) with Some b => Some (Rmin 5.0 (Rmax b (-5.0))) | None => None end).
  { unfold feBinding. rewrite simplex_mix, S1, S2. cbn [andb].
    assert (E : onGas (mix he v 0) = false /\ onVac (mix he v 0) = false /\ onInt (mix he v 0) = false) by (axes; auto).
    destruct E as (-> & -> & ->). reflexivity. }
  split; [|split].
  - intros I. apply (@either_true onInt int_only _ _ int_iff) in I. rewrite B, I. unfold feMixed, feIEnergy. rewrite feStep_spow by exact V1. rewrite clamp5_model. unfold fe_vacancy. do 2 f_equal. lra.
  - intros I1 I2 V. assert (I := @either_false onInt int_only _ _ int_iff I1 I2). apply (@either_true onVac vac_only _ _ vac_iff) in V. rewrite B, I, V. unfold feMixed, feVEnergy. rewrite feStep_spow by exact V1. rewrite clamp5_model. reflexivity.
  - intros more Hm. unfold fe_vacancy. assert (IZR he < IZR more) by (apply IZR_lt; exact Hm). assert (0 < IZR he) by (apply IZR_lt; exact Hh).
    assert (0 < / IZR v) by (apply Rinv_0_lt_compat; lra).
    assert (ln (1 + IZR he / IZR v) < ln (1 + IZR more / IZR v)) by (apply ln_increasing; unfold Rdiv; nra). lra.
Qed.
Print Assumptions c63_fe_mixed.
Example c63_fe_mixed_example : feBinding (mix 2 3 0) (mix 2 4 0) (mix 0 0 1) = Some (clamp5 (6.61 - fe_vacancy 2 3)) /\
  feBinding (mix 2 3 0) (mix 2 2 0) (mix 0 1 0) = Some (clamp5 (fe_vacancy 2 3)).
Proof.
  split; [apply (@c63_fe_mixed 2 3 (mix 2 4 0) (mix 0 0 1)) | apply (@c63_fe_mixed 2 3 (mix 2 2 0) (mix 0 1 0))];
  try lia; try apply single_mix; unfold int_only, vac_only; cbn; lia.
Qed.
(** Groups use the mean amounts. *)
Theorem c63_fe_groups g p1 p2 : ~ (single g /\ single p1 /\ single p2) -> 1 <= size (rV g) ->
  (int_only p1 \/ int_only p2 -> feBinding g p1 p2 = Some (clamp5 (6.61 - fe_vacancy (size (rG g)) (size (rV g))))) /\
  (~ int_only p1 -> ~ int_only p2 -> vac_only p1 \/ vac_only p2 -> feBinding g p1 p2 = Some (clamp5 (fe_vacancy (size (rG g)) (size (rV g))))).
Proof.
  intros S V1.
  assert (S' : simplex3 g && simplex3 p1 && simplex3 p2 = false).
  { apply not_true_iff_false. rewrite !andb_true_iff, !single_iff. tauto. }
  unfold feBinding. rewrite S', !size_mean. unfold feMixed, feIEnergy, feVEnergy. rewrite feStep_spow by exact V1.
  split; [intros I; rewrite (@either_true onInt int_only _ _ int_iff I)|intros I1 I2 V; rewrite (@either_false onInt int_only _ _ int_iff I1 I2), (@either_true onVac vac_only _ _ vac_iff V)];
  rewrite clamp5_model; unfold fe_vacancy; do 2 f_equal; lra.
Qed.
Print Assumptions c63_fe_groups.
Example c63_fe_groups_example : let g := Reg3 (Iv 10 14) (Iv 6 10) (Iv 0 1) in
  feBinding g (Reg3 (Iv 10 14) (Iv 6 10) (Iv 0 1)) (mix 0 1 0) = Some (clamp5 (fe_vacancy 11.5 7.5)).
Proof.
  intros g. assert (E : size (rG g) = 11.5 /\ size (rV g) = 7.5) by (unfold size; cbn; lra). destruct E as [E1 E2].
  rewrite <- E1, <- E2. apply c63_fe_groups; [unfold single; cbn; lia|rewrite E2; lra| | |]; unfold int_only, vac_only; cbn; lia.
Qed.

Definition fe_trap (h : Z) : R :=
  (match h with 1%Z => 4.31 | 2%Z => 2.90 | 3%Z => 2.02 | 4%Z => 1.09 | 5%Z => 0.58 | 6%Z => 0.13 | 7%Z => -0.25 | 8%Z => -0.59 | _ => 0 end).
(** Helium clusters kick out an interstitial the more easily the larger they are, spontaneously from seven on. *)
Theorem c63_fe_trap h p1 p2 : (1 <= h <= 8)%Z -> single p1 -> single p2 -> int_only p1 \/ int_only p2 ->
  exists e, feBinding (mix h 0 0) p1 p2 = Some e /\ e = fe_trap h /\ (h = 1%Z -> e = 4.31) /\ (h = 6%Z -> e = 0.13) /\ ((7 <= h)%Z -> -0.6 < e < 0) /\
  ((h <= 6)%Z -> 0 < e) /\ (forall k, (h < k <= 8)%Z -> exists e', feBinding (mix k 0 0) p1 p2 = Some e' /\ e' < e).
Proof.
  intros Hh S1 S2 I. apply single_iff in S1, S2. apply (@either_true onInt int_only _ _ int_iff) in I.
  assert (B : forall k, (1 <= k <= 8)%Z -> feBinding (mix k 0 0) p1 p2 = Some (fe_trap k)).
  { intros k Hk. unfold feBinding. rewrite simplex_mix, S1, S2, I. cbn [andb]. unfold onGas at 1. cbn [mix rG rV rI ib ie].
    rewrite on3_true by lia.
    assert (k = 1 \/ k = 2 \/ k = 3 \/ k = 4 \/ k = 5 \/ k = 6 \/ k = 7 \/ k = 8)%Z as D by lia.
    repeat (destruct D as [-> | D]; [|]); try rewrite D;
    match goal with |- context [Z.to_nat ?x] => let n := eval compute in (Z.to_nat x) in change (Z.to_nat x) with n end;
    cbn [nth_error heTrapTable]; f_equal; unfold fe_trap; unfold Rmin, Rmax; repeat destruct Rle_dec; lra. }
  exists (fe_trap h). split; [apply B; exact Hh|]. split; [reflexivity|].
  assert (h = 1 \/ h = 2 \/ h = 3 \/ h = 4 \/ h = 5 \/ h = 6 \/ h = 7 \/ h = 8)%Z as D by lia.
  repeat split.
  - intros ->. reflexivity.
  - intros ->. reflexivity.
  - assert (h = 7 \/ h = 8)%Z as [-> | ->] by lia; unfold fe_trap; lra.
  - assert (h = 7 \/ h = 8)%Z as [-> | ->] by lia; unfold fe_trap; lra.
  - intros H. repeat (destruct D as [-> | D]; [unfold fe_trap; try lia; lra|]). lia.
  - intros k Hk. exists (fe_trap k). split; [apply B; lia|].
    assert (k = 2 \/ k = 3 \/ k = 4 \/ k = 5 \/ k = 6 \/ k = 7 \/ k = 8)%Z as E by lia.
    repeat (destruct D as [-> | D]; [repeat (destruct E as [-> | E]; [unfold fe_trap; try lia; lra|]); rewrite E in *; unfold fe_trap; try lia; lra|]). lia.
Qed.
Print Assumptions c63_fe_trap.
Example c63_fe_trap_example : feBinding (mix 8 0 0) (mix 8 1 0) (mix 0 0 1) = Some (-0.59).
Proof.
  destruct (@c63_fe_trap 8 (mix 8 1 0) (mix 0 0 1) ltac:(lia) (single_mix _ _ _) (single_mix _ _ _)) as (e & E & -> & _).
  { unfold int_only; cbn; lia. }
  exact E.
Qed.

(** A helium atom leaves a helium-vacancy cluster at 5 eV whatever the cluster; the last one leaves at the energy of a vacancy. *)
Theorem c63_fe_helium_refuted he v : (0 < v)%Z ->
  ((2 <= he)%Z -> feBinding (mix he v 0) (mix (he - 1) v 0) (mix 1 0 0) = Some 5) /\
  feBinding (mix 1 v 0) (mix 0 v 0) (mix 1 0 0) = Some (clamp5 (fe_vacancy 1 (IZR v))).
Proof.
  intros Hv. split.
  - intros Hh. unfold feBinding. rewrite !simplex_mix. cbn [andb].
    assert (E : onVac (mix (he - 1) v 0) = false /\ onInt (mix (he - 1) v 0) = false /\ onGas (mix he v 0) = false /\ onVac (mix he v 0) = false /\ onInt (mix he v 0) = false).
    { axes. auto. }
    destruct E as (-> & -> & -> & -> & ->). change (onVac (mix 1 0 0)) with false. change (onInt (mix 1 0 0)) with false.
    cbn [orb feMixed]. f_equal. unfold Rmin, Rmax. repeat destruct Rle_dec; lra.
  - apply (@c63_fe_mixed 1 v (mix 0 v 0) (mix 1 0 0)); try lia; try apply single_mix; unfold int_only, vac_only; cbn; lia.
Qed.
Print Assumptions c63_fe_helium_refuted.
(** The pair of helium atoms has the binding energy 0.5, all larger helium clusters 1; but the pair never dissociates. *)
Theorem c63_fe_pair_refuted h : (3 <= h <= 8)%Z ->
  feBinding (mix 2 0 0) (mix 1 0 0) (mix 1 0 0) = Some 0.5 /\ feBinding (mix h 0 0) (mix (h - 1) 0 0) (mix 1 0 0) = Some 1 /\
  feEmits (mix (h - 1) 0 0) (mix 1 0 0) = true /\ feEmits (mix 1 0 0) (mix (h - 1) 0 0) = true /\ feEmits (mix 1 0 0) (mix 1 0 0) = false.
Proof.
  intros H. split; [|split; [|split; [|split]]].
  - unfold feBinding. cbn. f_equal. unfold Rmin, Rmax. repeat destruct Rle_dec; lra.
  - unfold feBinding. rewrite !simplex_mix. cbn [andb].
    assert (E : onGas (mix h 0 0) = true /\ onGas (mix (h - 1) 0 0) = true /\ onInt (mix (h - 1) 0 0) = false) by (axes; auto).
    destruct E as (-> & -> & ->). change (onInt (mix 1 0 0)) with false. cbn [orb mix rG ib].
    replace (h =? 2)%Z with false by (symmetry; apply Z.eqb_neq; lia). f_equal. unfold Rmin, Rmax. repeat destruct Rle_dec; lra.
  - unfold feEmits. change (onGas (mix 1 0 0)) with true. cbn [mix rG rV rI ib]. rewrite Z.eqb_refl. cbn [andb orb]. rewrite orb_true_r.
    replace (h - 1 =? 1)%Z with false by (symmetry; apply Z.eqb_neq; lia). rewrite andb_false_r. reflexivity.
  - unfold feEmits. change (onGas (mix 1 0 0)) with true. cbn [mix rG rV rI ib]. rewrite Z.eqb_refl. cbn [andb orb].
    replace (h - 1 =? 1)%Z with false by (symmetry; apply Z.eqb_neq; lia). rewrite andb_false_r. reflexivity.
  - reflexivity.
Qed.
Print Assumptions c63_fe_pair_refuted.
(** Which pairs a cluster of the general case may fall apart into: one of the two is a single helium atom, vacancy or
    interstitial, but not both helium atoms. *)
Definition lone (r : reg3) : Prop :=
  (ib (rG r) = 1 /\ ib (rV r) = 0 /\ ib (rI r) = 0 \/ ib (rG r) = 0 /\ ib (rV r) = 1 /\ ib (rI r) = 0 \/ ib (rG r) = 0 /\ ib (rV r) = 0 /\ ib (rI r) = 1)%Z.
Definition lone_he (r : reg3) : Prop := (ib (rG r) = 1 /\ ib (rV r) = 0 /\ ib (rI r) = 0)%Z.
Theorem c63_fe_emits r1 r2 : (feEmits r1 r2 = true <-> (lone r1 \/ lone r2) /\ ~ (lone_he r1 /\ lone_he r2)).
Proof.
  assert (S : forall r, (onGas r && (ib (rG r) =? 1) || onVac r && (ib (rV r) =? 1) || onInt r && (ib (rI r) =? 1))%Z%bool = true <-> lone r).
  { intros r. unfold lone, onGas, onVac, onInt, on3. rewrite !orb_true_iff, !andb_true_iff, ?negb_true_iff, ?Z.ltb_lt, ?Z.eqb_eq, ?Z.eqb_neq. lia. }
  assert (H : forall r, onGas r = true /\ (ib (rG r) =? 1)%Z = true <-> lone_he r).
  { intros r. unfold lone_he, onGas, on3. rewrite !andb_true_iff, ?negb_true_iff, ?Z.ltb_lt, ?Z.eqb_eq, ?Z.eqb_neq. lia. }
  unfold feEmits. rewrite andb_true_iff, orb_true_iff, !S, negb_true_iff, <- not_true_iff_false, !andb_true_iff, <- !H. tauto.
Qed.
Example c63_fe_emits_ok : feEmits (mix 3 2 0) (mix 0 1 0) = true /\ feEmits (mix 3 2 0) (mix 0 2 0) = false /\ feEmits (mix 0 4 0) (mix 0 0 1) = true.
Proof. repeat split. Qed.
Print Assumptions c63_fe_emits.
(** Pure vacancy clusters: the binding grows with the size and stays below 1.73. *)
Theorem c63_fe_vacancy v w p1 p2 : (2 <= v)%Z -> (v <= w)%Z -> single p1 -> single p2 ->
  exists e e', feBinding (mix 0 v 0) p1 p2 = Some e /\ feBinding (mix 0 w 0) p1 p2 = Some e' /\ e = 1.73 - unit_cost 2.59 (2 / 3) (IZR v) /\ 0.2 < e <= e' /\ e' < 1.73.
Proof.
  intros Hv Hw S1 S2. apply single_iff in S1, S2.
  assert (T1 : Rpower 1 (2 / 3) = 1) by (unfold Rpower; rewrite ln_1, Rmult_0_r; apply exp_0).
  assert (T2 : Rpower 2 (2 / 3) < 1.588) by (apply (@power_below _ _ _ 1588 1000 2 1 2 3); num).
  assert (M : forall k, (2 <= k)%Z -> 0.2 < 1.73 - unit_cost 2.59 (2 / 3) (IZR k) < 1.73).
  { intros k Hk. apply IZR_le in Hk. assert (P := @power_step (2 / 3) 2 _ ltac:(lra) ltac:(lra) Hk). assert (Q := @power_step_pos (2 / 3) (IZR k) ltac:(lra) ltac:(lra)).
    replace (2 - 1) with 1 in P by lra. rewrite T1 in P. unfold unit_cost. lra. }
  assert (B : forall k, (2 <= k)%Z -> feBinding (mix 0 k 0) p1 p2 = Some (1.73 - unit_cost 2.59 (2 / 3) (IZR k))).
  { intros k Hk. specialize (M k Hk). unfold feBinding. rewrite simplex_mix, S1, S2. cbn [andb].
    assert (E : onGas (mix 0 k 0) = false /\ onVac (mix 0 k 0) = true) by (axes; auto). destruct E as (-> & ->). cbn [mix rV ib].
    apply IZR_le in Hk. rewrite feStep_spow by lra. rewrite !spow_Rpower by lra. unfold unit_cost in *. f_equal. unfold Rmin, Rmax. repeat destruct Rle_dec; lra. }
  do 2 eexists. split; [apply B; exact Hv|]. split; [apply B; lia|]. split; [reflexivity|].
  assert (A := M v Hv). assert (C := M w ltac:(lia)). apply IZR_le in Hv. apply IZR_le in Hw.
  assert (P := @power_step (2 / 3) (IZR v) (IZR w) ltac:(lra) ltac:(lra) Hw). unfold unit_cost in *. lra.
Qed.
Print Assumptions c63_fe_vacancy.
Example c63_fe_vacancy_example : exists e, feBinding (mix 0 4 0) (mix 0 3 0) (mix 0 1 0) = Some e /\ 0.2 < e < 1.73.
Proof.
  destruct (@c63_fe_vacancy 4 4 (mix 0 3 0) (mix 0 1 0) ltac:(lia) ltac:(lia) (single_mix _ _ _) (single_mix _ _ _)) as (e & e' & A & B & _ & C & D).
  exists e. split; [exact A|lra].
Qed.

(** *** NE: Xe, V and I *)
(** The energy of a bubble of [xe] atoms in [v] vacancies: [v] times a polynomial of the ratio *)
Definition bubble (xe v : R) : R := let x := xe / v in
  v * (-1.03326651166341 * x ^ 2 + 3.37190513184659 * x ^ 3 + -7.09118822290571 * x ^ 4 + 9.18869701523602 * x ^ 5 +
       -5.85771773178376 * x ^ 6 + 1.9501944029492 * x ^ 7 + -0.328234592987279 * x ^ 8 + 0.022098470861651 * x ^ 9).
Definition clampN (x : R) : R := Rmin 5 (Rmax (-1) x).
Lemma clampN_model x : Rmin 5.0 (Rmax x (-1.0)) = clampN x.
Proof. unfold clampN, Rmin, Rmax. repeat destruct Rle_dec; lra. Qed.

Section Polynomial.
Variables a0 a1 a2 a3 a4 a5 a6 a7 : R.
Let g x := a0 * x ^ 2 + a1 * x ^ 3 + a2 * x ^ 4 + a3 * x ^ 5 + a4 * x ^ 6 + a5 * x ^ 7 + a6 * x ^ 8 + a7 * x ^ 9.
Let dg x := 2 * a0 * x + 3 * a1 * x ^ 2 + 4 * a2 * x ^ 3 + 5 * a3 * x ^ 4 + 6 * a4 * x ^ 5 + 7 * a5 * x ^ 6 + 8 * a6 * x ^ 7 + 9 * a7 * x ^ 8.
Let l := [a7; a6; a5; a4; a3; a2; a1; a0].
Lemma neSum_poly x : fst (fold_left (fun '(be, p) i => (be + INR (i + 1) * nth (7 - i) l 0 * p, p * x)) (seq 0 8) (0, x * x)) = x * dg x - g x.
Proof. unfold l, g, dg. cbn [seq fold_left fst Nat.add Nat.sub nth INR]. ring. Qed.
Lemma neMinus_poly x : fst (fold_left (fun '(be, p) i => (be - INR (i + 1) * nth (7 - i) l 0 * p, p * x)) (seq 0 8) (0, x * x)) = g x - x * dg x.
Proof. unfold l, g, dg. cbn [seq fold_left fst Nat.add Nat.sub nth INR]. ring. Qed.
Lemma neMinus2_poly x : fst (fold_left (fun '(be, p) i => (be - INR (i + 2) * nth (7 - i) l 0 * p, p * x)) (seq 0 8) (0, x)) = - dg x.
Proof. unfold l, g, dg. cbn [seq fold_left fst Nat.add Nat.sub nth INR]. ring. Qed.
Lemma term_lim a n x : derivable_pt_lim (fun y => a * y ^ S n) x (INR (S n) * a * x ^ n).
Proof.
  replace (INR (S n) * a * x ^ n) with (a * (INR (S n) * x ^ pred (S n))) by (cbn [pred]; ring).
  apply (derivable_pt_lim_scal (fun y => y ^ S n)). apply derivable_pt_lim_pow.
Qed.
Lemma poly_lim x : derivable_pt_lim g x (dg x).
Proof.
  unfold g, dg.
  replace (2 * a0 * x) with (INR 2 * a0 * x ^ 1) by (cbn [INR]; ring).
  replace 3 with (INR 3) at 1 by (cbn [INR]; ring). replace 4 with (INR 4) at 1 by (cbn [INR]; ring). replace 5 with (INR 5) at 1 by (cbn [INR]; ring).
  replace 6 with (INR 6) at 1 by (cbn [INR]; ring). replace 7 with (INR 7) at 1 by (cbn [INR]; ring). replace 8 with (INR 8) at 1 by (cbn [INR]; ring).
  replace 9 with (INR 9) at 1 by (cbn [INR]; ring).
  repeat (apply (derivable_pt_lim_plus (fun y => _) (fun y => _)); [|apply term_lim]). apply term_lim.
Qed.
Lemma bubble_xe xe v : 0 < v -> derivable_pt_lim (fun y => v * g (y / v)) xe (dg (xe / v)).
Proof.
  intros Hv. replace (dg (xe / v)) with (v * (dg (xe / v) * (1 * / v))) by (field; lra).
  apply (derivable_pt_lim_scal (fun y => g (y / v))).
  apply (derivable_pt_lim_comp (fun y => y / v) g); [|apply poly_lim].
  assert (D := derivable_pt_lim_scal id (/ v) xe 1 (derivable_pt_lim_id xe)). rewrite Rmult_comm.
  intros e He. destruct (D e He) as [d Hd]. exists d. intros h H0 H1. specialize (Hd h H0 H1). unfold mult_real_fct, id in Hd.
  unfold Rdiv at 2 3. rewrite !(Rmult_comm _ (/ v)). exact Hd.
Qed.
Lemma bubble_v xe v : 0 < v -> derivable_pt_lim (fun y => y * g (xe / y)) v (g (xe / v) - xe / v * dg (xe / v)).
Proof.
  intros Hv.
  assert (D : derivable_pt_lim (fun y => xe / y) v (- xe / v²)).
  { assert (N : id v <> 0) by (unfold id; lra).
    assert (E := derivable_pt_lim_div (fct_cte xe) id v 0 1 (derivable_pt_lim_const xe v) (derivable_pt_lim_id v) N).
    unfold fct_cte, id, div_fct in E. replace (- xe / v²) with ((0 * v - 1 * xe) / v²) by (unfold Rsqr; field; lra). exact E. }
  assert (C := derivable_pt_lim_comp (fun y => xe / y) g v _ _ D (poly_lim (xe / v))).
  assert (M := derivable_pt_lim_mult id _ v _ _ (derivable_pt_lim_id v) C).
  replace (g (xe / v) - xe / v * dg (xe / v)) with (1 * Ranalysis1.comp g (fun y => xe / y) v + id v * (dg (xe / v) * (- xe / v²))); [exact M|].
  unfold Ranalysis1.comp, id, Rsqr. field. lra.
Qed.
End Polynomial.

(** The energies are the formation energies of the products minus the change of the bubble's energy. *)
Theorem c63_ne iF vF v2F xeF cl p1 p2 dXe dV : 0 < size (rV cl) ->
  derivable_pt_lim (fun y => bubble y (size (rV cl))) (size (rG cl)) dXe ->
  derivable_pt_lim (fun y => bubble (size (rG cl)) y) (size (rV cl)) dV ->
  let none P := ~ P p1 /\ ~ P p2 in
  let some P := P p1 \/ P p2 in
  let two r := vac_only r /\ ib (rV r) = 2%Z in
  let be := neBinding iF vF v2F xeF cl p1 p2 in
  (some gas_only -> be = clampN (xeF - dXe)) /\
  (none gas_only -> some int_only -> be = clampN (iF + dV)) /\
  (none gas_only -> none int_only -> some vac_only -> none two -> be = clampN (vF - dV)) /\
  (none gas_only -> none int_only -> some two -> be = clampN (v2F - 2 * dV)) /\
  (none gas_only -> none int_only -> none vac_only -> be = 5).
Proof.
  intros Hv DX DV none some two be. subst none some two.
  assert (EX := uniqueness_limite _ _ _ _ DX (bubble_xe (-1.03326651166341) 3.37190513184659 (-7.09118822290571) 9.18869701523602
    (-5.85771773178376) 1.9501944029492 (-0.328234592987279) 0.022098470861651 (size (rG cl)) Hv)).
  assert (EV := uniqueness_limite _ _ _ _ DV (bubble_v (-1.03326651166341) 3.37190513184659 (-7.09118822290571) 9.18869701523602
    (-5.85771773178376) 1.9501944029492 (-0.328234592987279) 0.022098470861651 (size (rG cl)) Hv)).
  clear DX DV. subst be. unfold neBinding. rewrite !size_mean. destruct Req_EM_T as [Z|_]; [lra|].
  set (x := size (rG cl) / size (rV cl)) in *.
  assert (A := neSum_poly (-1.03326651166341) 3.37190513184659 (-7.09118822290571) 9.18869701523602
    (-5.85771773178376) 1.9501944029492 (-0.328234592987279) 0.022098470861651 x).
  assert (B := neMinus_poly (-1.03326651166341) 3.37190513184659 (-7.09118822290571) 9.18869701523602
    (-5.85771773178376) 1.9501944029492 (-0.328234592987279) 0.022098470861651 x).
  assert (C := neMinus2_poly (-1.03326651166341) 3.37190513184659 (-7.09118822290571) 9.18869701523602
    (-5.85771773178376) 1.9501944029492 (-0.328234592987279) 0.022098470861651 x).
  fold fitParams in A, B, C. fold (neSum 1 x (x * x)) in A. fold (neMinus 1 x (x * x)) in B. fold (neMinus 2 x x) in C.
  rewrite A, B, C, clampN_model. clear A B C.
  match type of EX with _ = ?t => set (dg := t) in * end.
  match type of EV with _ = ?t - _ => set (g := t) in * end.
  assert (T : forall r, onVac r && (ib (rV r) =? 2)%Z = true <-> vac_only r /\ ib (rV r) = 2%Z) by (intros r; rewrite andb_true_iff, vac_iff, Z.eqb_eq; tauto).
  repeat split.
  - intros G. rewrite (@either_true _ _ _ _ gas_iff G). f_equal. lra.
  - intros [G1 G2] I. rewrite (@either_false _ _ _ _ gas_iff G1 G2), (@either_true _ _ _ _ int_iff I). f_equal. lra.
  - intros [G1 G2] [I1 I2] V [T1 T2]. rewrite (@either_false _ _ _ _ gas_iff G1 G2), (@either_false _ _ _ _ int_iff I1 I2), (@either_true _ _ _ _ vac_iff V).
    rewrite (@either_false _ _ _ _ T T1 T2). f_equal. lra.
  - intros [G1 G2] [I1 I2] V. rewrite (@either_false _ _ _ _ gas_iff G1 G2), (@either_false _ _ _ _ int_iff I1 I2).
    rewrite (@either_true _ _ _ _ vac_iff) by (destruct V as [[]|[]]; tauto).
    rewrite (@either_true _ _ _ _ T V). f_equal. lra.
  - intros [G1 G2] [I1 I2] [V1 V2]. rewrite (@either_false _ _ _ _ gas_iff G1 G2), (@either_false _ _ _ _ int_iff I1 I2), (@either_false _ _ _ _ vac_iff V1 V2).
    unfold clampN, Rmin, Rmax. repeat destruct Rle_dec; lra.
Qed.
Print Assumptions c63_ne.
(** The derivatives exist everywhere. *)
Example c63_ne_example xe v : 0 < v -> exists dXe dV, derivable_pt_lim (fun y => bubble y v) xe dXe /\ derivable_pt_lim (fun y => bubble xe y) v dV.
Proof. intros H. do 2 eexists. split; [apply bubble_xe | apply bubble_v]; exact H. Qed.
(** The energy of a vacancy pair does not enter its own dissociation, nor the energy of a vacancy that of the smallest bubble,
    and a reactant without vacancies gets 5. *)
Theorem c63_ne_small_refuted iF vF v2F xeF :
  neBinding iF vF v2F xeF (mix 0 2 0) (mix 0 1 0) (mix 0 1 0) = clampN vF /\
  (forall vF', neBinding iF vF v2F xeF (mix 1 1 0) (mix 1 0 0) (mix 0 1 0) = neBinding iF vF' v2F xeF (mix 1 1 0) (mix 1 0 0) (mix 0 1 0)) /\
  (forall cl p1 p2, size (rV cl) = 0 -> neBinding iF vF v2F xeF cl p1 p2 = 5).
Proof.
  split; [|split].
  - unfold neBinding. rewrite !size_mean. change (onGas (mix 0 1 0)) with false. change (onInt (mix 0 1 0)) with false. change (onVac (mix 0 1 0)) with true.
    change (ib (rV (mix 0 1 0)) =? 2)%Z with false. cbn [orb andb].
    assert (E : size (rV (mix 0 2 0)) = 2 /\ size (rG (mix 0 2 0)) = 0) by (unfold size; cbn; lra). destruct E as [-> ->].
    destruct Req_EM_T; [lra|]. rewrite clampN_model. f_equal. replace (0 / 2) with 0 by lra.
    unfold neSum. cbn [seq fold_left fst]. rewrite !Rmult_0_l, !Rmult_0_r. lra.
  - intros vF'. unfold neBinding. change (onGas (mix 1 0 0)) with true. cbn [orb]. reflexivity.
  - intros cl p1 p2 H. unfold neBinding. rewrite !size_mean. destruct Req_EM_T; lra.
Qed.
Print Assumptions c63_ne_small_refuted.

(** *** All four networks keep the energy within fixed bounds. *)
Theorem c63_range iF vF v2F xeF t (l p q : list iv) (g p1 p2 : reg3) :
  0.1 <= alloyBinding l p q <= 5 /\ 0.1 <= zrBinding t l p q /\ -1 <= neBinding iF vF v2F xeF g p1 p2 <= 5 /\
  (forall e, feBinding g p1 p2 = Some e -> -5 <= e <= 5).
Proof.
  assert (C : forall lo x, lo <= 5 -> lo <= Rmin 5.0 (Rmax x lo) <= 5) by (intros; unfold Rmin, Rmax; repeat destruct Rle_dec; lra).
  split; [|split; [|split]].
  - apply C. lra.
  - unfold zrBinding. apply Rmax_l.
  - unfold neBinding. destruct Req_EM_T; [lra|]. replace (-1) with (-1.0) by lra. apply C. lra.
  - intros e. unfold feBinding. match goal with |- match ?o with _ => _ end = _ -> _ => destruct o end; [|discriminate].
    intros E. injection E as <-. replace (-5) with (-5.0) by lra. apply C. lra.
Qed.
Print Assumptions c63_range.
Example c63_range_example : exists e, feBinding (mix 0 4 0) (mix 0 3 0) (mix 0 1 0) = Some e.
Proof. destruct c63_fe_vacancy_example as (e & E & _). eauto. Qed.
(** Without the unit that leaves among the products, or for another reactant, the energy is 5. *)
Theorem c63_other k i m : (0 < ib i < ie i)%Z -> (0 < m)%Z ->
  ((0 < k < 6)%nat -> alloyBinding (six k i) (six k (Iv m (m + 1))) (six k (Iv m (m + 1))) = 5) /\
  (forall t j, (k < 3)%nat -> (j < 3)%nat -> j <> k -> zrBinding t (three k i) (three j (Iv m (m + 1))) (three j (Iv m (m + 1))) = 5).
Proof.
  intros Hi Hm. destruct i as [a b]. cbn [ib ie] in Hi. split.
  - intros Hk. unfold alloyBinding. rewrite !on_six by lia.
    do 6 (destruct k as [|k]; [cbn [Nat.eqb orb]; try lia; unfold Rmin, Rmax; repeat destruct Rle_dec; lra|]). lia.
  - intros t j Hk Hj N. unfold zrBinding.
    assert (A : (a =? 0)%Z = false) by (apply Z.eqb_neq; lia). assert (M : (m =? 0)%Z = false) by (apply Z.eqb_neq; lia).
    do 3 (destruct k as [|k]; [do 3 (destruct j as [|j]; [try lia; unfold zrOnV, zrOnB, zrOnI, three, axis; cbn [map Nat.eqb nth ib]; unfold on3; rewrite ?A, ?M; cbn [negb andb orb Z.eqb]; unfold Rmax; destruct Rle_dec; lra|]); lia|]). lia.
Qed.
Print Assumptions c63_other.
Example c63_other_example : alloyBinding (six 4 (Iv 10 11)) (six 4 (Iv 9 10)) (six 4 (Iv 9 10)) = 5 /\
  zrBinding 91 (three 0 (Iv 10 11)) (three 2 (Iv 1 2)) (three 2 (Iv 1 2)) = 5.
Proof.
  split; [apply (@c63_other 4 (Iv 10 11) 9); cbn; lia | apply (@c63_other 0 (Iv 10 11) 1); cbn; lia].
Qed.
