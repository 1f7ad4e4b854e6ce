From Coq Require Import Reals Lra Lia List ZArith Bool.
From Verif Require Import BindingModel MobilityProofs.
Set Implicit Arguments.
Open Scope R_scope.

(** Steps of a concave function *)
Lemma step_le (f g : R -> R) (a x y : R) :
  (forall z, a < z -> derivable_pt_lim f z (g z)) ->
  (forall u w, a < u -> u <= w -> g w <= g u) ->
  a + 1 < x -> x <= y -> f y - f (y - 1) <= f x - f (x - 1).
Proof.
  intros Hd Hg Hx [Hxy| ->]; [|lra].
  assert (D : forall c, x <= c <= y -> derivable_pt_lim (fun z => f z - f (z - 1)) c (g c - g (c - 1))).
  { intros c Hc. apply derivable_pt_lim_minus; [apply Hd; lra|].
    replace (g (c - 1)) with (g (c - 1) * 1) by ring.
    apply (derivable_pt_lim_comp (fun z => z - 1) f); [|apply Hd; lra].
    intros eps He. exists (mkposreal 1 Rlt_0_1). intros h Hh _.
    replace ((c + h - 1 - (c - 1)) / h - 1) with 0 by (field; exact Hh). rewrite Rabs_R0. exact He. }
  destruct (MVT_cor2 _ _ x y Hxy D) as (c & E & Hc).
  assert (G : g c <= g (c - 1)) by (apply Hg; lra). nra.
Qed.
Lemma step_bounds (f g : R -> R) (a x : R) :
  (forall z, a < z -> derivable_pt_lim f z (g z)) ->
  (forall u w, a < u -> u <= w -> g w <= g u) ->
  a + 1 < x -> g x <= f x - f (x - 1) <= g (x - 1).
Proof.
  intros Hd Hg Hx.
  assert (D : forall c, x - 1 <= c <= x -> derivable_pt_lim f c (g c)) by (intros; apply Hd; lra).
  destruct (@MVT_cor2 f g (x - 1) x ltac:(lra) D) as (c & E & Hc).
  rewrite E. replace (x - (x - 1)) with 1 by ring. rewrite Rmult_1_r. split; apply Hg; lra.
Qed.

(** Powers *)
Lemma Rpower_pos x p : 0 < Rpower x p. Proof. apply exp_pos. Qed.
Lemma Rpower_neg_le u w p : p <= 0 -> 0 < u -> u <= w -> Rpower w p <= Rpower u p.
Proof.
  intros Hp Hu [H| ->]; [|lra]. unfold Rpower.
  assert (ln u < ln w) by (apply ln_increasing; lra).
  destruct (Rle_lt_dec (u * 0) 0).
  - assert (p * ln w <= p * ln u) by nra. destruct H1 as [H1| ->]; [left; apply exp_increasing; exact H1|lra].
  - lra.
Qed.
Lemma power_step p x y : 0 < p < 1 -> 1 < x -> x <= y ->
  Rpower y p - Rpower (y - 1) p <= Rpower x p - Rpower (x - 1) p.
Proof.
  intros Hp Hx Hy. apply (@step_le (fun z => Rpower z p) (fun z => p * Rpower z (p - 1)) 0); try lra.
  - intros z Hz. apply derivable_pt_lim_power. exact Hz.
  - intros u w Hu Hw. apply Rmult_le_compat_l; [lra|]. apply Rpower_neg_le; lra.
Qed.
Lemma power_step_pos p x : 0 < p -> 1 < x -> 0 < Rpower x p - Rpower (x - 1) p.
Proof.
  intros Hp Hx. assert (Rpower (x - 1) p < Rpower x p); [|lra].
  apply exp_increasing, Rmult_lt_compat_l; [exact Hp|]. apply ln_increasing; lra.
Qed.
Lemma Rpower_nat x (m k : nat) : 0 < x -> (0 < k)%nat -> Rpower x (INR m / INR k) ^ k = x ^ m.
Proof.
  intros Hx Hk. rewrite <- Rpower_pow by apply Rpower_pos. rewrite Rpower_mult.
  assert (INR k <> 0) by (apply not_0_INR; lia).
  replace (INR m / INR k * INR k) with (INR m) by (field; exact H). apply Rpower_pow. exact Hx.
Qed.
Lemma pow_lt_inv y z (k : nat) : 0 < y -> 0 < z -> y ^ k < z ^ k -> y < z.
Proof.
  intros Hy Hz H. destruct (Rlt_le_dec y z) as [L|L]; [exact L|].
  exfalso. assert (z ^ k <= y ^ k) by (apply pow_incr; lra). lra.
Qed.
Lemma Rpower_above y x p (m k : nat) : p = INR m / INR k -> (0 < k)%nat -> 0 < x -> 0 < y -> y ^ k < x ^ m -> y < Rpower x p.
Proof. intros -> Hk Hx Hy H. apply (@pow_lt_inv y _ k Hy (Rpower_pos _ _)). rewrite Rpower_nat by assumption. exact H. Qed.
Lemma Rpower_below y x p (m k : nat) : p = INR m / INR k -> (0 < k)%nat -> 0 < x -> 0 < y -> x ^ m < y ^ k -> Rpower x p < y.
Proof. intros -> Hk Hx Hy H. apply (@pow_lt_inv _ y k (Rpower_pos _ _) Hy). rewrite Rpower_nat by assumption. exact H. Qed.
Lemma frac_pow a b (k : nat) : (IZR a / IZR b) ^ k = IZR (a ^ Z.of_nat k) / IZR (b ^ Z.of_nat k).
Proof. unfold Rdiv. rewrite Rpow_mult_distr, pow_inv, !pow_IZR. reflexivity. Qed.
Lemma frac_lt a b c d (k m : nat) : (0 < b)%Z -> (0 < d)%Z -> (a ^ Z.of_nat k * d ^ Z.of_nat m < c ^ Z.of_nat m * b ^ Z.of_nat k)%Z ->
  (IZR a / IZR b) ^ k < (IZR c / IZR d) ^ m.
Proof.
  intros Hb Hd H. rewrite !frac_pow.
  assert (B : 0 < IZR (b ^ Z.of_nat k)) by (apply IZR_lt; apply Z.pow_pos_nonneg; lia).
  assert (D : 0 < IZR (d ^ Z.of_nat m)) by (apply IZR_lt; apply Z.pow_pos_nonneg; lia).
  apply IZR_lt in H. rewrite !mult_IZR in H.
  apply (Rmult_lt_reg_r (IZR (b ^ Z.of_nat k) * IZR (d ^ Z.of_nat m))); [nra|].
  field_simplify; lra.
Qed.

(** Logarithms *)
Lemma ln_ge x : 0 < x -> 1 - / x <= ln x.
Proof.
  intros Hx. assert (H := exp_ineq1_le (- ln x)). rewrite exp_Ropp, exp_ln in H by exact Hx. lra.
Qed.
Lemma ln_le_sub x : 0 < x -> ln x <= x - 1.
Proof. intros Hx. assert (H := exp_ineq1_le (ln x)). rewrite exp_ln in H by exact Hx. lra. Qed.
Lemma exp_nat (n : nat) : exp (INR n) = exp 1 ^ n.
Proof. rewrite <- Rpower_pow by apply exp_pos. unfold Rpower. rewrite ln_exp, Rmult_1_r. reflexivity. Qed.
Lemma ln_above x (n : nat) : 3 ^ n <= x -> INR n <= ln x.
Proof.
  intros H. assert (P : 0 < 3 ^ n) by (apply pow_lt; lra).
  rewrite <- (ln_exp (INR n)). destruct (Rle_lt_dec (exp (INR n)) x) as [L|L].
  - destruct L as [L|L]; [left; apply ln_increasing; [apply exp_pos|exact L]|rewrite L; lra].
  - exfalso. rewrite exp_nat in L. assert (exp 1 ^ n <= 3 ^ n) by (apply pow_incr; split; [left; apply exp_pos|apply exp_le_3]). lra.
Qed.
Lemma ln_below x (n : nat) : 0 < x -> x <= 2 ^ n -> ln x <= INR n.
Proof.
  intros P H. rewrite <- (ln_exp (INR n)). assert (exp (INR n) >= 2 ^ n).
  { rewrite exp_nat. apply Rle_ge, pow_incr. assert (E := exp_ineq1_le 1). lra. }
  destruct (Rle_lt_or_eq_dec x (exp (INR n))) as [L|L]; [lra|left; apply ln_increasing; assumption|rewrite <- L; lra].
Qed.

(** sqrt n * ln (c * sqrt n) *)
Definition loopSlope (c z : R) : R := (ln (c * sqrt z) + 1) / (2 * sqrt z).
Lemma zrLoop_slope c z : 0 < c -> 0 < z -> derivable_pt_lim (fun n => sqrt n * ln (c * sqrt n)) z (loopSlope c z).
Proof.
  intros Hc Hz. assert (Q : 0 < sqrt z) by (apply sqrt_lt_R0; exact Hz).
  assert (Dq : derivable_pt_lim sqrt z (/ (2 * sqrt z))) by (apply derivable_pt_lim_sqrt; exact Hz).
  assert (Dc : derivable_pt_lim (fun n => c * sqrt n) z (c * / (2 * sqrt z))) by (apply (derivable_pt_lim_scal sqrt c); exact Dq).
  assert (Dl : derivable_pt_lim (fun n => ln (c * sqrt n)) z (/ (c * sqrt z) * (c * / (2 * sqrt z)))).
  { apply (derivable_pt_lim_comp (fun n => c * sqrt n) ln); [exact Dc|apply derivable_pt_lim_ln; nra]. }
  assert (M := derivable_pt_lim_mult sqrt (fun n => ln (c * sqrt n)) z _ _ Dq Dl).
  unfold loopSlope. replace ((ln (c * sqrt z) + 1) / (2 * sqrt z))
    with (/ (2 * sqrt z) * ln (c * sqrt z) + sqrt z * (/ (c * sqrt z) * (c * / (2 * sqrt z)))); [exact M|].
  field. split; lra.
Qed.
(** (ln t + 1) / t decreases for t >= 1 *)
Lemma slope_aux s t : 1 <= s -> s <= t -> (ln t + 1) / t <= (ln s + 1) / s.
Proof.
  intros Hs Ht. apply (Rmult_le_reg_r (t * s)); [nra|]. field_simplify; [|lra|lra].
  replace t with (s * (t / s)) at 1 by (field; lra).
  assert (Q : 1 <= t / s) by (apply (Rmult_le_reg_r s); [lra|]; field_simplify; lra).
  rewrite ln_mult by lra.
  assert (L := @ln_le_sub (t / s) ltac:(lra)).
  assert (0 <= ln s) by (rewrite <- ln_1; destruct Hs as [Hs| <-]; [left; apply ln_increasing; lra|lra]).
  assert (s * ln (t / s) <= t - s).
  { apply (Rmult_le_compat_l s) in L; [|lra]. replace (s * (t / s - 1)) with (t - s) in L by (field; lra). exact L. }
  nra.
Qed.
Lemma loopSlope_le c u w : 0 < c -> 1 <= c * c * u -> u <= w -> loopSlope c w <= loopSlope c u.
Proof.
  intros Hc Hu Hw. assert (0 < u) by (destruct (Rlt_le_dec 0 u); [assumption|nra]).
  assert (Qu : 0 < sqrt u) by (apply sqrt_lt_R0; lra). assert (Qw : 0 < sqrt w) by (apply sqrt_lt_R0; lra).
  assert (Qs : sqrt u <= sqrt w) by (apply sqrt_le_1; lra).
  assert (S1 : 1 <= c * sqrt u).
  { apply Rsqr_incr_0; [unfold Rsqr|lra|nra]. replace (c * sqrt u * (c * sqrt u)) with (c * c * (sqrt u * sqrt u)) by ring.
    rewrite sqrt_sqrt by lra. lra. }
  assert (A := @slope_aux (c * sqrt u) (c * sqrt w) S1 ltac:(nra)). unfold loopSlope.
  replace ((ln (c * sqrt w) + 1) / (2 * sqrt w)) with (c / 2 * ((ln (c * sqrt w) + 1) / (c * sqrt w))) by (field; split; lra).
  replace ((ln (c * sqrt u) + 1) / (2 * sqrt u)) with (c / 2 * ((ln (c * sqrt u) + 1) / (c * sqrt u))) by (field; split; lra).
  apply Rmult_le_compat_l; lra.
Qed.

Lemma exp_1_above : 2.7 <= exp 1.
Proof.
  replace 1 with (INR 128 * (1 / 128)) by (rewrite INR_IZR_INZ; change (Z.of_nat 128) with 128%Z; lra).
  assert (E : forall (n : nat) x, exp (INR n * x) = exp x ^ n).
  { intros n x. rewrite <- Rpower_pow by apply exp_pos. unfold Rpower. rewrite ln_exp. reflexivity. }
  rewrite E. apply Rle_trans with ((IZR 129 / IZR 128) ^ 128).
  - left. replace 2.7 with ((IZR 27 / IZR 10) ^ 1) by (cbn [pow]; lra). apply frac_lt; [lia|lia|]. apply Z.ltb_lt. vm_compute. reflexivity.
  - apply pow_incr. split; [lra|]. assert (X := exp_ineq1_le (1 / 128)). lra.
Qed.
