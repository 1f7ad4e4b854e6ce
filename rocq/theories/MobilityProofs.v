(** Lemmas on means over a size range, cube roots and Arrhenius laws. *)
From Verif Require Import MobilityModel.
Open Scope R_scope.

Lemma zlen b e : (b < e)%Z -> INR (length (zlist b (e - 1))) = IZR (e - b).
Proof. intros H. rewrite zlist_length, INR_IZR_INZ. f_equal. lia. Qed.
Lemma mean_bounds f b e x y : (b < e)%Z -> (forall j, (b <= j < e)%Z -> x <= f j <= y) -> x <= mean f b e <= y.
Proof.
  intros H Hf. assert (L : 0 < IZR (e - b)) by (apply IZR_lt; lia). unfold mean.
  assert (H1 : INR (length (zlist b (e - 1))) * x <= Rsum (zlist b (e - 1)) f).
  { rewrite <- Rsum_const. apply Rsum_le. intros j Hj. apply zlist_In in Hj. apply Hf. lia. }
  assert (H2 : Rsum (zlist b (e - 1)) f <= INR (length (zlist b (e - 1))) * y).
  { rewrite <- Rsum_const. apply Rsum_le. intros j Hj. apply zlist_In in Hj. apply Hf. lia. }
  rewrite zlen in H1, H2 by exact H. split.
  - apply Rmult_le_reg_r with (IZR (e - b)); [exact L|]. unfold Rdiv. rewrite Rmult_assoc, Rinv_l by lra. lra.
  - apply Rmult_le_reg_r with (IZR (e - b)); [exact L|]. unfold Rdiv. rewrite Rmult_assoc, Rinv_l by lra. lra.
Qed.
Lemma mean_one f b : mean f b (b + 1) = f b.
Proof.
  destruct (@mean_bounds f b (b + 1) (f b) (f b)) as [H1 H2]; [lia| |lra]. intros j Hj. replace j with b by lia. lra.
Qed.
Lemma mean_ext f g b e : (forall j, (b <= j < e)%Z -> f j = g j) -> mean f b e = mean g b e.
Proof. intros H. unfold mean. f_equal. apply Rsum_ext. intros j Hj. apply zlist_In in Hj. apply H. lia. Qed.

Lemma root3_pos x : 0 < x -> 0 < root3 x.
Proof. intros H. unfold root3. destruct (Rlt_dec 0 x); [|lra]. unfold Rpower. apply exp_pos. Qed.
Lemma root3_lt x y : 0 <= x -> x < y -> root3 x < root3 y.
Proof.
  intros Hx Hy. destruct (Rle_lt_or_eq_dec 0 x Hx) as [H|<-].
  - unfold root3. destruct (Rlt_dec 0 x), (Rlt_dec 0 y); try lra. apply Rlt_Rpower_l; lra.
  - unfold root3 at 1. destruct (Rlt_dec 0 0); [lra|]. apply root3_pos. exact Hy.
Qed.
Lemma root3_le x y : 0 <= x -> x <= y -> root3 x <= root3 y.
Proof. intros Hx [H|<-]; [left; apply root3_lt; auto|lra]. Qed.
Lemma root3_cube x : 0 <= x -> root3 x ^ 3 = x.
Proof.
  intros Hx. unfold root3. destruct (Rlt_dec 0 x) as [H|H]; [|cbn; lra].
  rewrite <- Rpower_pow by (unfold Rpower; apply exp_pos). rewrite Rpower_mult.
  replace (1 / 3 * INR 3) with 1 by (cbn [INR]; lra). apply Rpower_1. exact H.
Qed.
Lemma root3_1 : root3 1 = 1. Proof. unfold root3. destruct (Rlt_dec 0 1); [|lra]. unfold Rpower. rewrite ln_1, Rmult_0_r. apply exp_0. Qed.

Lemma kB_pos : 0 < kB. Proof. unfold kB. lra. Qed.
Lemma boltzmann_pos e T : 0 < boltzmann (Fin e) T. Proof. apply exp_pos. Qed.
Lemma boltzmann_lt e T T' : 0 < e -> 0 < T < T' -> boltzmann (Fin e) T < boltzmann (Fin e) T'.
Proof.
  intros He [H1 H2]. cbn [boltzmann]. apply exp_increasing. pose proof kB_pos as HK. unfold Rdiv.
  rewrite !Ropp_mult_distr_l_reverse. apply Ropp_lt_contravar. apply Rmult_lt_compat_l; [exact He|].
  apply Rinv_lt_contravar; [apply Rmult_lt_0_compat; apply Rmult_lt_0_compat; lra|]. apply Rmult_lt_compat_l; lra.
Qed.
Lemma updated_large f d : / 4503599627370496 <= f -> updated f d = d.
Proof. intros H. unfold updated. rewrite Rabs_left1 by lra. destruct (Rlt_dec (- (0 - f)) (/ 4503599627370496)); [lra|reflexivity]. Qed.
Lemma updated_zero d : updated 0 d = 0.
Proof. unfold updated. rewrite Rminus_0_r, Rabs_R0. destruct (Rlt_dec 0 (/ 4503599627370496)) as [|H]; [reflexivity|]. exfalso. apply H. lra. Qed.
