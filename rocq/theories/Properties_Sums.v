(** Properties C01-C04 and C44: interval sums, overlaps, reflected intervals,
    Legendre polynomials. Statements only; the proofs are in the topic files. *)
From Verif Require Import MathProofs RegionProofs CoefModel.
Open Scope R_scope.

(** * C01 *)
Theorem c01_first_order_sum : forall (a b : Z) (mean : R),
  firstOrderSum (IZR a) (IZR b) mean = Rsum (zlist a b) (fun n => IZR n - mean).
Proof. exact firstOrderSum_spec. Qed.
Print Assumptions c01_first_order_sum.

Theorem c01_second_order_sum : forall (a b : Z) (mean : R),
  secondOrderSum (IZR a) (IZR b) mean
  = Rsum (zlist a b) (fun n => (IZR n - mean) * (IZR n - mean)).
Proof. exact secondOrderSum_spec. Qed.
Print Assumptions c01_second_order_sum.

Theorem c01_second_order_offset_sum : forall (a b : Z) (m1 m2 off : R),
  secondOrderOffsetSum (IZR a) (IZR b) m1 m2 off
  = Rsum (zlist a b) (fun n => (IZR n - m1) * (IZR n + off - m2)).
Proof. exact secondOrderOffsetSum_spec. Qed.
Print Assumptions c01_second_order_offset_sum.

(** The range summed over is every integer between the bounds, once. *)
Theorem c01_range : forall a b x, (In x (zlist a b) <-> (a <= x <= b)%Z) /\ NoDup (zlist a b).
Proof. intros a b x. split; [apply zlist_In|apply zlist_NoDup]. Qed.
Print Assumptions c01_range.

Example c01_example : firstOrderSum 3 6 4 = 2 /\ secondOrderSum 3 6 4 = 6
  /\ secondOrderOffsetSum 3 6 4 5 2 = 8 /\ firstOrderSum 6 3 4 = 0.
Proof.
  unfold firstOrderSum, secondOrderSum, secondOrderOffsetSum.
  destruct (Rgt_dec 3 6); destruct (Rgt_dec 6 3); repeat split; lra.
Qed.

(** * C02 *)
Theorem c02_overlap_counts : forall cl1 cl2 pr1 pr2,
  overlapWidth cl1 cl2 pr1 pr2 = INR (length (balanced cl1 cl2 pr1 pr2)) /\
  NoDup (balanced cl1 cl2 pr1 pr2) /\
  forall n l s m, In (n, l, s, m) (balanced cl1 cl2 pr1 pr2) <->
    ((ib cl1 <= n < ie cl1) /\ (ib cl2 <= l < ie cl2) /\ (ib pr1 <= s < ie pr1) /\
     (ib pr2 <= m < ie pr2) /\ n + l = s + m)%Z.
Proof.
  intros. split; [apply overlapWidth_count|]. split; [apply balanced_NoDup|].
  intros. rewrite balanced_In, !pts_In. tauto.
Qed.
Print Assumptions c02_overlap_counts.

Theorem c02_overlap_positive : forall cl1 cl2 pr1 pr2,
  0 < overlapWidth cl1 cl2 pr1 pr2 <->
  exists n l s m, ((ib cl1 <= n < ie cl1) /\ (ib cl2 <= l < ie cl2) /\ (ib pr1 <= s < ie pr1) /\
     (ib pr2 <= m < ie pr2) /\ n + l = s + m)%Z.
Proof.
  intros. rewrite overlapWidth_pos. split; intros (n & l & s & m & H); exists n, l, s, m;
  rewrite !pts_In in *; exact H.
Qed.
Print Assumptions c02_overlap_positive.

(** X_[3,5) + X_[5,7) -> X_[9,11): the example of the code comment, width 3 with
    3+6, 4+5, 4+6. *)
Example c02_example : overlapWidth (Iv 3 5) (Iv 5 7) (Iv 9 11) (Iv 0 1) = 3
  /\ balanced (Iv 3 5) (Iv 5 7) (Iv 9 11) (Iv 0 1) = [(3, 6, 9, 0); (4, 5, 9, 0); (4, 6, 10, 0)]%Z.
Proof. rewrite overlapWidth_count. split; [|reflexivity].
  replace (length _) with 3%nat by reflexivity. simpl. lra. Qed.

(** Without any product the code takes 1 for the overlap. Two grouped clusters
    annihilating completely have several balanced pairs: the claim fails. *)
Theorem c02_no_product_overlap_refuted : exists r : preact,
  na r = 1%nat /\ v1 r = false /\ v2 r = false /\
  (* interstitials [1,3) and vacancies [1,3), reflected on the vacancy axis *)
  cl1 r 0 = reflectOne false (Iv 1 3) (Iv 0 1) /\ cl2 r 0 = reflectOne false (Iv 0 1) (Iv 1 3) /\
  q1 r 0 = reflectOne false (Iv 0 1) (Iv 0 1) /\ q2 r 0 = reflectOne false (Iv 0 1) (Iv 0 1) /\
  nOverlap r = 1 /\ length (balanced (cl1 r 0) (cl2 r 0) (q1 r 0) (q2 r 0)) = 2%nat.
Proof.
  exists (PR 1 (fun _ => reflectOne false (Iv 1 3) (Iv 0 1)) (fun _ => reflectOne false (Iv 0 1) (Iv 1 3))
     (fun _ => reflectOne false (Iv 0 1) (Iv 0 1)) (fun _ => reflectOne false (Iv 0 1) (Iv 0 1))
     (fun _ => 1) (fun _ => 1) (fun _ => 1) (fun _ => 1) false false true).
  repeat split.
Qed.
Print Assumptions c02_no_product_overlap_refuted.

(** * C03 *)
Theorem c03_reflected_interval : forall onI i v x,
  (ib i < ie i)%Z -> (ib v < ie v)%Z ->
  In x (pts (reflectOne onI i v)) <->
  exists a b, (ib i <= a < ie i)%Z /\ (ib v <= b < ie v)%Z /\ x = (if onI then a - b else b - a)%Z.
Proof.
  intros onI i v x Hi Hv. rewrite reflectOne_spec by assumption.
  split; intros (a & b & H); exists a, b; rewrite !pts_In in *; exact H.
Qed.
Print Assumptions c03_reflected_interval.

Theorem c03_reflected_size : forall onI i v, ilen (reflectOne onI i v) = (ilen i + ilen v - 1)%Z.
Proof. exact reflectOne_len. Qed.
Print Assumptions c03_reflected_size.

(** Two vacancy species (V and Basal). *)
Theorem c03_reflected_two : forall onI i v b x,
  (ib i < ie i)%Z -> (ib v < ie v)%Z -> (ib b < ie b)%Z ->
  In x (pts (reflectTwo onI i v b)) <->
  exists p q r, (ib i <= p < ie i)%Z /\ (ib v <= q < ie v)%Z /\ (ib b <= r < ie b)%Z /\
    x = (if onI then p - q - r else q + r - p)%Z.
Proof.
  intros onI i v b x Hi Hv Hb. destruct onI;
  [rewrite reflectTwo_I_spec by assumption|rewrite reflectTwo_V_spec by assumption];
  split; intros (p & q & r & H); exists p, q, r; rewrite !pts_In in *; exact H.
Qed.
Print Assumptions c03_reflected_two.

(** Six species of the alloy network. *)
Theorem c03_reflected_six : forall onI i p f v o a x,
  (ib i < ie i)%Z -> (ib p < ie p)%Z -> (ib f < ie f)%Z ->
  (ib v < ie v)%Z -> (ib o < ie o)%Z -> (ib a < ie a)%Z ->
  In x (pts (reflectSix onI i p f v o a)) <->
  exists xi xp xf xv xo xa,
    In xi (pts i) /\ In xp (pts p) /\ In xf (pts f) /\
    In xv (pts v) /\ In xo (pts o) /\ In xa (pts a) /\
    x = (if onI then xi + xp + xf - (xv + xo + xa) else xv + xo + xa - (xi + xp + xf))%Z.
Proof. exact reflectSix_spec. Qed.
Print Assumptions c03_reflected_six.

Example c03_example : pts (reflectOne false (Iv 1 3) (Iv 4 6)) = [2; 3; 4]%Z
  /\ pts (reflectOne true (Iv 4 6) (Iv 1 3)) = [2; 3; 4]%Z
  /\ pts (reflectTwo false (Iv 0 2) (Iv 3 4) (Iv 2 4)) = [4; 5; 6]%Z.
Proof. repeat split. Qed.

(** * C04 *)
Theorem c04_first_order : forall cl1 cl2 cl3 cl4,
  computeFirstOrderSum cl1 cl2 cl3 cl4
  = Rsum (balanced cl1 cl2 cl3 cl4) (fun '(n, _, _, _) => IZR n - imean cl1).
Proof. intros. rewrite computeFirstOrderSum_spec, msum_balanced. reflexivity. Qed.
Print Assumptions c04_first_order.

Theorem c04_second_order : forall cl1 cl2 cl3 cl4,
  computeSecondOrderSum cl1 cl2 cl3 cl4
  = Rsum (balanced cl1 cl2 cl3 cl4) (fun '(n, _, _, _) => (IZR n - imean cl1) * (IZR n - imean cl1)).
Proof. intros. rewrite computeSecondOrderSum_spec, msum_balanced. reflexivity. Qed.
Print Assumptions c04_second_order.

Theorem c04_second_order_offset : forall cl1 cl2 cl3 cl4,
  computeSecondOrderOffsetSum cl1 cl2 cl3 cl4
  = Rsum (balanced cl1 cl2 cl3 cl4) (fun '(n, _, s, _) => (IZR n - imean cl1) * (IZR s - imean cl3)).
Proof. intros. rewrite computeSecondOrderOffsetSum_spec, msum_balanced. reflexivity. Qed.
Print Assumptions c04_second_order_offset.

Theorem c04_third_order : forall cl1 cl2 cl3 cl4,
  computeThirdOrderSum cl1 cl2 cl3 cl4
  = Rsum (balanced cl1 cl2 cl3 cl4)
      (fun '(n, l, _, _) => (IZR l - imean cl2) * (IZR l - imean cl2) * (IZR n - imean cl1)).
Proof. intros. rewrite computeThirdOrderSum_spec, msum_balanced. reflexivity. Qed.
Print Assumptions c04_third_order.

Theorem c04_mixed_second_order : forall cl1 cl2 pr1 pr2,
  mixedSecondOrderSum cl1 cl2 pr1 pr2
  = Rsum (balanced cl1 cl2 pr1 pr2)
      (fun '(n, l, _, _) => (IZR n - imean cl1) * (IZR l - imean cl2)).
Proof. intros. rewrite mixedSecondOrderSum_spec, msum_balanced. reflexivity. Qed.
Print Assumptions c04_mixed_second_order.

Theorem c04_mixed_third_order : forall cl1 cl2 this other,
  mixedThirdOrderSum cl1 cl2 this other
  = Rsum (balanced cl1 cl2 this other)
      (fun '(n, l, s, _) => (IZR n - imean cl1) * (IZR l - imean cl2) * (IZR s - imean this)).
Proof. intros. rewrite mixedThirdOrderSum_spec, msum_balanced. reflexivity. Qed.
Print Assumptions c04_mixed_third_order.

(** X_[3,5) + X_[5,7) -> X_[9,11): n in {3, 4, 4} around the mean 7/2. *)
Example c04_example :
  computeFirstOrderSum (Iv 3 5) (Iv 5 7) (Iv 9 11) (Iv 0 1) = / 2 /\
  computeSecondOrderSum (Iv 3 5) (Iv 5 7) (Iv 9 11) (Iv 0 1) = 3 / 4 /\
  computeThirdOrderSum (Iv 5 7) (Iv 3 5) (Iv 9 11) (Iv 0 1) = / 8.
Proof.
  rewrite c04_first_order, c04_second_order, c04_third_order.
  replace (balanced (Iv 3 5) (Iv 5 7) (Iv 9 11) (Iv 0 1))
    with [(3, 6, 9, 0); (4, 5, 9, 0); (4, 6, 10, 0)]%Z by reflexivity.
  replace (balanced (Iv 5 7) (Iv 3 5) (Iv 9 11) (Iv 0 1))
    with [(5, 4, 9, 0); (6, 3, 9, 0); (6, 4, 10, 0)]%Z by reflexivity.
  unfold imean; cbn [Rsum ib ie]. zev. repeat split; lra.
Qed.

(** * C44 *)
Theorem c44_base : forall x, legendrePolynomial x 0 = 1 /\ legendrePolynomial x 1 = x.
Proof. intros; split; reflexivity. Qed.
Print Assumptions c44_base.

Theorem c44_recurrence : forall x n,
  (INR n + 2) * legendrePolynomial x (S (S n))
  = (2 * INR n + 3) * x * legendrePolynomial x (S n) - (INR n + 1) * legendrePolynomial x n.
Proof. exact legendre_rec. Qed.
Print Assumptions c44_recurrence.

Theorem c44_at_one : forall n, legendrePolynomial 1 n = 1.
Proof. exact legendre_at_1. Qed.
Print Assumptions c44_at_one.

Theorem c44_parity : forall x n,
  legendrePolynomial (- x) n = (-1) ^ n * legendrePolynomial x n.
Proof. exact legendre_parity. Qed.
Print Assumptions c44_parity.

Theorem c44_at_minus_one : forall n, legendrePolynomial (-1) n = (-1) ^ n.
Proof.
  intros n. replace (-1) with (- (1)) at 1 by lra. rewrite legendre_parity, legendre_at_1. lra.
Qed.
Print Assumptions c44_at_minus_one.

(** The truncated Legendre expansion of a table of coefficients. *)
Theorem c44_expansion : forall x cs,
  computeNthOrderLegendre x cs
  = Rsum (seq 0 (length cs)) (fun d => nth d cs 0 * legendrePolynomial x d).
Proof.
  intros x cs. unfold computeNthOrderLegendre. rewrite nthLegendreLoop_spec. 
  rewrite Rplus_0_l. apply Rsum_ext. intros d _. reflexivity.
Qed.
Print Assumptions c44_expansion.

Example c44_example : legendrePolynomial (1 / 2) 3 = - 7 / 16.
Proof. cbn. lra. Qed.
